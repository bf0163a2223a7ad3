(** Property C34: sub-dofmaps and collapsed dofmaps. *)
From Verif Require Import Base BaseProofs Algo Nbx World IndexMap IndexMapSpec PropLocalIndexing CellTypes DofBuilder DofSpec RenumSpec DofUse PropDofs SubDofs SubDofsSpec SubDofsProofs CollapseProofs CollapseBlocked.
Open Scope nat_scope.

(** ** Sub-layouts and sub-dofmaps, one component at a time as [FunctionSpace::sub] does *)
Theorem C34_sub_layout l c s : lay_ok l -> nth_error (lay_subs l) c = Some s ->
  sub_layout l [c] = sub_at l [c] /\ sub_at l [c] = Some s /\ sub_view l [c] = positions l [c] /\ positions l [c] = Some (lay_pmap s).
Proof.
  intros Hl Hc. rewrite (sub_view_one l c s Hl Hc), (positions_one l c s Hl Hc). cbn [sub_layout sub_at ofold]. rewrite Hc. cbn [obind]. auto.
Qed.
Print Assumptions C34_sub_layout.

(** Dof [j] of the sub-dofmap at the end of a path is the dof of the cell in the position that the
    path gives to [j]. *)
Theorem C34_sub_dofmap component d s : component <> [] -> dmap_ok d -> sub_at (dp_lay d) component = Some s ->
  exists d' pos, extract_path d component = Some d' /\ positions (dp_lay d) component = Some pos /\ length pos = lay_width s /\
    dp_lay d' = s /\ dp_ibs d' = dp_ibs d /\ dp_bs d' = 1 /\ length (dp_rows d') = length (dp_rows d) /\
    forall c row, nth_error (dp_rows d) c = Some row -> exists row', nth_error (dp_rows d') c = Some row' /\ length row' = lay_width s /\
      forall j p, nth_error pos j = Some p -> exists v, nth_error row' j = Some v /\ unblocked (dp_bs d) row p = Some v.
Proof. exact (extract_dofs component d s). Qed.
Print Assumptions C34_sub_dofmap.

(** ** A Taylor-Hood element on the two triangles of PropDofs.v: quadratic velocity with two
    components, linear pressure *)
Definition p1 : layout := {| ly_dofs := [[[0]; [1]; [2]]; [[]; []; []]; [[]]]; ly_num := 3 |}.
Definition p2 : layout := {| ly_dofs := [[[0]; [1]; [2]]; [[3]; [4]; [5]]; [[]]]; ly_num := 6 |}.
Definition th_core : layout := {| ly_dofs := [[[0; 1; 12]; [2; 3; 13]; [4; 5; 14]]; [[6; 7]; [8; 9]; [10; 11]]; [[]]]; ly_num := 15 |}.
Definition th : lay := Lay 1 th_core []
  [Lay 2 p2 [0; 1; 2; 3; 4; 5; 6; 7; 8; 9; 10; 11] [Lay 1 p2 [0; 2; 4; 6; 8; 10] []; Lay 1 p2 [1; 3; 5; 7; 9; 11] []]; Lay 1 p1 [12; 13; 14] []].
Definition th_build := build_dofmap_data 2 (senders 2) ex_topo [th_core] (fun _ => None) (fun _ => [0; 1]).
Definition th_maps (r : nat) : imap := match th_build r with Some x => fst x | None => mkIM 0 0 0 [] [] [] [] end.
Definition th_rows (r : nat) : list (list nat) := match th_build r with Some x => nth 0 (snd x) [] | None => [] end.
Definition th_dmap (r : nat) : dmap := {| dp_lay := th; dp_ibs := 1; dp_rows := th_rows r; dp_bs := 1 |}.
Definition th_sub (component : list nat) (r : nat) : dmap := match extract_path (th_dmap r) component with Some d => d | None => th_dmap r end.

Example th_ok : lay_ok th.
Proof.
  constructor. intros s [<-|[<-|[]]]; (split; [reflexivity|]); (split; [cbn; lia|]); constructor; cbn [lay_subs].
  - intros s [<-|[<-|[]]]; (split; [reflexivity|]); (split; [cbn; lia|]); constructor; intros s [].
  - intros s [].
Qed.
Example C34_example_sub : dmap_ok (th_dmap 0) /\ th_rows 0 = [[0; 1; 2; 3; 12; 13; 4; 5; 6; 7; 8; 9; 10; 11; 14]; [2; 3; 12; 13; 15; 16; 17; 18; 19; 20; 4; 5; 11; 14; 21]] /\
  positions th [0; 1] = Some [1; 3; 5; 7; 9; 11] /\
  option_map dp_rows (extract_path (th_dmap 0) [0; 1]) = Some [[1; 3; 13; 5; 7; 9]; [3; 13; 16; 18; 20; 5]] /\
  option_map dp_rows (extract_path (th_dmap 0) [1]) = Some [[10; 11; 14]; [11; 14; 21]].
Proof.
  assert (E : th_rows 0 = [[0; 1; 2; 3; 12; 13; 4; 5; 6; 7; 8; 9; 10; 11; 14]; [2; 3; 12; 13; 15; 16; 17; 18; 19; 20; 4; 5; 11; 14; 21]]) by (vm_compute; reflexivity).
  split; [|split; [exact E|split; [reflexivity|split; vm_compute; reflexivity]]].
  split; [exact th_ok|]. split; [cbn; lia|]. cbn [dp_rows th_dmap]. rewrite E. intros row [<-|[<-|[]]]; reflexivity.
Qed.
(** A path of two components given at once is followed from the root at every step: [0; 1]
    selects the pressure as layout, and its positions 12 to 14 are read outside the list of the
    twelve positions of the velocity; [0; 0] gives the velocity instead of its first component. *)
Theorem C34_nested_path_refuted :
  lay_ok th /\ option_map (fun s => (lay_core s, lay_pmap s)) (sub_at th [0; 1]) = Some (p2, [1; 3; 5; 7; 9; 11]) /\
  option_map (fun s => (lay_core s, lay_pmap s)) (sub_layout th [0; 1]) = Some (p1, [12; 13; 14]) /\
  positions th [0; 1] = Some [1; 3; 5; 7; 9; 11] /\ sub_view th [0; 1] = None /\
  positions th [0; 0] = Some [0; 2; 4; 6; 8; 10] /\ sub_view th [0; 0] = Some [0; 1; 2; 3; 4; 5; 6; 7; 8; 9; 10; 11].
Proof. split; [exact th_ok|]. vm_compute. repeat (split; [reflexivity|]). reflexivity. Qed.
Print Assumptions C34_nested_path_refuted.

(** ** Collapse *)
(** The view of a space without blocks, or of one component of a space with blocks.  [view_ok] and
    [collapsed_ok] are in SubDofsSpec.v. *)
Theorem C34_collapse_view P maps ibs views : maps_ok P maps -> view_ok P maps ibs views ->
  exists new rows cmap, (forall r, r < P -> collapse_view P maps ibs views r = Some (new r, rows r, cmap r)) /\
    collapsed_ok P maps ibs views new rows cmap.
Proof. exact (collapse_ok P maps ibs views). Qed.
Print Assumptions C34_collapse_view.

(** A view with blocks in a space without, on cells of one type: a new dofmap is built.  The
    dofmap of the parent is as in C32; two new dofs have the same global number iff the old ones
    have. *)
Theorem C34_collapse_blocked P nbx tps L S bs pm pdofs pnum view pos J reorder order :
  nbx_oracle P nbx -> 0 < P -> dof_world P tps [S] ->
  (forall r, r < P -> length (tp_types (tps r) (tp_dim (tps r))) = 1) ->
  dofmap_ok P tps [L] pm (fun r => [pdofs r]) pnum ->
  (forall r, r < P -> lay_core (dp_lay (view r)) = S /\ lay_bs (dp_lay (view r)) = bs) ->
  (forall r, r < P -> same_places (tps r) L S bs pos J) -> length pos = bs * ly_num S ->
  (forall r, r < P -> view_of (pdofs r) pos (dp_rows (view r))) ->
  (forall rq q, required (tps 0) [S] = Some rq -> q < P ->
     Permutation (order q) (seq 0 (length rq)) /\
     forall f, reorder q = Some f -> reorder_wf f (lsum (map (fun r => snd r * size_local (req_map (tps q) r)) rq))) ->
  exists dm rows num cmap, (forall r, r < P -> collapse_blocked P nbx tps view reorder order r = Some (dm r, rows r, cmap r)) /\
    dofmap_ok P tps [S] dm (fun r => [rows r]) num /\
    (forall r, r < P -> length (cmap r) = map_size (dm r) * bs) /\
    (forall r c i x k v, r < P -> entry (rows r) c i x -> k < bs -> entry (dp_rows (view r)) c (bs * i + k) v -> nth_error (cmap r) (bs * x + k) = Some v) /\
    (forall r, r < P -> (forall x, x < map_size (dm r) -> exists c i, entry (rows r) c i x) ->
       NoDup (cmap r) /\ forall d, In d (cmap r) <-> exists c i, entry (dp_rows (view r)) c i d) /\
    (forall r r' c i x k v c' i' x' k' v' N N' G G', r < P -> r' < P ->
       entry (rows r) c i x -> k < bs -> entry (dp_rows (view r)) c (bs * i + k) v ->
       entry (rows r') c' i' x' -> k' < bs -> entry (dp_rows (view r')) c' (bs * i' + k') v' ->
       local_to_global (dm r) x = Some N -> local_to_global (dm r') x' = Some N' -> local_to_global (pm r) v = Some G -> local_to_global (pm r') v' = Some G' ->
       (N = N' /\ k = k' <-> G = G')).
Proof. exact (collapse_blocked_ok P nbx tps L S bs pm pdofs pnum view pos J reorder order). Qed.
Print Assumptions C34_collapse_blocked.

(** *** Examples *)
(** Layouts of the triangle with [a] dofs on vertices, [b] on edges, [c] inside *)
Section Tri.
Variables (v0 v1 v2 e0 e1 e2 f : list nat) (n : nat).
Definition tri : layout := {| ly_dofs := [[v0; v1; v2]; [e0; e1; e2]; [f]]; ly_num := n |}.
Hypothesis Hv : length v1 = length v0 /\ length v2 = length v0.
Hypothesis He : length e1 = length e0 /\ length e2 = length e0.
Hypothesis Hp : Permutation (concat (concat (ly_dofs tri))) (seq 0 n).
Lemma tri_on r i d e t ds : on_entity (ex_topo r) [tri] i d e t ds ->
  i = 0 /\ (d = 0 /\ t = Point /\ length ds = length v0 \/ d = 1 /\ t = Interval /\ length ds = length e0 \/ d = 2 /\ t = Triangle /\ length ds = length f).
Proof using Hv He.
  intros (ct & ly & eds & H1 & H2 & H3 & H4 & ->). destruct i as [|i]; [|destruct i; discriminate]. split; [reflexivity|]. injection H1 as <-. injection H2 as <-.
  destruct d as [|[|[|d]]]; [| | |destruct d; discriminate]; injection H3 as <-.
  - left. destruct e as [|[|[|e]]]; [| | |destruct e; discriminate]; injection H4 as <-; (split; [reflexivity|split; [reflexivity|lia]]).
  - right; left. destruct e as [|[|[|e]]]; [| | |destruct e; discriminate]; injection H4 as <-; (split; [reflexivity|split; [reflexivity|lia]]).
  - right; right. destruct e as [|e]; [|destruct e; discriminate]; injection H4 as <-; (split; [reflexivity|split; [reflexivity|lia]]).
Qed.
Lemma tri_ok r : r < 2 -> tp_ok (ex_topo r) [tri].
Proof using Hv He Hp.
  intros Hr. constructor.
  - intros [|[|[|d]]] H; cbn; repeat constructor; auto.
  - intros ct [<-|[]]. reflexivity.
  - reflexivity.
  - intros [|i] ct ly H1 H2; [|destruct i; discriminate]. injection H1 as <-. injection H2 as <-. split; [reflexivity|]. split; [|exact Hp].
    intros [|[|[|d]]] eds H; try (destruct d; discriminate); injection H as <-; reflexivity.
  - intros i d e t ds i' e' ds' H H'. apply tri_on in H as (_ & H). apply tri_on in H' as (_ & H').
    destruct H as [(-> & _ & L)|[(-> & _ & L)|(-> & _ & L)]]; destruct H' as [(? & _ & L')|[(? & _ & L')|(? & _ & L')]]; try discriminate; now rewrite L, L'.
  - intros i d e t ds H _. apply tri_on in H as (_ & [(-> & -> & _)|[(-> & -> & _)|(-> & -> & _)]]); now left.
  - intros i d et e t ds Hd H _ _. destruct d as [|[|d]]; [| |cbn in Hd; lia]; destruct r; discriminate.
  - exact (tk_links _ _ (ex_topo_ok r Hr)).
Qed.
Lemma tri_world : dof_world 2 ex_topo [tri].
Proof using Hv He Hp.
  destruct C32_example as (_ & W & _). constructor.
  - intros r Hr. now apply tri_ok.
  - reflexivity.
  - reflexivity.
  - assert (G : forall d, d < 3 -> maps_ok 2 (fun r => tp_map (ex_topo r) d 0)).
    { intros d Hd. destruct d as [|[|[|d]]]; [| | |lia].
      - apply (dw_maps _ _ _ W 0 0 1). split; [lia|]. exists 0, 0, Point, [0]. split; [exists Triangle, ex_layout, [[0]; [1]; [2]]; auto 10|auto].
      - apply (dw_maps _ _ _ W 1 0 2). split; [lia|]. exists 0, 0, Interval, [3; 4]. split; [exists Triangle, ex_layout, [[3; 4]; [5; 6]; [7; 8]]; auto 10|auto].
      - apply (dw_maps _ _ _ W 2 0 1). split; [lia|]. exists 0, 0, Triangle, [9]. split; [exists Triangle, ex_layout, [[9]]; auto 10|auto]. }
    intros d et k (_ & i & e & t & ds & Hon & _). apply tri_on in Hon as (_ & [(-> & _)|[(-> & _)|(-> & _)]]); [exact (G 0 ltac:(lia))|exact (G 1 ltac:(lia))|exact (G 2 ltac:(lia))].
  - intros d et k r (_ & i & e & t & ds & Hon & _) Hr. apply tri_on in Hon as (_ & [(-> & _)|[(-> & _)|(-> & _)]]); destruct r as [|[|r]]; try reflexivity; lia.
Qed.
End Tri.
Lemma th_perm : Permutation (concat (concat (ly_dofs th_core))) (seq 0 15).
Proof. apply NoDup_Permutation; [cbn; repeat first [apply NoDup_nil | apply NoDup_cons; [cbn; lia|]]|apply seq_NoDup|]. intro x. rewrite in_seq. cbn. lia. Qed.
Example th_world : dof_world 2 ex_topo [th_core].
Proof. apply tri_world; [split; reflexivity|split; reflexivity|exact th_perm]. Qed.
Example p2_world : dof_world 2 ex_topo [p2].
Proof. apply tri_world; [split; reflexivity|split; reflexivity|apply Permutation_refl]. Qed.
Example th_dofmap_ok : exists num, dofmap_ok 2 ex_topo [th_core] th_maps (fun r => [th_rows r]) num.
Proof.
  destruct (C32_global_dofs 2 (senders 2) ex_topo [th_core] (fun _ => None) (fun _ => [0; 1])) as (dm & dofs & num & E & H).
  - intros d r _. reflexivity.
  - lia.
  - exact th_world.
  - intros rq q Hq _. assert (length rq = 2) as -> by (vm_compute in Hq; injection Hq as <-; reflexivity). split; [apply Permutation_refl|discriminate].
  - exists num. fold th_build in E.
    assert (E1 : forall r, r < 2 -> dm r = th_maps r) by (intros r Hr; unfold th_maps; rewrite (E r Hr); reflexivity).
    assert (E2 : forall r, r < 2 -> dofs r = [th_rows r]).
    { intros r Hr. unfold th_rows. rewrite (E r Hr). cbn [snd]. destruct (do_shape _ _ _ _ _ _ H r Hr) as (Hl & _). destruct (dofs r) as [|a [|b l]]; try discriminate. reflexivity. }
    destruct H as [h1 h2 h3 h4 h5 h6 h7]. constructor.
    + destruct h1 as [g1 g2 g3 g4 g5 g6 g7 g8]. constructor.
      * rewrite <- E1; [exact g1|lia].
      * intros r Hr. rewrite <- !E1 by lia. auto.
      * intros r Hr. rewrite <- !E1 by lia. auto.
      * intros r Hr. rewrite <- !E1 by lia. auto.
      * intros r Hr. rewrite <- !E1 by lia. auto.
      * intros r k g o Hr. rewrite <- (E1 r) by lia. intros Hg Ho. destruct (g6 r k g o Hr Hg Ho) as (A & B & C). rewrite <- E1 by exact A. auto.
      * intros r Hr. rewrite <- !E1 by lia. auto.
      * intros r Hr. rewrite <- !E1 by lia. destruct (g8 r Hr) as (A & B). split; [exact A|]. intro s. rewrite B.
        split; intros (H1 & H2); (split; [exact H1|]); [rewrite <- E1|rewrite E1]; auto.
    + intros r Hr. rewrite <- E2 by exact Hr. auto.
    + intros r i c p d t x j Hr. rewrite <- E2 by exact Hr. now apply h3.
    + intros r d et n x j Hr. rewrite <- E1 by exact Hr. now apply h4.
    + intros r v Hr. rewrite <- E1 by exact Hr. now apply h5.
    + intros r r' d et n x j g G d' et' n' x' j' g' G' Hr Hr'. rewrite <- !E1 by assumption. now apply h6.
    + intros r d et n x j g G o Hr Ho. rewrite <- !E1 by assumption. now apply h7.
Qed.

(** The velocity is collapsed to a blocked dofmap. *)
Example th_places r : r < 2 -> same_places (ex_topo r) th_core p2 2 (seq 0 12) (fun _ _ j k => 2 * j + k).
Proof.
  intro Hr. split; [|intros; lia].
  intros d e t ds j p k (ct & ly & eds & H1 & H2 & H3 & H4 & ->) Hj Hk. injection H1 as <-. injection H2 as <-.
  destruct d as [|[|[|d]]]; [| | |destruct d; discriminate]; injection H3 as <-.
  - destruct e as [|[|[|e]]]; [| | |destruct e; discriminate]; injection H4 as <-; (destruct j as [|j]; [|destruct j; discriminate]); injection Hj as <-; destruct k as [|[|k]]; try lia;
      eexists; eexists; (split; [exists Triangle, th_core; eexists; repeat (split; [reflexivity|]); reflexivity|split; reflexivity]).
  - destruct e as [|[|[|e]]]; [| | |destruct e; discriminate]; injection H4 as <-; (destruct j as [|j]; [|destruct j; discriminate]); injection Hj as <-; destruct k as [|[|k]]; try lia;
      eexists; eexists; (split; [exists Triangle, th_core; eexists; repeat (split; [reflexivity|]); reflexivity|split; reflexivity]).
  - destruct e as [|e]; [|destruct e; discriminate]; injection H4 as <-. destruct j; discriminate.
Qed.
Example th_view r : r < 2 -> view_of (th_rows r) (seq 0 12) (dp_rows (th_sub [0] r)).
Proof.
  intro Hr. destruct r as [|[|r]]; [| |lia]; vm_compute; (split; [reflexivity|]); intros [|[|c]] row Hc; try (destruct c; discriminate); injection Hc as <-; eexists; split; reflexivity.
Qed.
Example C34_example_blocked : map (fun r => option_map (fun x => (im_lo (fst (fst x)), im_ghosts (fst (fst x)), snd (fst x), snd x))
    (collapse_blocked 2 (senders 2) ex_topo (th_sub [0]) (fun _ => None) (fun _ => [0; 1]) r)) [0; 1] =
  [Some (0, [5; 6; 7; 8], [[0; 1; 5; 2; 3; 4]; [1; 5; 6; 7; 8; 2]], [0; 1; 2; 3; 4; 5; 6; 7; 8; 9; 12; 13; 15; 16; 17; 18; 19; 20]);
   Some (5, [1; 2; 0; 3; 4], [[4; 0; 1; 2; 3; 5]; [6; 4; 0; 5; 7; 8]], [0; 1; 2; 3; 4; 5; 6; 7; 10; 11; 12; 13; 15; 16; 17; 18; 19; 20])].
Proof. vm_compute. reflexivity. Qed.

(** The pressure, and the second component of a quadratic space with blocks of two *)
Definition view_okb (maps : nat -> imap) (ibs : nat) (views : nat -> dmap) : bool :=
  let ds r := concat (dp_rows (views r)) in
  forallb (fun r => (lay_bs (dp_lay (views r)) <=? 1) && forallb (fun d => d / ibs <? map_size (maps r)) (ds r) &&
    forallb (fun d => forallb (fun d' => negb (d / ibs =? d' / ibs) || (d =? d')) (ds r)) (ds r) &&
    forallb (fun q => forallb (fun d => match local_to_global (maps q) (d / ibs) with None => true | Some g =>
      negb ((im_lo (maps r) <=? g) && (g <? im_hi (maps r))) || existsb (fun d' => match local_to_global (maps r) (d' / ibs) with Some g' => g =? g' | None => false end) (ds r) end) (ds q)) (seq 0 2)) (seq 0 2).
Lemma view_okb_ok maps ibs views : 0 < ibs -> view_okb maps ibs views = true -> view_ok 2 maps ibs views.
Proof.
  intros Hb H. unfold view_okb in H. rewrite forallb_forall in H.
  assert (G : forall r, r < 2 -> In r (seq 0 2)) by (intros r Hr; apply in_seq; lia).
  assert (Hc : forall r row d, In row (dp_rows (views r)) -> In d row -> In d (concat (dp_rows (views r)))) by (intros r row d H1 H2; apply in_concat; eauto).
  constructor; [exact Hb| | | |]; intros r.
  - intros Hr. specialize (H r (G r Hr)). rewrite !andb_true_iff in H. destruct H as (((H & _) & _) & _). now apply Nat.leb_le.
  - intros row d Hr H1 H2. specialize (H r (G r Hr)). rewrite !andb_true_iff in H. destruct H as (((_ & H) & _) & _). rewrite forallb_forall in H. apply Nat.ltb_lt, H. eauto.
  - intros row d row' d' Hr H1 H2 H3 H4 E. specialize (H r (G r Hr)). rewrite !andb_true_iff in H. destruct H as (((_ & _) & H) & _). rewrite forallb_forall in H. specialize (H d (Hc _ _ _ H1 H2)).
    rewrite forallb_forall in H. specialize (H d' (Hc _ _ _ H3 H4)). rewrite E, Nat.eqb_refl in H. now apply Nat.eqb_eq.
  - intros q row d g Hr Hq H1 H2 Eg (Ho1 & Ho2). specialize (H r (G r Hr)). rewrite !andb_true_iff in H. destruct H as (_ & H). rewrite forallb_forall in H. specialize (H q (G q Hq)).
    rewrite forallb_forall in H. specialize (H d (Hc _ _ _ H1 H2)). rewrite Eg in H. apply Nat.leb_le in Ho1. apply Nat.ltb_lt in Ho2. rewrite Ho1, Ho2 in H. cbn [andb negb orb] in H.
    apply existsb_exists in H. destruct H as (d' & Hd' & H). apply in_concat in Hd'. destruct Hd' as (row' & H3 & H4). exists row', d'. split; [exact H3|]. split; [exact H4|].
    destruct (local_to_global (maps r) (d' / ibs)); [|discriminate]. apply Nat.eqb_eq in H. now subst.
Qed.
Example C34_example_pressure : maps_ok 2 th_maps /\ view_ok 2 th_maps 1 (th_sub [1]) /\
  map (fun r => option_map (fun x => (im_lo (fst (fst x)), im_ghosts (fst (fst x)), snd (fst x), snd x)) (collapse_view 2 th_maps 1 (th_sub [1]) r)) [0; 1] =
  [Some (0, [2; 3], [[0; 1; 2]; [1; 2; 3]], [10; 11; 14; 21]); Some (2, [1; 0], [[2; 0; 1]; [3; 2; 0]], [8; 9; 14; 21])].
Proof.
  split; [destruct th_dofmap_ok as (num & H); exact (do_maps _ _ _ _ _ _ H)|]. split; [|vm_compute; reflexivity]. apply view_okb_ok; [lia|]. vm_compute. reflexivity.
Qed.
Definition vec_view (r : nat) : dmap :=
  let l := Lay 2 p1 [] [Lay 1 p1 [0; 2; 4] []; Lay 1 p1 [1; 3; 5] []] in
  match extract_sub_dofmap {| dp_lay := l; dp_ibs := 2; dp_rows := match tp_conn (ex_topo r) 0 0 0 with Some c => c | None => [] end; dp_bs := 2 |} [1] with Some d => d | None => th_dmap r end.
Example C34_example_component : view_ok 2 ex_maps 2 vec_view /\ map (fun r => dp_rows (vec_view r)) [0; 1] = [[[1; 3; 5]; [3; 5; 7]]; [[7; 1; 3]; [5; 7; 1]]] /\
  map (fun r => option_map (fun x => (im_lo (fst (fst x)), im_ghosts (fst (fst x)), snd (fst x), snd x)) (collapse_view 2 ex_maps 2 vec_view r)) [0; 1] =
  [Some (0, [2; 3], [[0; 1; 2]; [1; 2; 3]], [1; 3; 5; 7]); Some (2, [0; 1], [[3; 0; 1]; [2; 3; 0]], [1; 3; 5; 7])].
Proof.
  split; [apply view_okb_ok; [lia|]; vm_compute; reflexivity|]. split; vm_compute; reflexivity.
Qed.

(** ** Elements whose dofs are permuted on some cells *)
(** Two triangles 012 and 321 on one rank; two dofs with two values on each edge.  The parent is
    built with the dofs of edge 0 of the second cell exchanged (the edge runs against its global
    direction there); the collapsed dofmap is built without.  The two cells disagree on the dofs of
    the common edge and the map is right for the last cell only. *)
Definition pm_topo (r : nat) : topo :=
  {| tp_dim := 2; tp_types := fun d => match d with 0 => [Point] | 1 => [Interval] | 2 => [Triangle] | _ => [] end;
     tp_map := fun d et => match d with 0 => mkIM 0 4 4 [] [] [] [] | 1 => mkIM 0 5 5 [] [] [] [] | _ => mkIM 0 2 2 [] [] [] [] end;
     tp_conn := fun i d et => match d with 0 => Some [[0; 1; 2]; [3; 2; 1]] | 1 => Some [[0; 1; 2]; [0; 3; 4]] | _ => None end |}.
Definition pm_sub : layout := {| ly_dofs := [[[]; []; []]; [[0; 1]; [2; 3]; [4; 5]]; [[]]]; ly_num := 6 |}.
Definition pm_core : layout := {| ly_dofs := [[[]; []; []]; [[0; 1; 2; 3]; [4; 5; 6; 7]; [8; 9; 10; 11]]; [[]]]; ly_num := 12 |}.
Definition pm_perm (c : nat) (row : list nat) : list nat :=
  match c, row with S _, a0 :: a1 :: b0 :: b1 :: t => b0 :: b1 :: a0 :: a1 :: t | _, _ => row end.
Definition pm_rows : list (list nat) :=
  match build_dofmap_data 1 (senders 1) pm_topo [pm_core] (fun _ => None) (fun _ => [0]) 0 with Some (_, rows :: _) => permute_rows pm_perm rows | _ => [] end.
Definition pm_view (r : nat) : dmap := {| dp_lay := Lay 2 pm_sub (seq 0 12) []; dp_ibs := 1; dp_rows := pm_rows; dp_bs := 1 |}.
Theorem C34_permuted_collapse_refuted :
  pm_rows = [[0; 1; 2; 3; 4; 5; 6; 7; 8; 9; 10; 11]; [2; 3; 0; 1; 12; 13; 14; 15; 16; 17; 18; 19]] /\
  exists m rows cmap, collapse_blocked 1 (senders 1) pm_topo pm_view (fun _ => None) (fun _ => [0]) 0 = Some (m, rows, cmap) /\
    entry rows 0 0 0 /\ entry (dp_rows (pm_view 0)) 0 0 0 /\ nth_error cmap 0 = Some 2 /\
    entry rows 1 0 0 /\ entry (dp_rows (pm_view 0)) 1 0 2.
Proof.
  split; [vm_compute; reflexivity|]. eexists _, _, _. split; [vm_compute; reflexivity|].
  split; [eexists; split; reflexivity|]. split; [eexists; split; [vm_compute; reflexivity|reflexivity]|]. split; [reflexivity|].
  split; [eexists; split; reflexivity|]. eexists; split; [vm_compute; reflexivity|reflexivity].
Qed.
Print Assumptions C34_permuted_collapse_refuted.
