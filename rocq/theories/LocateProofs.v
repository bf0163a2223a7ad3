From Verif Require Import Base BaseProofs Algo AlgoProofs World WorldProofs IndexMap IndexMapSpec IndexMapProofs ImSharedProofs Locate LocateSpec.
Open Scope nat_scope.

(** * Dofs of the entities of one rank *)
Lemma omap_concat_in {A B} (f : A -> option (list B)) (Q : A -> B -> Prop) l :
  (forall x, In x l -> exists y, f x = Some y /\ forall d, In d y <-> Q x d) ->
  exists r, omap f l = Some r /\ forall d, In d (concat r) <-> exists x, In x l /\ Q x d.
Proof.
  induction l as [|x l IH]; intro H.
  - exists []. split; [reflexivity|]. intro d. split; [intros []|intros (? & [] & _)].
  - destruct (H x (or_introl eq_refl)) as (y & Ey & Hy).
    destruct IH as (r & Er & Hr). { intros z Hz. apply H. now right. }
    exists (y :: r). split.
    + cbn [omap]. rewrite Ey. cbn [obind]. now rewrite Er.
    + intro d. cbn [concat]. rewrite in_app_iff, Hy, Hr. split.
      * intros [K|(z & Hz & K)]; [exists x|exists z]; cbn; auto.
      * intros (z & [<-|Hz] & K); [now left|right; eauto].
Qed.
Lemma omap_in {A B} (f : A -> option B) (Q : A -> B -> Prop) l :
  (forall x, In x l -> exists y, f x = Some y /\ forall d, d = y <-> Q x d) ->
  exists r, omap f l = Some r /\ forall d, In d r <-> exists x, In x l /\ Q x d.
Proof.
  induction l as [|x l IH]; intro H.
  - exists []. split; [reflexivity|]. intro d. split; [intros []|intros (? & [] & _)].
  - destruct (H x (or_introl eq_refl)) as (y & Ey & Hy).
    destruct IH as (r & Er & Hr). { intros z Hz. apply H. now right. }
    exists (y :: r). split.
    + cbn [omap]. rewrite Ey. cbn [obind]. now rewrite Er.
    + intro d. cbn [In]. rewrite Hr. split.
      * intros [<-|(z & Hz & K)]; [exists x; split; [now left|now apply Hy]|exists z; auto].
      * intros (z & [<-|Hz] & K); [left; symmetry; now apply Hy|right; eauto].
Qed.

Lemma find_ok closure ec ce entities : entities_ok closure ec ce entities ->
  exists pairs, find_local_entity_index (Some ec) (Some ce) entities = Some pairs /\
    Forall2 (fun e ci => ith_entity ce (fst ci) (snd ci) e) entities pairs.
Proof.
  intros [Hc Hn _]. unfold find_local_entity_index. cbn [obind].
  assert (K : forall l, incl l entities -> exists pairs,
    omap (fun e => cells <- nth_error ec e ;; c <- hd_error cells ;; row <- nth_error ce c ;; i <- index_in e row ;; Some (c, i)) l = Some pairs /\
    Forall2 (fun e ci => ith_entity ce (fst ci) (snd ci) e) l pairs).
  { induction l as [|e l IH]; intro Hl.
    - exists []. split; [reflexivity|constructor].
    - destruct IH as (ps & E & F). { intros x Hx. apply Hl. now right. }
      destruct (Hc e (Hl e (or_introl eq_refl))) as (c & cells & Ec & i & es & Ees & Ei).
      exists ((c, i) :: ps). split.
      + cbn [omap]. rewrite Ec. cbn [obind hd_error]. rewrite Ees. cbn [obind].
        rewrite (index_in_nth e es i); [|apply Hn; now apply nth_error_In in Ees|exact Ei].
        cbn [obind]. now rewrite E.
      + constructor; [|exact F]. exists es. auto. }
  apply K. intros x Hx. exact Hx.
Qed.

Lemma Forall2_in_r {A B} (R : A -> B -> Prop) l l' : Forall2 R l l' -> forall y, In y l' -> exists x, In x l /\ R x y.
Proof.
  induction 1 as [|x y l l' Hxy H IH]; intros z Hz; [easy|]. destruct Hz as [<-|Hz].
  - exists x. cbn. auto.
  - destruct (IH z Hz) as (w & Hw & K). exists w. cbn. auto.
Qed.
Lemma Forall2_in_l {A B} (R : A -> B -> Prop) l l' : Forall2 R l l' -> forall x, In x l -> exists y, In y l' /\ R x y.
Proof.
  induction 1 as [|x y l l' Hxy H IH]; intros z Hz; [easy|]. destruct Hz as [<-|Hz].
  - exists y. cbn. auto.
  - destruct (IH z Hz) as (w & Hw & K). exists w. cbn. auto.
Qed.

(** Dofs at the closure positions of the [i]-th entity of cell [c] *)
Definition cell_dofs_at (L : layout) (rows : list (list nat)) (ci : nat * nat) (d : nat) : Prop :=
  exists p row, closure_pos (ly_closure L) (ly_ebs L / ly_bs L) (snd ci) p /\ nth_error rows (fst ci) = Some row /\ nth_error row p = Some d.

Section Single.
Variables (L : layout) (m : imap) (rows ec ce : list (list nat)) (entities : list nat).
Hypothesis H : space_ok L m rows ec ce entities.

Lemma closure_at c i e : ith_entity ce c i e -> exists cl row, nth_error (ly_closure L) i = Some cl /\ nth_error rows c = Some row /\
  forall index k, In index cl -> k < ly_ebs L / ly_bs L -> ly_ebs L / ly_bs L * index + k < length row.
Proof.
  intros Hi. destruct (sp_cells _ _ _ _ _ _ H c i e Hi) as (row & Er & Hp).
  destruct Hi as (es & Ees & Ei).
  pose proof (en_count _ _ _ _ (sp_entities _ _ _ _ _ _ H) es (nth_error_In _ _ Ees)) as Hlen.
  apply nth_error_bound in Ei.
  destruct (nth_error_lt (ly_closure L) i ltac:(lia)) as (cl & Ecl).
  exists cl, row. repeat split; auto. intros index k Hin Hk. apply Hp.
  exists cl, index, k. auto.
Qed.

Lemma entity_dofs_ok pairs : Forall2 (fun e ci => ith_entity ce (fst ci) (snd ci) e) entities pairs ->
  exists l, entity_dofs L rows pairs = Some l /\ forall d, In d l <-> exists ci, In ci pairs /\ cell_dofs_at L rows ci d.
Proof.
  intro F. destruct (sp_bs _ _ _ _ _ _ H) as (_ & Hbs & Hc). unfold entity_dofs.
  assert (K : forall c i, In (c, i) pairs -> exists cl row, nth_error (ly_closure L) i = Some cl /\ nth_error rows c = Some row /\
    forall index k, In index cl -> k < ly_ebs L / ly_bs L -> ly_ebs L / ly_bs L * index + k < length row).
  { intros c i Hin. destruct (Forall2_in_r _ _ _ F _ Hin) as (e & _ & He). cbn in He. eapply closure_at, He. }
  destruct (Nat.eqb_spec (ly_ebs L) (ly_bs L)) as [E|N].
  - assert (E1 : ly_ebs L / ly_bs L = 1) by (rewrite E; apply Nat.div_same; lia). rewrite E1 in K.
    destruct (omap_concat_in
      (fun '(c, i) => row <- nth_error rows c ;; cl <- nth_error (ly_closure L) i ;; omap (nth_error row) cl)
      (cell_dofs_at L rows) pairs) as (r & Er & Hr).
    { intros (c, i) Hin. destruct (K c i Hin) as (cl & row & Ecl & Erow & Hp).
      rewrite Erow, Ecl. cbn [obind].
      destruct (omap_in (nth_error row) (fun p d => nth_error row p = Some d) cl) as (y & Ey & Hy).
      { intros p Hpin. specialize (Hp p 0 Hpin ltac:(lia)). destruct (nth_error_lt row p ltac:(lia)) as (d & Ed).
        exists d. split; [exact Ed|]. intro d'. rewrite Ed. split; [now intros ->|now intros [=]]. }
      exists y. split; [exact Ey|]. intro d. rewrite Hy. unfold cell_dofs_at, closure_pos. cbn [fst snd]. rewrite E1. split.
      - intros (p & Hpin & Ed). exists p, row. split; [|auto]. exists cl, p, 0. repeat split; auto; lia.
      - intros (p & row' & (cl' & index & k & Ecl' & Hi & Hk & ->) & Erow' & Ed).
        rewrite Erow in Erow'. injection Erow' as <-. rewrite Ecl in Ecl'. injection Ecl' as <-.
        exists index. split; [exact Hi|]. rewrite <- Ed. f_equal. lia. }
    rewrite Er. cbn [obind]. eauto.
  - destruct Hc as [Hc|Hc]; [easy|]. rewrite Hc, Nat.eqb_refl.
    assert (E1 : ly_ebs L / ly_bs L = ly_ebs L) by (rewrite Hc; apply Nat.div_1_r). rewrite E1 in K.
    destruct (omap_concat_in
      (fun '(c, i) => row <- nth_error rows c ;; cl <- nth_error (ly_closure L) i ;;
         r <- omap (fun index => omap (fun k => unrolled 1 row (ly_ebs L * index + k)) (seq 0 (ly_ebs L))) cl ;; Some (concat r))
      (cell_dofs_at L rows) pairs) as (r & Er & Hr).
    { intros (c, i) Hin. destruct (K c i Hin) as (cl & row & Ecl & Erow & Hp).
      rewrite Erow, Ecl. cbn [obind].
      destruct (omap_concat_in (fun index => omap (fun k => unrolled 1 row (ly_ebs L * index + k)) (seq 0 (ly_ebs L)))
        (fun index d => exists k, k < ly_ebs L /\ nth_error row (ly_ebs L * index + k) = Some d) cl) as (y & Ey & Hy).
      { intros index Hi.
        destruct (omap_in (fun k => unrolled 1 row (ly_ebs L * index + k)) (fun k d => nth_error row (ly_ebs L * index + k) = Some d)
          (seq 0 (ly_ebs L))) as (y & Ey & Hy).
        { intros k Hk. apply in_seq in Hk. specialize (Hp index k Hi ltac:(lia)).
          destruct (nth_error_lt row _ Hp) as (d & Ed). exists d. unfold unrolled.
          rewrite Nat.div_1_r, Ed, Nat.mod_1_r. cbn [obind]. split; [f_equal; lia|].
          intro d'. split; [now intros ->|now intros [=]]. }
        exists y. split; [exact Ey|]. intro d. rewrite Hy. split.
        - intros (k & Hk & Ed). apply in_seq in Hk. exists k. split; [lia|exact Ed].
        - intros (k & Hk & Ed). exists k. split; [apply in_seq; lia|exact Ed]. }
      exists (concat y). split; [now rewrite Ey|]. intro d. rewrite Hy. unfold cell_dofs_at, closure_pos. cbn [fst snd]. rewrite E1. split.
      - intros (index & Hi & k & Hk & Ed). exists (ly_ebs L * index + k), row. split; [|auto]. exists cl, index, k. auto.
      - intros (p & row' & (cl' & index & k & Ecl' & Hi & Hk & ->) & Erow' & Ed).
        rewrite Erow in Erow'. injection Erow' as <-. rewrite Ecl in Ecl'. injection Ecl' as <-. eauto. }
    rewrite Er. cbn [obind]. eauto.
Qed.
End Single.

(** * Exchange with the neighbours *)
Lemma l2g_at m i g : local_to_global m i = Some g <-> at_global m i g.
Proof.
  unfold local_to_global, at_global, size_local. destruct (Nat.ltb_spec i (im_hi m - im_lo m)) as [E|E].
  - split.
    + intros [= <-]. left. auto.
    + intros [(_ & ->)|(k & -> & _)]; [reflexivity|lia].
  - split.
    + intro K. right. exists (i - (im_hi m - im_lo m)). split; [lia|exact K].
    + intros [(K & _)|(k & -> & K)]; [lia|]. now replace (im_hi m - im_lo m + k - (im_hi m - im_lo m)) with k by lia.
Qed.
Lemma l2g_ex m i : i < im_hi m - im_lo m + length (im_ghosts m) -> exists g, local_to_global m i = Some g.
Proof.
  intro Hi. unfold local_to_global, size_local. destruct (Nat.ltb_spec i (im_hi m - im_lo m)) as [E|E]; [eauto|].
  apply nth_error_lt. lia.
Qed.
Definition glob (m : imap) (bs d : nat) : nat :=
  match local_to_global m (d / bs) with Some g => bs * g + d mod bs | None => 0 end.

Section Remote.
Variables (P : nat) (maps : nat -> imap).
Hypothesis Hmaps : maps_ok P maps.

Lemma at_inj r i j g : r < P -> at_global (maps r) i g -> at_global (maps r) j g -> i = j.
Proof.
  intros Hr A B. pose proof (mo_once _ _ Hmaps r Hr) as Hn. pose proof (fun x => ghost_not_owned P maps Hmaps r x Hr) as Hg.
  destruct A as [(A1 & A2)|(k & -> & A)], B as [(B1 & B2)|(l & -> & B)].
  - lia.
  - exfalso. apply (Hg g). { eapply nth_error_In, B. } subst g. split; lia.
  - exfalso. apply (Hg g). { eapply nth_error_In, A. } subst g. split; lia.
  - f_equal. eapply NoDup_nth_error; [exact Hn| |now rewrite A, B]. now apply nth_error_bound in A.
Qed.
Lemma at_fun m i g g' : at_global m i g -> at_global m i g' -> g = g'.
Proof. rewrite <- !l2g_at. intros -> [= <-]. reflexivity. Qed.

Lemma same_refl bs r d : d / bs < im_hi (maps r) - im_lo (maps r) + length (im_ghosts (maps r)) -> same_dof bs (maps r) d (maps r) d.
Proof.
  intro Hd. destruct (l2g_ex (maps r) (d / bs) Hd) as (g & Eg). apply l2g_at in Eg.
  exists g. auto.
Qed.
Lemma same_inj bs r m d e e' : r < P -> 0 < bs -> same_dof bs m d (maps r) e -> same_dof bs m d (maps r) e' -> e = e'.
Proof.
  intros Hr Hb (g & A & B & C) (g' & A' & B' & C'). rewrite (at_fun _ _ _ _ A' A) in B'.
  rewrite (Nat.div_mod e bs), (Nat.div_mod e' bs) by lia. rewrite <- C, <- C'.
  now rewrite (at_inj r _ _ _ Hr B B').
Qed.
Lemma same_sym bs m m' d e : same_dof bs m d m' e -> same_dof bs m' e m d.
Proof. intros (g & A & B & C). exists g. auto. Qed.

(** One received dof *)
Lemma dof_here_ok r q bs d : r < P -> 0 < bs -> d / bs < im_hi (maps q) - im_lo (maps q) + length (im_ghosts (maps q)) ->
  (exists e, dof_here (maps r) bs (glob (maps q) bs d) = [e] /\ same_dof bs (maps q) d (maps r) e) \/
  (dof_here (maps r) bs (glob (maps q) bs d) = [] /\ forall e, ~ same_dof bs (maps q) d (maps r) e).
Proof.
  intros Hr Hb Hd. destruct (l2g_ex (maps q) (d / bs) Hd) as (g & Eg). unfold glob. rewrite Eg. apply l2g_at in Eg.
  unfold dof_here. pose proof (Nat.mod_upper_bound d bs ltac:(lia)) as Hm.
  assert (E1 : (bs * g + d mod bs) / bs = g) by (rewrite Nat.mul_comm, Nat.div_add_l, Nat.div_small by lia; lia).
  assert (E2 : (bs * g + d mod bs) mod bs = d mod bs) by (rewrite Nat.add_comm, Nat.mul_comm, Nat.mod_add, Nat.mod_small by lia; reflexivity).
  rewrite E1, E2. pose proof (mo_range _ _ Hmaps r Hr) as Hrg.
  destruct (Nat.leb_spec (im_lo (maps r)) g) as [G1|G1], (Nat.ltb_spec g (im_hi (maps r))) as [G2|G2]; cbn [andb].
  { left. eexists. split; [reflexivity|]. exists g. split; [exact Eg|].
    replace (bs * g + d mod bs - bs * im_lo (maps r)) with (d mod bs + (g - im_lo (maps r)) * bs) by nia.
    rewrite Nat.div_add, Nat.mod_add, (Nat.div_small (d mod bs)), Nat.mod_mod by lia. split; [|reflexivity].
    left. lia. }
  all: destruct (index_in g (im_ghosts (maps r))) as [i|] eqn:Ei.
  1,3,5: apply index_in_some in Ei; left; eexists; split; [reflexivity|]; exists g; split; [exact Eg|];
    rewrite (Nat.mul_comm bs), Nat.div_add_l, (Nat.div_small (d mod bs)) by lia;
    rewrite (Nat.add_comm (_ * bs)), Nat.mod_add, Nat.mod_mod by lia; split; [|reflexivity];
    right; exists i; split; [unfold size_local; lia|exact Ei].
  all: right; split; [reflexivity|]; intros e (g' & A & B & _); rewrite (at_fun _ _ _ _ A Eg) in B;
    destruct B as [(B1 & B2)|(k & _ & B)]; [lia|]; apply nth_error_In, index_in_in in B as (j & Ej); congruence.
Qed.

Lemma dofs_global_ok m bs D : 0 < bs -> (forall d, In d D -> d / bs < im_hi m - im_lo m + length (im_ghosts m)) ->
  dofs_global m bs D = Some (map (glob m bs) D).
Proof.
  intros Hb HD. unfold dofs_global.
  assert (K : omap (local_to_global m) (map (fun d => d / bs) D) = Some (map (fun d => match local_to_global m (d / bs) with Some g => g | None => 0 end) D)).
  { induction D as [|d D IH]; [reflexivity|]. cbn [map omap].
    destruct (l2g_ex m (d / bs) (HD d (or_introl eq_refl))) as (g & Eg). rewrite Eg. cbn [obind].
    rewrite IH by (intros; apply HD; now right). reflexivity. }
  destruct (Nat.eqb_spec bs 1) as [->|N].
  - apply omap_map. intros d Hd. unfold glob. specialize (HD d Hd). rewrite Nat.div_1_r in *.
    destruct (l2g_ex m d HD) as (g & Eg). rewrite Eg, Nat.mod_1_r. f_equal. lia.
  - rewrite K. cbn [obind]. f_equal. clear K. induction D as [|d D IH]; [reflexivity|]. cbn [map combine].
    rewrite IH by (intros; apply HD; now right). f_equal. unfold glob.
    destruct (l2g_ex m (d / bs) (HD d (or_introl eq_refl))) as (g & Eg). now rewrite Eg.
Qed.

Lemma repeat_map {A B} (x : B) (l : list A) : repeat x (length l) = map (fun _ => x) l.
Proof. induction l as [|a l IH]; [reflexivity|]. cbn. now rewrite IH. Qed.
Lemma neigh_allgather_ok {A} nbrs (v : nat -> option A) (w : nat -> A) r : graph_ok P nbrs nbrs -> r < P ->
  (forall q, q < P -> v q = Some (w q)) -> neigh_allgather P nbrs v r = Some (map w (nbrs r)).
Proof.
  intros HG Hr Hv. unfold neigh_allgather. apply (neigh_alltoall_spec P nbrs nbrs _ (fun s _ => w s)); auto.
  intros s Hs. destruct (HG r Hr) as (_ & _ & _ & K). apply K in Hs as (Hs & _). rewrite (Hv s Hs). cbn [obind].
  f_equal. apply repeat_map.
Qed.

Lemma get_remote_ok nbrs bs dofs D r : graph_ok P nbrs nbrs -> r < P -> 0 < bs ->
  (forall q, q < P -> dofs q = Some (D q)) ->
  (forall q d, q < P -> In d (D q) -> d / bs < im_hi (maps q) - im_lo (maps q) + length (im_ghosts (maps q))) ->
  get_remote_dofs P nbrs maps bs dofs r =
    Some (concat (map (fun q => concat (map (fun d => dof_here (maps r) bs (glob (maps q) bs d)) (D q))) (nbrs r))).
Proof.
  intros HG Hr Hb Hd Hv. unfold get_remote_dofs.
  assert (K : match nbrs r with [] => Some [] | _ =>
    sizes <- neigh_allgather P nbrs (fun q => d <- dofs q ;; Some (length d)) r ;;
    blocks <- neigh_allgather P nbrs (fun q => d <- dofs q ;; dofs_global (maps q) bs d) r ;;
    if list_nat_eqb (map (@length nat) blocks) sizes then
      Some (concat (map (dof_here (maps r) bs) (concat blocks)))
    else None end =
    match nbrs r with [] => Some [] | _ => Some (concat (map (dof_here (maps r) bs) (concat (map (fun q => map (glob (maps q) bs) (D q)) (nbrs r))))) end).
  { rewrite (neigh_allgather_ok nbrs _ (fun q => length (D q))); auto.
    2:{ intros q Hq. now rewrite (Hd q Hq). }
    rewrite (neigh_allgather_ok nbrs _ (fun q => map (glob (maps q) bs) (D q))); auto.
    2:{ intros q Hq. rewrite (Hd q Hq). cbn [obind]. apply dofs_global_ok; eauto. }
    cbn [obind]. rewrite map_map, (map_ext (fun x => length (map (glob (maps x) bs) (D x))) (fun q => length (D q))) by (intro; apply map_length).
    now rewrite list_nat_eqb_refl. }
  rewrite K. destruct (nbrs r) as [|q0 l]; [reflexivity|]. f_equal.
  generalize (q0 :: l). clear. intro l. induction l as [|q l IH]; [reflexivity|].
  cbn [map concat]. rewrite map_app, concat_app, IH. f_equal. now rewrite map_map.
Qed.

Lemma sym_graph : graph_ok P (sym_neighbours maps) (sym_neighbours maps) /\ forall r q, r < P -> In q (sym_neighbours maps r) <-> q < P /\ adjacent maps r q.
Proof.
  assert (K : forall r q, r < P -> In q (sym_neighbours maps r) <-> q < P /\ adjacent maps r q).
  { intros r q Hr. unfold sym_neighbours, adjacent. rewrite sort_uniq_in, in_app_iff.
    rewrite (src_in P maps Hmaps r q Hr), (dest_in P maps Hmaps r q Hr). split.
    - intros [A|(A & B)]; [|auto]. split; [|now left]. now apply (owner_lt P maps Hmaps r q Hr).
    - intros (A & [B|B]); auto. }
  split; [|exact K]. intros r Hr.
  assert (N : NoDup (sym_neighbours maps r)) by apply sort_uniq_NoDup.
  assert (I : forall d, In d (sym_neighbours maps r) <-> d < P /\ In r (sym_neighbours maps d)).
  { intro d. rewrite (K r d Hr). split.
    - intros (A & B). split; [exact A|]. apply K; [exact A|]. split; [exact Hr|]. unfold adjacent in *. tauto.
    - intros (A & B). split; [exact A|]. apply K in B as (_ & B); [|exact A]. unfold adjacent in *. tauto. }
  auto.
Qed.

Lemma remote_in nbrs bs D r : r < P -> 0 < bs -> (forall q, In q (nbrs r) -> q < P) ->
  (forall q d, q < P -> In d (D q) -> d / bs < im_hi (maps q) - im_lo (maps q) + length (im_ghosts (maps q))) ->
  forall e, In e (concat (map (fun q => concat (map (fun d => dof_here (maps r) bs (glob (maps q) bs d)) (D q))) (nbrs r))) <->
    exists q d, In q (nbrs r) /\ In d (D q) /\ same_dof bs (maps q) d (maps r) e.
Proof.
  intros Hr Hb Hn Hv e. rewrite in_concat. split.
  - intros (l & Hl & He). apply in_map_iff in Hl as (q & <- & Hq). apply in_concat in He as (l' & Hl' & He).
    apply in_map_iff in Hl' as (d & <- & Hd). exists q, d. split; [exact Hq|]. split; [exact Hd|].
    destruct (dof_here_ok r q bs d Hr Hb (Hv q d (Hn q Hq) Hd)) as [(e' & E & S)|(E & S)]; rewrite E in He; [|easy].
    now destruct He as [<-|[]].
  - intros (q & d & Hq & Hd & S). eexists. split; [apply in_map, Hq|]. apply in_concat. eexists. split; [apply in_map, Hd|].
    destruct (dof_here_ok r q bs d Hr Hb (Hv q d (Hn q Hq) Hd)) as [(e' & E & S')|(E & S')]; rewrite E.
    + left. eapply same_inj; eauto.
    + elim (S' e S).
Qed.

(** For an owned dof the ranks that have it are neighbours of the owner. *)
Lemma owned_adjacent bs r q d e : r < P -> q < P -> e / bs < im_hi (maps r) - im_lo (maps r) ->
  same_dof bs (maps q) d (maps r) e -> q = r \/ adjacent maps r q.
Proof.
  intros Hr Hq He (g & A & B & _). destruct (Nat.eq_dec q r) as [->|N]; [now left|right].
  destruct B as [(B1 & B2)|(k & B & _)]; [|lia].
  assert (O : owns (maps r) g) by (split; lia).
  destruct A as [(A1 & A2)|(k & _ & A)].
  - exfalso. apply N. eapply (owner_unique P maps Hmaps); eauto. split; lia.
  - assert (Hk : k < length (im_owners (maps q))) by (rewrite (mo_len _ _ Hmaps q Hq); now apply nth_error_bound in A).
    destruct (nth_error_lt _ _ Hk) as (o & Eo). destruct (mo_owner _ _ Hmaps q k g o Hq A Eo) as (Ho & _ & Hog).
    right. rewrite (owner_unique P maps Hmaps r o g Hr Ho O Hog). eapply nth_error_In, Eo.
Qed.
End Remote.

Lemma ith_fun ce c i j e : (forall es, In es ce -> NoDup es) -> ith_entity ce c i e -> ith_entity ce c j e -> i = j.
Proof.
  intros Hn (es & Ees & Ei) (es' & Ees' & Ej). rewrite Ees in Ees'. injection Ees' as <-.
  refine (proj1 (NoDup_nth_error es) (Hn es (nth_error_In _ _ Ees)) i j _ _); [now apply nth_error_bound in Ei|now rewrite Ei, Ej].
Qed.
Lemma located_here_ok L maps rows ec ce entities q : space_ok L (maps q) (rows q) (ec q) (ce q) (entities q) ->
  exists l, located_here L rows (fun q => Some (ec q)) (fun q => Some (ce q)) entities q = Some l /\
    StronglySorted lt l /\ forall d, In d l <-> lies_on L (rows q) (ce q) (entities q) d.
Proof.
  intro H. unfold located_here.
  destruct (find_ok _ _ _ _ (sp_entities _ _ _ _ _ _ H)) as (pairs & Ep & F). rewrite Ep. cbn [obind].
  destruct (entity_dofs_ok _ _ _ _ _ _ H pairs F) as (l & El & Hl). rewrite El. cbn [obind].
  exists (sort_uniq l). split; [reflexivity|]. split; [apply sort_uniq_sorted|].
  intro d. rewrite sort_uniq_in, Hl. unfold lies_on. split.
  - intros ((c, i) & Hin & p & row & A & B & C). destruct (Forall2_in_r _ _ _ F _ Hin) as (e & He & Hi). cbn [fst snd] in *.
    exists e, c. split; [exact He|]. exists i, p, row. auto.
  - intros (e & c & He & Ho). destruct (Forall2_in_l _ _ _ F _ He) as ((c', i') & Hin & Hi). cbn [fst snd] in Hi.
    destruct (sp_conforming _ _ _ _ _ _ H e c c' d He (ex_intro _ i' Hi) Ho) as (i & p & row & A & B & C & D).
    rewrite (ith_fun _ _ _ _ _ (en_once _ _ _ _ (sp_entities _ _ _ _ _ _ H)) A Hi) in B.
    exists (c', i'). split; [exact Hin|]. exists p, row. auto.
Qed.

Section World.
Variables (P : nat) (L : layout) (maps : nat -> imap) (rows ec ce : nat -> list (list nat)) (entities : nat -> list nat).
Hypothesis Hmaps : maps_ok P maps.
Hypothesis Hs : forall q, q < P -> space_ok L (maps q) (rows q) (ec q) (ce q) (entities q).

Notation on q := (lies_on L (rows q) (ce q) (entities q)).
Notation loc := (locate_dofs_topological P L maps rows (fun q => Some (ec q)) (fun q => Some (ce q)) entities).

Lemma lies_valid q d : q < P -> on q d -> d / dof_unit L < im_hi (maps q) - im_lo (maps q) + length (im_ghosts (maps q)).
Proof.
  intros Hq (e & c & _ & i & p & row & _ & _ & A & B). eapply (sp_dofs _ _ _ _ _ _ (Hs q Hq)).
  - eapply nth_error_In, A.
  - eapply nth_error_In, B.
Qed.
Lemma unit_pos r : r < P -> 0 < dof_unit L.
Proof. intro Hr. unfold dof_unit. destruct (sp_bs _ _ _ _ _ _ (Hs r Hr)) as (A & _). destruct (_ =? _); lia. Qed.

Lemma located_local r : r < P -> exists l, loc false r = Some l /\ StronglySorted lt l /\ forall d, In d l <-> on r d.
Proof.
  intro Hr. destruct (located_here_ok L maps rows ec ce entities r (Hs r Hr)) as (l & E & S & H).
  exists l. unfold locate_dofs_topological. rewrite E. auto.
Qed.

Lemma located_remote r : r < P -> exists l, loc true r = Some l /\ StronglySorted lt l /\
  forall d, In d l <-> on r d \/ exists q d', q < P /\ adjacent maps r q /\ on q d' /\ same_dof (dof_unit L) (maps q) d' (maps r) d.
Proof.
  intro Hr. pose proof (unit_pos r Hr) as Hu.
  set (D := fun q => match located_here L rows (fun q => Some (ec q)) (fun q => Some (ce q)) entities q with Some l => l | None => [] end).
  assert (HD : forall q, q < P -> located_here L rows (fun q => Some (ec q)) (fun q => Some (ce q)) entities q = Some (D q) /\ forall d, In d (D q) <-> on q d).
  { intros q Hq. destruct (located_here_ok L maps rows ec ce entities q (Hs q Hq)) as (l & E & _ & H). unfold D. rewrite E. auto. }
  unfold locate_dofs_topological. destruct (HD r Hr) as (Er & Hin). rewrite Er. cbn [obind]. fold (dof_unit L).
  destruct (sym_graph P maps Hmaps) as (HG & Hadj).
  rewrite (get_remote_ok P maps (sym_neighbours maps) (dof_unit L) _ D r HG Hr Hu); [|intros q Hq; apply HD, Hq|].
  2:{ intros q d Hq Hd. apply lies_valid; [exact Hq|]. now apply HD. }
  cbn [obind]. eexists. split; [reflexivity|]. split; [apply sort_uniq_sorted|].
  intro d. rewrite sort_uniq_in, in_app_iff, Hin, (remote_in P maps Hmaps).
  - split; (intros [A|A]; [now left|right]).
    + destruct A as (q & d' & Hq & Hd & S). apply Hadj in Hq as (Hq & A); [|exact Hr]. exists q, d'. split; [exact Hq|].
      split; [exact A|]. split; [now apply HD|exact S].
    + destruct A as (q & d' & Hq & A & Hd & S). exists q, d'. split; [now apply Hadj|]. split; [now apply HD|exact S].
  - exact Hr.
  - exact Hu.
  - intros q Hq. now apply Hadj in Hq.
  - intros q d' Hq Hd. apply lies_valid; [exact Hq|]. now apply HD.
Qed.

Lemma located_owned r l d : r < P -> loc true r = Some l -> d / dof_unit L < im_hi (maps r) - im_lo (maps r) ->
  (In d l <-> exists q d', q < P /\ on q d' /\ same_dof (dof_unit L) (maps q) d' (maps r) d).
Proof.
  intros Hr E Hd. destruct (located_remote r Hr) as (l' & E' & _ & H). rewrite E in E'. injection E' as <-.
  rewrite H. split.
  - intros [A|(q & d' & A & _ & B & C)]; [|eauto]. exists r, d. split; [exact Hr|]. split; [exact A|].
    apply same_refl, Nat.lt_le_trans with (1 := Hd). apply Nat.le_add_r.
  - intros (q & d' & Hq & A & B). destruct (owned_adjacent P maps Hmaps _ r q d' d Hr Hq Hd B) as [->|K]; [|right; exists q, d'; auto].
    left. assert (R : same_dof (dof_unit L) (maps r) d' (maps r) d') by (apply same_refl, lies_valid; auto).
    now rewrite (same_inj P maps Hmaps _ r _ _ _ _ Hr (unit_pos r Hr) B R).
Qed.
Lemma located_sound r l d : r < P -> loc true r = Some l -> In d l ->
  exists q d', q < P /\ on q d' /\ same_dof (dof_unit L) (maps q) d' (maps r) d.
Proof.
  intros Hr E Hd. destruct (located_remote r Hr) as (l' & E' & _ & H). rewrite E in E'. injection E' as <-.
  apply H in Hd as [A|(q & d' & A & _ & B & C)]; [|eauto]. exists r, d. split; [exact Hr|]. split; [exact A|].
  apply same_refl, lies_valid; auto.
Qed.
End World.
