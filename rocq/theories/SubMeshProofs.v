(** Proofs for C66. *)
From Verif Require Import Base BaseProofs Algo AlgoProofs World IndexMap IndexMapSpec IndexMapProofs SubMap SubMapSpec SubMapProofs SubMesh SubMeshSpec RoundTrip PatternMats.
Open Scope nat_scope.

Lemma snd_combine {A B} (l : list A) (m : list B) : length l = length m -> map snd (combine l m) = m.
Proof. revert m. induction l as [|a l IH]; intros [|b m] H; cbn in *; try discriminate; [reflexivity|]. now rewrite IH by lia. Qed.

Lemma finite_choice {A} (R : nat -> A -> Prop) (d : A) m : (forall r, r < m -> exists a, R r a) -> exists f, forall r, r < m -> R r (f r).
Proof.
  induction m as [|m IH]; intro H; [exists (fun _ => d); intros; lia|]. destruct IH as (f & Hf); [intros; apply H; lia|]. destruct (H m) as (a & Ha); [lia|].
  exists (fun r => if r =? m then a else f r). intros r Hr. destruct (Nat.eqb_spec r m) as [->|N]; [exact Ha|apply Hf; lia].
Qed.

(** ** Sub index maps *)
Lemma sub_numbering_ok P maps indices allow : maps_ok P maps ->
  (forall r, r < P -> StronglySorted lt (indices r) /\ forall i, In i (indices r) -> i < map_size (maps r)) ->
  (allow = true \/ forall r q g, r < P -> q < P -> owns (maps r) g -> marks maps indices q g -> marks maps indices r g) ->
  exists subs s2p, (forall r, r < P -> create_sub_index_map P maps indices false allow r = Some (subs r, s2p r)) /\
    sub_numbering P maps (fun r i => In i (indices r)) subs s2p.
Proof.
  intros Hok Hi Ha. destruct (sub_map_ok P maps indices false allow Hok Hi Ha) as (subs & s2p & Hs & E & Hp & Ho & Hn).
  exists subs, s2p. split; [exact E|].
  assert (OW : forall r q j i g n, r < P -> q < P -> nth_error (s2p r) j = Some i -> local_to_global (maps r) i = Some g -> local_to_global (subs r) j = Some n ->
     owns (subs q) n -> new_owner P maps indices g q).
  { intros r q j i g n Hr Hq Hj Hg Hl Hw. destruct (Ho r j i g Hr Hj Hg) as (o & No & _ & O1 & O2). replace q with o; [exact No|].
    unfold local_to_global in Hl. destruct (Nat.ltb_spec j (size_local (subs r))) as [L|L].
    - injection Hl as <-. rewrite (proj1 O1 L). eapply (owner_unique P subs Hs); eauto. unfold owns, size_local in *. lia.
    - destruct (nth_error_lt (im_owners (subs r)) (j - size_local (subs r))) as (o' & Eo').
      { rewrite (mo_len _ _ Hs r Hr). apply nth_error_bound in Hl. exact Hl. }
      pose proof (O2 (j - size_local (subs r)) ltac:(lia)) as Eo. destruct (mo_owner _ _ Hs r _ n o Hr Hl Eo) as (Ho1 & _ & Ho2). eapply (owner_unique P subs Hs); eauto. }
  constructor.
  - exact Hs.
  - intros r Hr. apply Hp; exact Hr.
  - intros r Hr. destruct (Hp r Hr) as (Pm & _). apply (Permutation_NoDup (Permutation_sym Pm)). apply SS_lt_NoDup. apply Hi; exact Hr.
  - intros r i Hr. destruct (Hp r Hr) as (Pm & _). split; apply Permutation_in; [exact Pm|symmetry; exact Pm].
  - intros r q j k i h g g' n n' Hr Hq. apply Hn; assumption.
  - intros r q j i g n Hr Hq Hj Hg Hl Hw. destruct (OW r q j i g n Hr Hq Hj Hg Hl Hw) as (_ & (h & Hh & Gh) & _). exists h. auto.
  - intros r q j i g n h Hr Hq Hj Hg Hl Hw Hc Gh.
    destruct (Ho r j i g Hr Hj Hg) as (o & _ & Uo & O1 & O2). assert (Eq : q = o) by (apply Uo; split; [exact Hq|]; split; [exists h; auto|now left]). subst o.
    unfold local_to_global in Hl. destruct (Nat.ltb_spec j (size_local (subs r))) as [L|L].
    + injection Hl as <-. rewrite (proj1 O1 L). unfold owns, size_local in *. lia.
    + pose proof (O2 (j - size_local (subs r)) ltac:(lia)) as Eo. apply (mo_owner _ _ Hs r _ n q Hr Hl Eo).
Qed.

Lemma sub_numbering_ext P maps c c' subs s2p : (forall r i, r < P -> c r i <-> c' r i) -> sub_numbering P maps c subs s2p -> sub_numbering P maps c' subs s2p.
Proof.
  intros H [A B C D E F G]. constructor; auto.
  - intros r i Hr. rewrite D by exact Hr. apply H, Hr.
  - intros r q j i g n Hr Hq H1 H2 H3 H4. destruct (F r q j i g n Hr Hq H1 H2 H3 H4) as (h & Hh & Eh). exists h. split; [apply H; assumption|exact Eh].
  - intros r q j i g n h Hr Hq H1 H2 H3 H4 H5. apply (G r q j i g n h Hr Hq H1 H2 H3 H4). apply H; assumption.
Qed.

(** ** Inverse maps *)
Lemma parent_to_sub_ok n s2p : NoDup s2p -> (forall p, In p s2p -> p < n) ->
  exists m, parent_to_sub n s2p = Some m /\ forall j p, nth_error s2p j = Some p -> to_sub m p = Some j.
Proof.
  intros Hn Hb. unfold parent_to_sub. set (ps := map (fun p : nat * nat => (snd p, Some (fst p))) (combine (seq 0 (length s2p)) s2p)).
  assert (Ef : map fst ps = s2p).
  { unfold ps. rewrite map_map. cbn [fst]. apply (snd_combine (seq 0 (length s2p)) s2p). now rewrite seq_length. }
  destruct (upd_all_spec ps (repeat (@None nat) n)) as (y & Ey & _ & H1 & _).
  - now rewrite Ef.
  - intros i v Hi. rewrite repeat_length. apply Hb. rewrite <- Ef. apply in_map_iff. exists (i, v). auto.
  - exists y. split.
    + rewrite <- Ey. unfold ps. clear. generalize (repeat (@None nat) n). induction (combine (seq 0 (length s2p)) s2p) as [|(a, b) t IH]; intro x; [reflexivity|].
      cbn [map ofold fst snd]. destruct (upd x b (Some a)); [cbn [obind]; apply IH|reflexivity].
    + intros j p Hj. unfold to_sub. rewrite (H1 p (Some j)); [reflexivity|]. unfold ps. apply in_map_iff. exists (j, p). split; [reflexivity|].
      apply (nth_error_In _ j). apply nth_error_combine; [|exact Hj]. apply nth_error_seq. now apply nth_error_bound in Hj.
Qed.

Lemma to_sub_rows s2p m vs : (forall j p, nth_error s2p j = Some p -> to_sub m p = Some j) -> (forall v, In v vs -> In v s2p) ->
  exists row, omap (to_sub m) vs = Some row /\ Forall2 (fun s v => nth_error s2p s = Some v) row vs.
Proof.
  intros Hm. induction vs as [|v t IH]; intro H; [exists []; split; [reflexivity|constructor]|].
  destruct IH as (row & E & F); [intros; apply H; now right|]. destruct (In_nth_error s2p v (H v (or_introl eq_refl))) as (j & Hj).
  exists (j :: row). cbn [omap]. rewrite (Hm j v Hj), E. split; [reflexivity|now constructor].
Qed.

Lemma rows_ok s2p m ents (look : nat -> option (list nat)) :
  (forall j p, nth_error s2p j = Some p -> to_sub m p = Some j) ->
  (forall e, In e ents -> exists vs, look e = Some vs /\ forall v, In v vs -> In v s2p) ->
  exists rows, omap (fun e => vs <- look e ;; omap (to_sub m) vs) ents = Some rows /\
    length rows = length ents /\
    forall j e vs, nth_error ents j = Some e -> look e = Some vs -> exists row, nth_error rows j = Some row /\ Forall2 (fun s v => nth_error s2p s = Some v) row vs.
Proof.
  intro Hm. induction ents as [|e t IH]; intro H; [exists []; split; [reflexivity|]; split; [reflexivity|intros [|j] ? ? ?; discriminate]|].
  destruct IH as (rows & E & L & R); [intros; apply H; now right|]. destruct (H e (or_introl eq_refl)) as (vs & Ev & Hv). destruct (to_sub_rows s2p m vs Hm Hv) as (row & Er & F).
  exists (row :: rows). cbn [omap]. rewrite Ev. cbn [obind]. rewrite Er. cbn [obind]. rewrite E. split; [reflexivity|]. split; [cbn; lia|].
  intros [|j] e' vs' Hj Hl; cbn [nth_error] in *; [|eapply R; eauto]. injection Hj as <-. rewrite Hl in Ev. injection Ev as <-. exists row. auto.
Qed.

Lemma selected_ok {A} (x : list A) s2p : (forall d, In d s2p -> d < length x) -> exists y, omap (nth_error x) s2p = Some y /\ selected s2p x y.
Proof.
  induction s2p as [|d t IH]; intro H; [exists []; split; [reflexivity|]; split; [reflexivity|intros [|i] ? ?; discriminate]|].
  destruct IH as (y & E & L & S); [intros; apply H; now right|]. destruct (nth_error_lt x d (H d (or_introl eq_refl))) as (a & Ea).
  exists (a :: y). cbn [omap]. rewrite Ea, E. split; [reflexivity|]. split; [cbn; lia|]. intros [|i] d' Hd; cbn [nth_error] in *; [|apply S; exact Hd]. injection Hd as <-. split; [apply nth_error_bound in Ea; exact Ea|now rewrite Ea].
Qed.

(** ** One rank *)
Lemma incident_ok links ents : (forall e, In e ents -> e < length links) ->
  exists l, incident_entities links ents = Some l /\ StronglySorted lt l /\ forall v, In v l <-> exists e vs, In e ents /\ nth_error links e = Some vs /\ In v vs.
Proof.
  intro H. unfold incident_entities.
  assert (E : omap (nth_error links) ents = Some (map (fun e => nth e links []) ents)) by (apply omap_map; intros e He; apply nth_error_nth'; apply H, He).
  rewrite E. eexists. split; [reflexivity|]. split; [apply sort_uniq_sorted|]. intro v. rewrite sort_uniq_in, in_concat. split.
  - intros (vs & Hvs & Hv). apply in_map_iff in Hvs as (e & <- & He). exists e, (nth e links []). split; [exact He|]. split; [|exact Hv]. apply nth_error_nth'. apply H, He.
  - intros (e & vs & He & Ev & Hv). exists vs. split; [|exact Hv]. apply in_map_iff. exists e. split; [now apply nth_error_nth|exact He].
Qed.

Lemma omap_forall2 (x : list nat) ds row : omap (nth_error x) ds = Some row <-> Forall2 (fun d y => nth_error x d = Some y) ds row.
Proof.
  revert row. induction ds as [|d t IH]; intro row; cbn [omap].
  - split; [intro H; injection H as <-; constructor|intro H; inversion H; reflexivity].
  - split.
    + intro H. apply obind_some in H as (y & Ey & H). apply obind_some in H as (ys & Es & H). injection H as <-. constructor; [exact Ey|now apply IH].
    + intro H. inversion_clear H as [|? ? ? ? H1 H2]. rewrite H1. cbn [obind]. apply IH in H2. rewrite H2. reflexivity.
Qed.

Section Rank.
Variables (tdim dim : nat) (closure : nat -> nat -> list nat) (perm : nat -> nat -> list nat -> list nat) (e_to_c c_to_e xdofs : list (list nat)).
Definition look (e : nat) : option (list nat) :=
  if dim =? tdim then x_c <- nth_error xdofs e ;; omap (nth_error x_c) (closure tdim 0)
  else cells <- nth_error e_to_c e ;; c <- hd_error cells ;; cell_entities <- nth_error c_to_e c ;; local_entity <- index_in e cell_entities ;;
       x_c <- nth_error xdofs c ;; omap (nth_error x_c) (perm c local_entity (closure dim local_entity)).
Hypothesis Honce : forall c ents, nth_error c_to_e c = Some ents -> NoDup ents.
Lemma look_ok e row : look e = Some row <-> geometry_dofs tdim dim closure perm e_to_c c_to_e xdofs e row.
Proof.
  unfold look, geometry_dofs, dofs_at. destruct (dim =? tdim).
  - split.
    + intro H. apply obind_some in H as (x & Ex & H). exists x. split; [exact Ex|now apply omap_forall2].
    + intros (x & Ex & H). rewrite Ex. cbn [obind]. now apply omap_forall2.
  - split.
    + intro H. apply obind_some in H as ([|c rest] & Ec & H); [discriminate|]. cbn [hd_error obind] in H. apply obind_some in H as (ents & Ee & H). apply obind_some in H as (l & El & H). apply obind_some in H as (x & Ex & H).
      exists c, rest, ents, l. split; [exact Ec|]. split; [exact Ee|]. split; [now apply index_in_some in El|]. exists x. split; [exact Ex|now apply omap_forall2].
    + intros (c & rest & ents & l & Ec & Ee & El & x & Ex & H). rewrite Ec. cbn [obind hd_error]. rewrite Ee. cbn [obind].
      rewrite (index_in_nth e ents l (Honce c ents Ee) El). cbn [obind]. rewrite Ex. cbn [obind]. now apply omap_forall2.
Qed.
Lemma e2g_look bad entities : bad && (dim =? 2) = false ->
  entities_to_geometry tdim closure bad perm e_to_c c_to_e xdofs dim entities true = omap look entities.
Proof. intro H. unfold entities_to_geometry, look. rewrite H. destruct (dim =? tdim); reflexivity. Qed.
End Rank.

Lemma omap_omap {A B C} (f : A -> option B) (g : B -> option C) l m : omap f l = Some m -> omap g m = omap (fun a => b <- f a ;; g b) l.
Proof.
  revert m. induction l as [|a t IH]; intros m H; cbn [omap] in *; [injection H as <-; reflexivity|].
  apply obind_some in H as (b & Eb & H). apply obind_some in H as (bs & Es & H). injection H as <-. cbn [omap]. rewrite Eb. cbn [obind]. now rewrite (IH bs Es).
Qed.

(** ** All ranks *)
Section World.
Variables (P : nat) (emaps vmaps xmaps : nat -> imap) (e_to_v : nat -> list (list nat)) (entities : nat -> list nat).
Variables (tdim dim : nat) (closure : nat -> nat -> list nat) (bad : bool) (perm : nat -> nat -> nat -> list nat -> list nat).
Variables (e_to_c c_to_e xdofs : nat -> list (list nat)).
Hypothesis He : maps_ok P emaps.
Hypothesis Hv : maps_ok P vmaps.
Hypothesis Hx : maps_ok P xmaps.
Hypothesis Hin : forall r, r < P -> rank_input (emaps r) (vmaps r) (xmaps r) (e_to_v r) (entities r) tdim dim closure (perm r) (e_to_c r) (c_to_e r) (xdofs r).
Hypothesis Hown : forall r q e g, r < P -> q < P -> In e (entities q) -> local_to_global (emaps q) e = Some g -> owns (emaps r) g ->
  exists h, In h (entities r) /\ local_to_global (emaps r) h = Some g.
Hypothesis Hbad : bad && (dim =? 2) = false.
Notation gdofs r := (geometry_dofs tdim dim closure (perm r) (e_to_c r) (c_to_e r) (xdofs r)).

Lemma submesh_ok {A} (x : nat -> list A) (igi : nat -> list nat) :
  (forall r, r < P -> length (x r) = size_local (xmaps r) + num_ghosts (xmaps r) /\ length (igi r) = size_local (xmaps r) + num_ghosts (xmaps r)) ->
  exists sub_e s2e sub_v s2v conn sub_x s2x dofs x' igi',
    (forall r, r < P -> create_submesh P emaps vmaps xmaps e_to_v entities tdim closure bad perm e_to_c c_to_e xdofs dim x igi r =
       Some (((sub_e r, sub_v r, conn r), (s2e r, s2v r)), ((sub_x r, dofs r, x' r, igi' r), s2x r))) /\
    sub_numbering P emaps (fun r e => In e (entities r)) sub_e s2e /\
    sub_numbering P vmaps (fun r v => exists e vs, In e (entities r) /\ nth_error (e_to_v r) e = Some vs /\ In v vs) sub_v s2v /\
    sub_numbering P xmaps (fun r d => exists e row, In e (entities r) /\ gdofs r e row /\ In d row) sub_x s2x /\
    forall r, r < P ->
      same_rows (s2v r) (s2e r) (fun e vs => nth_error (e_to_v r) e = Some vs) (conn r) /\
      same_rows (s2x r) (s2e r) (gdofs r) (dofs r) /\
      selected (s2x r) (x r) (x' r) /\ selected (s2x r) (igi r) (igi' r).
Proof.
  intro Hlen.
  destruct (sub_numbering_ok P emaps (fun q => sort_uniq (entities q)) false He) as (sub_e & s2e & Ee & Ne).
  { intros r Hr. split; [apply sort_uniq_sorted|]. intros i Hi. rewrite sort_uniq_in in Hi. exact (ri_chosen _ _ _ _ _ _ _ _ _ _ _ _ (Hin r Hr) i Hi). }
  { right. intros r q g Hr Hq Ho (i & Hi & Gi). rewrite sort_uniq_in in Hi. destruct (Hown r q i g Hr Hq Hi Gi Ho) as (h & Hh & Gh). exists h. split; [now rewrite sort_uniq_in|exact Gh]. }
  apply (sub_numbering_ext _ _ _ (fun r e => In e (entities r))) in Ne; [|intros; apply sort_uniq_in].
  assert (Res : forall r, r < P -> sub_result (sub_entity_map P emaps entities r) = s2e r) by (intros r Hr; unfold sub_entity_map; rewrite (Ee r Hr); reflexivity).
  (* vertices *)
  assert (Inc : forall r, r < P -> exists l, incident_entities (e_to_v r) (s2e r) = Some l /\ incident_vertices P emaps e_to_v entities r = l /\ StronglySorted lt l /\
     forall v, In v l <-> exists e vs, In e (entities r) /\ nth_error (e_to_v r) e = Some vs /\ In v vs).
  { intros r Hr. destruct (incident_ok (e_to_v r) (s2e r)) as (l & E & S & M).
    - intros e Hi. rewrite (ri_vertices _ _ _ _ _ _ _ _ _ _ _ _ (Hin r Hr)). apply (ri_chosen _ _ _ _ _ _ _ _ _ _ _ _ (Hin r Hr)). now apply (sn_in _ _ _ _ _ Ne r e Hr).
    - exists l. split; [exact E|]. split; [unfold incident_vertices; rewrite (Res r Hr), E; reflexivity|]. split; [exact S|]. intro v. rewrite M.
      split; intros (e & vs & H1 & H2 & H3); exists e, vs; (split; [now apply (sn_in _ _ _ _ _ Ne r e Hr)|auto]). }
  destruct (sub_numbering_ok P vmaps (incident_vertices P emaps e_to_v entities) true Hv) as (sub_v & s2v & Ev & Nv).
  { intros r Hr. destruct (Inc r Hr) as (l & _ & -> & S & M). split; [exact S|]. intros v Hi. apply M in Hi as (e & vs & H1 & H2 & H3). exact (ri_vertex _ _ _ _ _ _ _ _ _ _ _ _ (Hin r Hr) e vs v H2 H3). }
  { now left. }
  apply (sub_numbering_ext _ _ _ (fun r v => exists e vs, In e (entities r) /\ nth_error (e_to_v r) e = Some vs /\ In v vs)) in Nv.
  2:{ intros r v Hr. destruct (Inc r Hr) as (l & _ & -> & _ & M). apply M. }
  (* geometry *)
  set (xi := sub_x_indices P emaps entities tdim closure bad perm e_to_c c_to_e xdofs dim).
  assert (Xi : forall r, r < P -> xi r = omap (look tdim dim closure (perm r) (e_to_c r) (c_to_e r) (xdofs r)) (s2e r)).
  { intros r Hr. unfold xi, sub_x_indices. rewrite (Res r Hr). now apply e2g_look. }
  assert (Lk : forall r e, r < P -> In e (s2e r) -> exists row, look tdim dim closure (perm r) (e_to_c r) (c_to_e r) (xdofs r) e = Some row /\ gdofs r e row /\ forall d, In d row -> d < map_size (xmaps r)).
  { intros r e Hr Hi. apply (sn_in _ _ _ _ _ Ne r e Hr) in Hi. destruct (ri_dofs _ _ _ _ _ _ _ _ _ _ _ _ (Hin r Hr) e Hi) as (row & G & B). exists row. split; [|split; [exact G|exact B]].
    apply look_ok; [exact (ri_once _ _ _ _ _ _ _ _ _ _ _ _ (Hin r Hr))|exact G]. }
  assert (Xr : forall r, r < P -> exists rows, xi r = Some rows /\ (forall d, In d (concat rows) <-> exists e row, In e (entities r) /\ gdofs r e row /\ In d row)).
  { intros r Hr. destruct (omap_some (look tdim dim closure (perm r) (e_to_c r) (c_to_e r) (xdofs r)) (s2e r)) as (rows & E).
    - intros e Hi. destruct (Lk r e Hr Hi) as (row & E & _). eauto.
    - exists rows. split; [rewrite (Xi r Hr); exact E|]. intro d. rewrite in_concat. split.
      + intros (row & Hrow & Hd). apply In_nth_error in Hrow as (j & Hj). destruct (nth_error_lt (s2e r) j) as (e & He').
        { rewrite <- (omap_length _ _ _ E). apply nth_error_bound in Hj. exact Hj. }
        destruct (omap_nth _ _ _ E j e He') as (row' & Hj' & El). rewrite Hj in Hj'. injection Hj' as <-. exists e, row. split; [apply (sn_in _ _ _ _ _ Ne r e Hr); eapply nth_error_In; eauto|]. split; [|exact Hd].
        apply look_ok in El; [exact El|exact (ri_once _ _ _ _ _ _ _ _ _ _ _ _ (Hin r Hr))].
      + intros (e & row & Hi & G & Hd). apply (sn_in _ _ _ _ _ Ne r e Hr) in Hi. apply In_nth_error in Hi as (j & Hj). destruct (omap_nth _ _ _ E j e Hj) as (row' & Hj' & El).
        apply look_ok in G; [|exact (ri_once _ _ _ _ _ _ _ _ _ _ _ _ (Hin r Hr))]. rewrite G in El. injection El as <-. exists row. split; [eapply nth_error_In; eauto|exact Hd]. }
  destruct (sub_numbering_ok P xmaps (sub_x_dofs xi) true Hx) as (sub_x & s2x & Ex & Nx).
  { intros r Hr. destruct (Xr r Hr) as (rows & E & M). unfold sub_x_dofs. rewrite E. split; [apply sort_uniq_sorted|]. intros d Hd. rewrite sort_uniq_in in Hd. apply M in Hd as (e & row & Hi & G & Hd).
    apply (sn_in _ _ _ _ _ Ne r e Hr) in Hi. destruct (Lk r e Hr Hi) as (row' & E' & G' & B). apply look_ok in G; [|exact (ri_once _ _ _ _ _ _ _ _ _ _ _ _ (Hin r Hr))]. rewrite G in E'. injection E' as <-. apply B, Hd. }
  { now left. }
  apply (sub_numbering_ext _ _ _ (fun r d => exists e row, In e (entities r) /\ gdofs r e row /\ In d row)) in Nx.
  2:{ intros r d Hr. destruct (Xr r Hr) as (rows & E & M). unfold sub_x_dofs. rewrite E, sort_uniq_in. apply M. }
  (* per rank *)
  assert (Bx : forall r d, r < P -> In d (s2x r) -> d < map_size (xmaps r)).
  { intros r d Hr Hd. apply (sn_in _ _ _ _ _ Nx r d Hr) in Hd as (e & row & Hi & G & Hd). apply (sn_in _ _ _ _ _ Ne r e Hr) in Hi. destruct (Lk r e Hr Hi) as (row' & E' & G' & B).
    apply look_ok in G; [|exact (ri_once _ _ _ _ _ _ _ _ _ _ _ _ (Hin r Hr))]. rewrite G in E'. injection E' as <-. apply B, Hd. }
  assert (Rk : forall r, r < P -> exists q : list (list nat) * list (list nat) * list A * list nat,
     create_submesh P emaps vmaps xmaps e_to_v entities tdim closure bad perm e_to_c c_to_e xdofs dim x igi r =
       Some (((sub_e r, sub_v r, fst (fst (fst q))), (s2e r, s2v r)), ((sub_x r, snd (fst (fst q)), snd (fst q), snd q), s2x r)) /\
     same_rows (s2v r) (s2e r) (fun e vs => nth_error (e_to_v r) e = Some vs) (fst (fst (fst q))) /\
     same_rows (s2x r) (s2e r) (gdofs r) (snd (fst (fst q))) /\
     selected (s2x r) (x r) (snd (fst q)) /\ selected (s2x r) (igi r) (snd q)).
  { intros r Hr. destruct (Inc r Hr) as (l & Ei & _ & _ & _). destruct (Xr r Hr) as (rows & Er & Mr).
    destruct (parent_to_sub_ok (map_size (vmaps r)) (s2v r)) as (mv & Emv & Hmv).
    { exact (sn_once _ _ _ _ _ Nv r Hr). }
    { intros v Hi. apply (sn_in _ _ _ _ _ Nv r v Hr) in Hi as (e & vs & _ & H2 & H3). exact (ri_vertex _ _ _ _ _ _ _ _ _ _ _ _ (Hin r Hr) e vs v H2 H3). }
    destruct (rows_ok (s2v r) mv (s2e r) (nth_error (e_to_v r)) Hmv) as (conn & Ec & Lc & Rc).
    { intros e Hi. apply (sn_in _ _ _ _ _ Ne r e Hr) in Hi. destruct (nth_error_lt (e_to_v r) e) as (vs & Evs).
      - rewrite (ri_vertices _ _ _ _ _ _ _ _ _ _ _ _ (Hin r Hr)). exact (ri_chosen _ _ _ _ _ _ _ _ _ _ _ _ (Hin r Hr) e Hi).
      - exists vs. split; [exact Evs|]. intros v Hvv. apply (sn_in _ _ _ _ _ Nv r v Hr). exists e, vs. auto. }
    destruct (parent_to_sub_ok (map_size (xmaps r)) (s2x r) (sn_once _ _ _ _ _ Nx r Hr)) as (mx & Emx & Hmx).
    { intros d Hd. exact (Bx r d Hr Hd). }
    destruct (rows_ok (s2x r) mx (s2e r) (look tdim dim closure (perm r) (e_to_c r) (c_to_e r) (xdofs r)) Hmx) as (dofs & Ed & Ld & Rd).
    { intros e Hi. destruct (Lk r e Hr Hi) as (row & E & G & _). exists row. split; [exact E|]. intros d Hd. apply (sn_in _ _ _ _ _ Nx r d Hr). apply (sn_in _ _ _ _ _ Ne r e Hr) in Hi. exists e, row. auto. }
    destruct (Hlen r Hr) as (Lx & Li).
    destruct (selected_ok (x r) (s2x r)) as (x' & Ex' & Sx). { intros d Hd. rewrite Lx. exact (Bx r d Hr Hd). }
    destruct (selected_ok (igi r) (s2x r)) as (igi' & Ei' & Si). { intros d Hd. rewrite Li. exact (Bx r d Hr Hd). }
    exists (conn, dofs, x', igi'). cbn [fst snd]. split; [|split; [|split; [|split; [exact Sx|exact Si]]]].
    - unfold create_submesh, create_subtopology, sub_vertex_map. rewrite (Res r Hr), Ei. cbn [obind]. unfold sub_entity_map. rewrite (Ee r Hr). cbn [obind]. rewrite (Ev r Hr). cbn [obind]. rewrite Emv. cbn [obind]. rewrite Ec. cbn [obind].
      unfold create_subgeometry. fold xi. rewrite Er. cbn [obind]. rewrite (Ex r Hr). cbn [obind]. rewrite Ex'. cbn [obind]. rewrite Emx. cbn [obind].
      rewrite (omap_omap _ (omap (to_sub mx)) _ _ (eq_trans (eq_sym (Xi r Hr)) Er)). rewrite Ed. cbn [obind]. rewrite Ei'. reflexivity.
    - split; [exact Lc|exact Rc].
    - split; [exact Ld|]. intros j e row Hj G. apply (Rd j e row Hj). apply look_ok; [exact (ri_once _ _ _ _ _ _ _ _ _ _ _ _ (Hin r Hr))|exact G]. }
  destruct (finite_choice _ ([], [], [], []) P Rk) as (f & Hf).
  exists sub_e, s2e, sub_v, s2v, (fun r => fst (fst (fst (f r)))), sub_x, s2x, (fun r => snd (fst (fst (f r)))), (fun r => snd (fst (f r))), (fun r => snd (f r)).
  split; [intros r Hr; apply Hf, Hr|]. split; [exact Ne|]. split; [exact Nv|]. split; [exact Nx|]. intros r Hr. apply Hf, Hr.
Qed.
End World.

(** ** Shared cells *)
Lemma l2g_in P maps r i : maps_ok P maps -> r < P -> i < size_local (maps r) + num_ghosts (maps r) -> exists g, local_to_global (maps r) i = Some g.
Proof.
  intros Hok Hr H. unfold local_to_global. destruct (Nat.ltb_spec i (size_local (maps r))) as [L|L]; [eauto|]. apply nth_error_lt. unfold num_ghosts in H. lia.
Qed.
Lemma shared_rows P emaps vmaps ce cv sub_e s2e sub_v s2v (old : nat -> nat -> list nat -> Prop) conn :
  maps_ok P emaps -> maps_ok P vmaps ->
  sub_numbering P emaps ce sub_e s2e -> sub_numbering P vmaps cv sub_v s2v ->
  (forall r i, r < P -> In i (s2e r) -> i < map_size (emaps r)) -> (forall r i, r < P -> In i (s2v r) -> i < map_size (vmaps r)) ->
  (forall r, r < P -> same_rows (s2v r) (s2e r) (old r) (conn r)) ->
  (forall r e, r < P -> In e (s2e r) -> exists vs, old r e vs) ->
  (forall r q e f g vs ws, r < P -> q < P -> local_to_global (emaps r) e = Some g -> local_to_global (emaps q) f = Some g -> old r e vs -> old q f ws ->
     map (local_to_global (vmaps r)) vs = map (local_to_global (vmaps q)) ws) ->
  forall r q j k n row row', r < P -> q < P -> local_to_global (sub_e r) j = Some n -> local_to_global (sub_e q) k = Some n ->
    nth_error (conn r) j = Some row -> nth_error (conn q) k = Some row' ->
    map (local_to_global (sub_v r)) row = map (local_to_global (sub_v q)) row'.
Proof.
  intros He Hv Ne Nv Be Bv Hrows Htot Hsame r q j k n row row' Hr Hq Hj Hk Rj Rk.
  destruct (Hrows r Hr) as (Lr & Sr). destruct (Hrows q Hq) as (Lq & Sq).
  destruct (nth_error_lt (s2e r) j) as (e & Ej); [rewrite <- Lr; now apply nth_error_bound in Rj|].
  destruct (nth_error_lt (s2e q) k) as (f & Fk); [rewrite <- Lq; now apply nth_error_bound in Rk|].
  pose proof (nth_error_In _ _ Ej) as Ie. pose proof (nth_error_In _ _ Fk) as If.
  destruct (l2g_in P emaps r e He Hr (Be r e Hr Ie)) as (g & Gg). destruct (l2g_in P emaps q f He Hq (Be q f Hq If)) as (g' & Gg').
  pose proof (proj1 (sn_number _ _ _ _ _ Ne r q j k e f g g' n n Hr Hq Ej Gg Hj Fk Gg' Hk) eq_refl) as E. subst g'.
  destruct (Htot r e Hr Ie) as (vs & Ov). destruct (Htot q f Hq If) as (ws & Ow).
  destruct (Sr j e vs Ej Ov) as (row0 & R0 & F1). rewrite Rj in R0. injection R0 as <-. destruct (Sq k f ws Fk Ow) as (row0 & R0 & F2). rewrite Rk in R0. injection R0 as <-.
  pose proof (Hsame r q e f g vs ws Hr Hq Gg Gg' Ov Ow) as Em. clear - Em F1 F2 Nv Bv Hv Hr Hq. revert ws row' Em F2. induction F1 as [|s v row vs Hs F1 IH]; intros ws row' Em F2.
  - destruct ws; [|discriminate]. inversion F2. reflexivity.
  - destruct ws as [|w ws]; [discriminate|]. inversion F2 as [|s' ? row2 ? Hs' F2']. subst. cbn [map] in *. injection Em as E1 Em. f_equal; [|now apply (IH ws)].
    destruct (l2g_in P vmaps r v Hv Hr (Bv r v Hr (nth_error_In _ _ Hs))) as (h & Gh). pose proof Gh as Gh'. rewrite E1 in Gh'.
    pose proof (sn_maps _ _ _ _ _ Nv) as Hsv.
    destruct (l2g_in P sub_v r s Hsv Hr) as (a & Ga); [rewrite <- (sn_len _ _ _ _ _ Nv r Hr); now apply nth_error_bound in Hs|].
    destruct (l2g_in P sub_v q s' Hsv Hq) as (b & Gb); [rewrite <- (sn_len _ _ _ _ _ Nv q Hq); now apply nth_error_bound in Hs'|].
    rewrite Ga, Gb. f_equal. exact (proj2 (sn_number _ _ _ _ _ Nv r q s s' v w h h a b Hr Hq Hs Gh Ga Hs' Gh' Gb) eq_refl).
Qed.

Section Shared.
Variables (P : nat) (emaps vmaps xmaps : nat -> imap) (e_to_v : nat -> list (list nat)) (entities : nat -> list nat).
Variables (tdim dim : nat) (closure : nat -> nat -> list nat) (bad : bool) (perm : nat -> nat -> nat -> list nat -> list nat).
Variables (e_to_c c_to_e xdofs : nat -> list (list nat)).
Notation gdofs r := (geometry_dofs tdim dim closure (perm r) (e_to_c r) (c_to_e r) (xdofs r)).
Lemma submesh_shared {A} (x : nat -> list A) (igi : nat -> list nat) :
  maps_ok P emaps -> maps_ok P vmaps -> maps_ok P xmaps ->
  (forall r, r < P -> rank_input (emaps r) (vmaps r) (xmaps r) (e_to_v r) (entities r) tdim dim closure (perm r) (e_to_c r) (c_to_e r) (xdofs r)) ->
  (forall r q e g, r < P -> q < P -> In e (entities q) -> local_to_global (emaps q) e = Some g -> owns (emaps r) g ->
     exists h, In h (entities r) /\ local_to_global (emaps r) h = Some g) ->
  bad && (dim =? 2) = false ->
  (forall r, r < P -> length (x r) = size_local (xmaps r) + num_ghosts (xmaps r) /\ length (igi r) = size_local (xmaps r) + num_ghosts (xmaps r)) ->
  (forall r q e f g vs ws, r < P -> q < P -> local_to_global (emaps r) e = Some g -> local_to_global (emaps q) f = Some g ->
     nth_error (e_to_v r) e = Some vs -> nth_error (e_to_v q) f = Some ws -> map (local_to_global (vmaps r)) vs = map (local_to_global (vmaps q)) ws) ->
  (forall r q e f g vs ws, r < P -> q < P -> local_to_global (emaps r) e = Some g -> local_to_global (emaps q) f = Some g ->
     gdofs r e vs -> gdofs q f ws -> map (local_to_global (xmaps r)) vs = map (local_to_global (xmaps q)) ws) ->
  (forall r q d d' g, r < P -> q < P -> local_to_global (xmaps r) d = Some g -> local_to_global (xmaps q) d' = Some g -> nth_error (x r) d = nth_error (x q) d') ->
  forall r q sub_e sub_v conn ms sub_x dofs x' igi' s2x sub_e' sub_v' conn' ms' sub_x' dofs' x'' igi'' s2x' j k n vs vs' ds ds', r < P -> q < P ->
    create_submesh P emaps vmaps xmaps e_to_v entities tdim closure bad perm e_to_c c_to_e xdofs dim x igi r = Some (((sub_e, sub_v, conn), ms), ((sub_x, dofs, x', igi'), s2x)) ->
    create_submesh P emaps vmaps xmaps e_to_v entities tdim closure bad perm e_to_c c_to_e xdofs dim x igi q = Some (((sub_e', sub_v', conn'), ms'), ((sub_x', dofs', x'', igi''), s2x')) ->
    local_to_global sub_e j = Some n -> local_to_global sub_e' k = Some n ->
    nth_error conn j = Some vs -> nth_error conn' k = Some vs' -> nth_error dofs j = Some ds -> nth_error dofs' k = Some ds' ->
    map (local_to_global sub_v) vs = map (local_to_global sub_v') vs' /\
    map (local_to_global sub_x) ds = map (local_to_global sub_x') ds' /\
    map (nth_error x') ds = map (nth_error x'') ds'.
Proof.
  intros He Hv Hx Hin Hown Hbad Hlen Sv Sx Spt r q sub_e sub_v conn ms sub_x dofs x' igi' s2x sub_e' sub_v' conn' ms' sub_x' dofs' x'' igi'' s2x' j k n vs vs' ds ds' Hr Hq E E' Hj Hk Cj Ck Dj Dk.
  destruct (submesh_ok P emaps vmaps xmaps e_to_v entities tdim dim closure bad perm e_to_c c_to_e xdofs He Hv Hx Hin Hown Hbad x igi Hlen)
    as (We & S2e & Wv & S2v & Wc & Wx & S2x & Wd & Wp & Wi & Eq & Ne & Nv & Nx & Rows).
  rewrite (Eq r Hr) in E. rewrite (Eq q Hq) in E'. injection E as <- <- <- <- <- <- <- <- <-. injection E' as <- <- <- <- <- <- <- <- <-.
  assert (Be : forall r i, r < P -> In i (S2e r) -> i < map_size (emaps r)).
  { intros s i Hs Hi. apply (sn_in _ _ _ _ _ Ne s i Hs) in Hi. exact (ri_chosen _ _ _ _ _ _ _ _ _ _ _ _ (Hin s Hs) i Hi). }
  assert (Bv : forall r i, r < P -> In i (S2v r) -> i < map_size (vmaps r)).
  { intros s i Hs Hi. apply (sn_in _ _ _ _ _ Nv s i Hs) in Hi as (e & l & _ & H2 & H3). exact (ri_vertex _ _ _ _ _ _ _ _ _ _ _ _ (Hin s Hs) e l i H2 H3). }
  assert (Uq : forall s e a b, s < P -> gdofs s e a -> gdofs s e b -> a = b).
  { intros s e a b Hs H1 H2. apply look_ok in H1; [|exact (ri_once _ _ _ _ _ _ _ _ _ _ _ _ (Hin s Hs))]. apply look_ok in H2; [|exact (ri_once _ _ _ _ _ _ _ _ _ _ _ _ (Hin s Hs))]. congruence. }
  assert (Bx : forall r i, r < P -> In i (S2x r) -> i < map_size (xmaps r)).
  { intros s i Hs Hi. apply (sn_in _ _ _ _ _ Nx s i Hs) in Hi as (e & l & H1 & H2 & H3). destruct (ri_dofs _ _ _ _ _ _ _ _ _ _ _ _ (Hin s Hs) e H1) as (row & G & B). rewrite (Uq s e l row Hs H2 G) in H3. apply B, H3. }
  assert (Dg : map (local_to_global (Wx r)) ds = map (local_to_global (Wx q)) ds').
  { apply (shared_rows P emaps xmaps _ _ We S2e Wx S2x (fun r => gdofs r) Wd He Hx Ne Nx Be Bx) with (j := j) (k := k) (n := n); auto.
    - intros s Hs. apply Rows, Hs.
    - intros s e Hs Hi. apply (sn_in _ _ _ _ _ Ne s e Hs) in Hi. destruct (ri_dofs _ _ _ _ _ _ _ _ _ _ _ _ (Hin s Hs) e Hi) as (row & G & _). eauto. }
  split; [|split; [exact Dg|]].
  - apply (shared_rows P emaps vmaps _ _ We S2e Wv S2v (fun r e vs => nth_error (e_to_v r) e = Some vs) Wc He Hv Ne Nv Be Bv) with (j := j) (k := k) (n := n); auto.
    + intros s Hs. apply Rows, Hs.
    + intros s e Hs Hi. apply nth_error_lt. rewrite (ri_vertices _ _ _ _ _ _ _ _ _ _ _ _ (Hin s Hs)). exact (Be s e Hs Hi).
  - assert (G : forall s a, s < P -> (exists j, nth_error (Wd s) j = Some a) -> forall d, In d a -> exists p, nth_error (S2x s) d = Some p).
    { intros s a Hs (i & Hi) d Hd. destruct (Rows s Hs) as (_ & (L & R) & _). destruct (nth_error_lt (S2e s) i) as (e & Ei); [rewrite <- L; now apply nth_error_bound in Hi|].
      pose proof (nth_error_In _ _ Ei) as Ie. apply (sn_in _ _ _ _ _ Ne s e Hs) in Ie. destruct (ri_dofs _ _ _ _ _ _ _ _ _ _ _ _ (Hin s Hs) e Ie) as (row & Gr & _). destruct (R i e row Ei Gr) as (a' & Ha & F). rewrite Hi in Ha. injection Ha as <-.
      clear - F Hd. induction F as [|u v l m Hu F IH]; [destruct Hd|]. destruct Hd as [<-|Hd]; eauto. }
    pose proof (G r ds Hr (ex_intro _ j Dj)) as G1. pose proof (G q ds' Hq (ex_intro _ k Dk)) as G2. clear G.
    destruct (Rows r Hr) as (_ & _ & (_ & X1) & _). destruct (Rows q Hq) as (_ & _ & (_ & X2) & _).
    clear - Dg G1 G2 X1 X2 Nx Bx Hx Spt Hr Hq. revert ds' Dg G2. induction ds as [|d ds IH]; intros [|d' ds'] Dg G2; try discriminate; [reflexivity|]. cbn [map] in *. injection Dg as E1 Em.
    f_equal; [|apply IH; [intros u Hu; apply G1; now right|exact Em|intros u Hu; apply G2; now right]].
    destruct (G1 d (or_introl eq_refl)) as (p & Ep). destruct (G2 d' (or_introl eq_refl)) as (p' & Ep'). destruct (X1 d p Ep) as (_ & Y1). destruct (X2 d' p' Ep') as (_ & Y2). rewrite Y1, Y2.
    pose proof (sn_maps _ _ _ _ _ Nx) as Hsx.
    destruct (l2g_in P Wx r d Hsx Hr) as (a & Ga); [rewrite <- (sn_len _ _ _ _ _ Nx r Hr); now apply nth_error_bound in Ep|]. pose proof Ga as Gb. rewrite E1 in Gb.
    destruct (l2g_in P xmaps r p Hx Hr (Bx r p Hr (nth_error_In _ _ Ep))) as (g & Gg). destruct (l2g_in P xmaps q p' Hx Hq (Bx q p' Hq (nth_error_In _ _ Ep'))) as (g' & Gg').
    pose proof (proj1 (sn_number _ _ _ _ _ Nx r q d d' p p' g g' a a Hr Hq Ep Gg Ga Ep' Gg' Gb) eq_refl) as E. subst g'. exact (Spt r q p p' g Hr Hq Gg Gg').
Qed.
End Shared.

(** ** Refused calls *)
Lemma submesh_refused P emaps vmaps xmaps e_to_v entities tdim closure bad perm e_to_c c_to_e xdofs dim {A} (x : nat -> list A) igi r q e g r' :
  maps_ok P emaps -> (forall r e, r < P -> In e (entities r) -> e < size_local (emaps r) + num_ghosts (emaps r)) ->
  r < P -> q < P -> In e (entities q) -> local_to_global (emaps q) e = Some g -> owns (emaps r) g ->
  (forall h, In h (entities r) -> local_to_global (emaps r) h <> Some g) ->
  create_submesh P emaps vmaps xmaps e_to_v entities tdim closure bad perm e_to_c c_to_e xdofs dim x igi r' = None.
Proof.
  intros Hok Hin Hr Hq He Hg Hw Hn. unfold create_submesh, create_subtopology, sub_entity_map.
  rewrite (sub_map_refused P emaps _ false r q g r' Hok); [reflexivity| |exact Hr|exact Hq|exact Hw| |].
  - intros s Hs. split; [apply sort_uniq_sorted|]. intros i Hi. rewrite sort_uniq_in in Hi. auto.
  - exists e. rewrite sort_uniq_in. auto.
  - intros (h & H1 & H2). rewrite sort_uniq_in in H1. exact (Hn h H1 H2).
Qed.
Lemma submesh_facets P emaps vmaps xmaps e_to_v entities tdim closure perm e_to_c c_to_e xdofs {A} (x : nat -> list A) igi r :
  create_submesh P emaps vmaps xmaps e_to_v entities tdim closure true perm e_to_c c_to_e xdofs 2 x igi r = None.
Proof.
  unfold create_submesh, create_subgeometry, sub_x_indices, entities_to_geometry. cbn [andb Nat.eqb obind].
  destruct create_subtopology; reflexivity.
Qed.
