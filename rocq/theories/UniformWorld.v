(** The vertices of the refined mesh are numbered consistently on all ranks. *)
From Verif Require Import Base BaseProofs Algo AlgoProofs BucketProofs World IndexMap IndexMapSpec IndexMapProofs ImSharedProofs
  Scatterer ScattererProofs PointOwnerProofs VectorSpec VectorStmts CellTypes Uniform UniformSpec.
Open Scope nat_scope.

Lemma maps_ok_ext P M M' : 0 < P -> (forall q, q < P -> M q = M' q) -> maps_ok P M -> maps_ok P M'.
Proof.
  intros HP E H. destruct H as [H1 H2 H3 H4 H5 H6 H7 H8]. constructor.
  - rewrite <- E by exact HP. exact H1.
  - intros r Hr. rewrite <- !E by lia. apply H2, Hr.
  - intros r Hr. rewrite <- E by exact Hr. apply H3, Hr.
  - intros r Hr. rewrite <- E by exact Hr. apply H4, Hr.
  - intros r Hr. rewrite <- E by exact Hr. apply H5, Hr.
  - intros r k g o Hr Hg Ho. rewrite <- E in Hg, Ho by exact Hr. destruct (H6 r k g o Hr Hg Ho) as (A & B & C). rewrite <- E by exact A. auto.
  - intros r Hr. rewrite <- E by exact Hr. apply H7, Hr.
  - intros r Hr. rewrite <- E by exact Hr. destruct (H8 r Hr) as (A & B). split; [exact A|]. intro s. rewrite B.
    split; intros (C & D); (split; [exact C|]); [rewrite <- E by exact C|rewrite E by exact C]; exact D.
Qed.

Lemma omap_of_map {A B C} (g : A -> B) (f : B -> option C) l : omap f (map g l) = omap (fun a => f (g a)) l.
Proof. induction l as [|a l IH]; [reflexivity|]. cbn [map omap]. rewrite IH. reflexivity. Qed.
Lemma combine_nth (l : list nat) : combine (seq 0 (length l)) l = map (fun j => (j, nth j l 0)) (seq 0 (length l)).
Proof.
  assert (G : forall a m, combine (seq a (length m)) m = map (fun j => (j, nth (j - a) m 0)) (seq a (length m))).
  { intros a m. revert a. induction m as [|x m IH]; intro a; [reflexivity|]. cbn [length seq combine map]. rewrite Nat.sub_diag. cbn [nth]. f_equal.
    rewrite IH. apply map_ext_in. intros j Hj. apply in_seq in Hj. replace (j - a) with (S (j - S a)) by lia. reflexivity. }
  rewrite G. apply map_ext_in. intros j _. rewrite Nat.sub_0_r. reflexivity.
Qed.

(** A loop that writes good values: everything visited is good in the end. *)
Lemma ofold_grow {A S V} (f : S -> A -> option S) (Inv : (V -> Prop) -> S -> Prop) (E : A -> V -> Prop) (l : list A) :
  (forall (D D' : V -> Prop) s, (forall v, D' v -> D v) -> Inv D s -> Inv D' s) ->
  (forall a, In a l -> forall D s, Inv D s -> exists s', f s a = Some s' /\ Inv (fun v => D v \/ E a v) s') ->
  forall D s, Inv D s -> exists s', ofold f l s = Some s' /\ Inv (fun v => D v \/ exists a, In a l /\ E a v) s'.
Proof.
  intros HM. induction l as [|a l IH]; intros Hf D s H.
  - exists s. split; [reflexivity|]. apply (HM D); [|exact H]. intros v [Hv|(a & [] & _)]. exact Hv.
  - destruct (Hf a (or_introl eq_refl) D s H) as (s1 & E1 & I1). destruct (IH (fun b Hb => Hf b (or_intror Hb)) _ s1 I1) as (s2 & E2 & I2).
    exists s2. cbn [ofold]. rewrite E1. cbn [obind]. split; [exact E2|]. apply (HM _ _ _ (fun v Hv => Hv)) in I2.
    refine (HM _ _ _ _ I2). intros v [Hv|(b & [<-|Hb] & Hv)]; [auto|auto|right; exists b; auto].
Qed.

Section World.
Context {T : Type}.
Variables (zero : T) (add : T -> T -> T) (div : T -> nat -> T).
Variable P : nat.
Variable types : list (list cell_type).
Variable mesh : nat -> umesh T.
Notation dim := (length types - 1).
Notation cell_types := (last types []).
Variable kinds : list nat.
Variables M CM : nat -> nat -> imap.
Variable verts : nat -> nat -> list nat.
Variable pos : nat -> nat -> T.
Hypothesis HR : refinable P types mesh kinds M CM verts pos.
Notation nk := (length kinds).

(** ** Types *)
Lemma cell_eqb_iff a b : cell_eqb a b = true <-> a = b.
Proof. destruct a, b; cbn; split; intro; congruence. Qed.
Lemma find_type_some t l i : NoDup l -> nth_error l i = Some t -> find_type t l = Some i.
Proof.
  revert i. induction l as [|u l IH]; intros i Hn Hi; [destruct i; discriminate|]. inversion Hn as [|? ? Hu Hl]; subst. cbn [find_type].
  destruct (cell_eqb u t) eqn:E.
  - apply cell_eqb_iff in E. subst u. destruct i as [|i]; [reflexivity|]. exfalso. apply Hu, (nth_error_In _ i), Hi.
  - destruct i as [|i].
    + injection Hi as ->. assert (cell_eqb t t = true) by (apply cell_eqb_iff; reflexivity). congruence.
    + rewrite (IH i Hl Hi). reflexivity.
Qed.
Lemma find_type_none t l : ~ In t l -> find_type t l = None.
Proof.
  induction l as [|u l IH]; intro H; [reflexivity|]. cbn [find_type]. destruct (cell_eqb u t) eqn:E.
  - apply cell_eqb_iff in E. subst u. exfalso. apply H. left. reflexivity.
  - rewrite IH; [reflexivity|]. intro K. apply H. right. exact K.
Qed.
Lemma tdim_eq : tdim types = dim.
Proof. reflexivity. Qed.
Lemma cells_nth : nth dim types [] = cell_types.
Proof.
  destruct (rf_dim _ _ _ _ _ _ _ _ HR) as (Hd & _). clear - Hd. destruct types as [|a l]; [cbn in Hd; lia|].
  clear Hd. revert a. induction l as [|b l IH]; intro a; [reflexivity|]. cbn [length last]. cbn [length] in IH.
  replace (S (S (length l)) - 1) with (S (S (length l) - 1)) by lia. cbn [nth]. apply IH.
Qed.
Lemma kinds2 : 2 <= nk.
Proof.
  pose proof (rf_kinds _ _ _ _ _ _ _ _ HR 0) as H0. pose proof (rf_kinds _ _ _ _ _ _ _ _ HR 1) as H1.
  destruct kinds as [|a [|b l]]; cbn in *; lia.
Qed.

Lemma kinds_nth j : j < nk -> nth_error kinds j = Some (nth j kinds 0).
Proof. intro H. apply nth_error_nth', H. Qed.
Lemma kind_find j : find_type (kind j) (nth j types []) = nth_error kinds j.
Proof.
  pose proof (rf_kinds _ _ _ _ _ _ _ _ HR j) as H. destruct (nth_error kinds j) as [e|] eqn:E.
  - apply find_type_some; [apply (rf_types _ _ _ _ _ _ _ _ HR)|exact H].
  - apply find_type_none, (proj2 H).
Qed.
Lemma nk_dim : nk <= S dim.
Proof.
  destruct (Nat.le_gt_cases nk (S dim)) as [L|G]; [exact L|]. pose proof (rf_kinds _ _ _ _ _ _ _ _ HR (S dim)) as H.
  rewrite kinds_nth in H by lia. rewrite (nth_overflow types) in H by lia. destruct (nth (S dim) kinds 0); discriminate.
Qed.

Lemma e_index_eq : e_index types = kinds.
Proof.
  pose proof kinds2 as H2. pose proof nk_dim as H4. destruct (rf_dim _ _ _ _ _ _ _ _ HR) as (D2 & D3). destruct (rf_low _ _ _ _ _ _ _ _ HR) as (L0 & L1).
  pose proof (kind_find 0) as F0. pose proof (kind_find 1) as F1. pose proof (kind_find 2) as F2. pose proof (kind_find 3) as F3.
  rewrite L0 in F0. rewrite L1 in F1. unfold e_index. rewrite tdim_eq. unfold cell_entity_types. cbn [kind nth] in F2, F3. rewrite F2.
  destruct (Nat.eqb_spec dim 3) as [E|N].
  - rewrite <- cells_nth, E, F3. destruct kinds as [|a [|b [|c [|d [|e l]]]]]; cbn in H2, H4; try lia; cbn in F0, F1; injection F0 as <-; injection F1 as <-; reflexivity.
  - destruct kinds as [|a [|b [|c [|d l]]]]; cbn in H2, H4; try lia; cbn in F0, F1; injection F0 as <-; injection F1 as <-; reflexivity.
Qed.

(** ** Index maps and numbers *)
Lemma uni_maps_eq r : r < P -> uni_maps T types mesh r = Some (map (fun j => M j r) (seq 0 nk)).
Proof.
  intro Hr. unfold uni_maps. rewrite e_index_eq.
  rewrite combine_nth, omap_of_map. apply omap_map. intros j Hj. apply in_seq in Hj. cbn [fst snd].
    destruct (rf_map _ _ _ _ _ _ _ _ HR r j Hr ltac:(lia)) as (ms & E1 & E2). rewrite E1. cbn [obind]. exact E2.
Qed.
Definition nl (q : nat) : nat := lsum (map (fun j => size_local (M j q)) (seq 0 nk)).
Definition first (r : nat) : nat := lsum (map nl (seq 0 r)).
Definition off (j r : nat) : nat := lsum (map (fun i => size_local (M i r)) (seq 0 j)).
Lemma first_number_eq r : r <= P -> first_number T types mesh r = Some (first r).
Proof.
  intro Hr. unfold first_number. rewrite (omap_map _ nl); [reflexivity|]. intros q Hq. apply in_seq in Hq. rewrite uni_maps_eq by lia.
  cbn [obind]. unfold local_size. rewrite map_map. reflexivity.
Qed.
Lemma map_at_eq j r : r < P -> j < nk -> map_at T types mesh j r = Some (M j r).
Proof.
  intros Hr Hj. unfold map_at. rewrite uni_maps_eq by exact Hr. cbn [obind]. rewrite nth_error_map, nth_error_seq by exact Hj. reflexivity.
Qed.
Lemma owned_numbers_eq j r : r < P -> j < nk ->
  owned_numbers T types mesh j r = Some (seq (first r + off j r) (size_local (M j r)) ++ repeat 0 (num_ghosts (M j r))).
Proof.
  intros Hr Hj. unfold owned_numbers. rewrite uni_maps_eq by exact Hr. cbn [obind]. rewrite nth_error_map, nth_error_seq by exact Hj. cbn [option_map obind].
  rewrite first_number_eq by lia. cbn [obind]. unfold entity_offsets. rewrite psums_nth by (rewrite !map_length, seq_length; lia). cbn [obind].
  replace (lsum (firstn j _)) with (off j r); [reflexivity|]. unfold off. rewrite map_map, firstn_map. do 2 f_equal.
  replace nk with (j + (nk - j)) by lia. rewrite seq_app. rewrite firstn_app, seq_length, Nat.sub_diag, firstn_O, app_nil_r.
  rewrite firstn_all2 by (rewrite seq_length; lia). reflexivity.
Qed.

(** The entities with new vertices in the order of their numbers *)
Definition rank_list (r : nat) : list (nat * nat) :=
  concat (map (fun j => map (pair j) (seq (im_lo (M j r)) (size_local (M j r)))) (seq 0 nk)).
Definition ents : list (nat * nat) := concat (map rank_list (seq 0 P)).
Lemma rank_list_length r : length (rank_list r) = nl r.
Proof. unfold rank_list, nl. rewrite <- lsum_concat_length, map_map. f_equal. apply map_ext. intro j. rewrite map_length, seq_length. reflexivity. Qed.
Lemma nth_concat_seq {A} (f : nat -> list A) n b i : b < n -> i < length (f b) ->
  nth_error (concat (map f (seq 0 n))) (lsum (map (fun k => length (f k)) (seq 0 b)) + i) = nth_error (f b) i.
Proof.
  intros Hb Hi. rewrite <- (nth_error_concat (map f (seq 0 n)) b (f b) i); [|rewrite nth_error_map, nth_error_seq by exact Hb; reflexivity|exact Hi].
  do 2 f_equal. f_equal. rewrite map_map, firstn_map. f_equal. replace n with (b + (n - b)) by lia. rewrite seq_app, firstn_app, seq_length, Nat.sub_diag, firstn_O, app_nil_r.
  rewrite firstn_all2 by (rewrite seq_length; lia). reflexivity.
Qed.
Lemma ents_nth r j i : r < P -> j < nk -> i < size_local (M j r) -> nth_error ents (first r + off j r + i) = Some (j, im_lo (M j r) + i).
Proof.
  intros Hr Hj Hi. assert (Hin : nth_error (rank_list r) (off j r + i) = Some (j, im_lo (M j r) + i)).
  { unfold rank_list, off.
    pose proof (nth_concat_seq (fun j => map (pair j) (seq (im_lo (M j r)) (size_local (M j r)))) nk j i Hj) as H. cbv beta in H.
    rewrite map_length, seq_length in H. specialize (H Hi).
    replace (map (fun k => length (map (pair k) (seq (im_lo (M k r)) (size_local (M k r))))) (seq 0 j)) with (map (fun k => size_local (M k r)) (seq 0 j)) in H
      by (apply map_ext; intro k; rewrite map_length, seq_length; reflexivity).
    rewrite H, nth_error_map, nth_error_seq by exact Hi. reflexivity. }
  rewrite <- Hin, <- Nat.add_assoc. unfold ents, first.
  rewrite <- (nth_concat_seq rank_list P r (off j r + i) Hr).
  - do 3 f_equal. apply map_ext. intro q. symmetry. apply rank_list_length.
  - apply nth_error_bound in Hin. exact Hin.
Qed.
Lemma ents_in j g : In (j, g) ents <-> j < nk /\ exists o, o < P /\ owns (M j o) g.
Proof.
  unfold ents. rewrite in_concat. split.
  - intros (l & Hl & Hin). apply in_map_iff in Hl as (o & <- & Ho). apply in_seq in Ho. unfold rank_list in Hin. apply in_concat in Hin as (l & Hl & Hin).
    apply in_map_iff in Hl as (i & <- & Hi). apply in_seq in Hi. apply in_map_iff in Hin as (x & E & Hx). injection E as -> ->. apply in_seq in Hx.
    split; [lia|]. exists o. unfold owns, size_local in *. split; lia.
  - intros (Hj & o & Ho & Hw). exists (rank_list o). split; [apply in_map, in_seq; lia|]. unfold rank_list. apply in_concat.
    exists (map (pair j) (seq (im_lo (M j o)) (size_local (M j o)))). split; [apply (in_map (fun j => map (pair j) (seq (im_lo (M j o)) (size_local (M j o))))), in_seq; lia|].
    apply in_map, in_seq. unfold owns, size_local in *. lia.
Qed.
Lemma nodup_seq_concat {A} (f : nat -> list A) n : (forall k, k < n -> NoDup (f k)) ->
  (forall k k' x, k < n -> k' < n -> In x (f k) -> In x (f k') -> k = k') -> NoDup (concat (map f (seq 0 n))).
Proof.
  intros H1 H2. induction n as [|n IH]; [constructor|]. rewrite seq_S, map_app, concat_app. cbn [map concat plus]. rewrite app_nil_r.
  apply ScattererProofs.NoDup_app_intro.
  - apply IH; intros; [apply H1; lia|apply (H2 k k' x); auto; lia].
  - apply H1. lia.
  - intros x Hx Hx'. apply in_concat in Hx as (l & Hl & Hx). apply in_map_iff in Hl as (k & <- & Hk). apply in_seq in Hk.
    assert (k = n) by (apply (H2 k n x); auto; lia). lia.
Qed.
Lemma ents_nodup : NoDup ents.
Proof.
  unfold ents. apply nodup_seq_concat.
  - intros r Hr. unfold rank_list. apply nodup_seq_concat.
    + intros j _. apply FinFun.Injective_map_NoDup; [intros a b E; congruence|apply seq_NoDup].
    + intros j j' x _ _ Hx Hx'. apply in_map_iff in Hx as (a & <- & _). apply in_map_iff in Hx' as (b & E & _). congruence.
  - intros r r' (j, g) Hr Hr' Hx Hx'.
    assert (G : forall q, q < P -> In (j, g) (rank_list q) -> j < nk /\ owns (M j q) g).
    { intros q Hq Hin. unfold rank_list in Hin. apply in_concat in Hin as (l & Hl & Hin).
      apply in_map_iff in Hl as (i & <- & Hi). apply in_seq in Hi. apply in_map_iff in Hin as (x & E & Hy). injection E as -> ->. apply in_seq in Hy.
      split; [lia|]. unfold owns, size_local in *. lia. }
    destruct (G r Hr Hx) as (Hj & H1). destruct (G r' Hr' Hx') as (_ & H2).
    exact (owner_unique P (M j) (rf_maps _ _ _ _ _ _ _ _ HR j Hj) r r' g Hr Hr' H1 H2).
Qed.

(** The numbers after the exchange *)
Lemma new_v_eq j r : r < P -> j < nk -> exists nv, new_v T P types mesh j r = Some nv /\
  forall e g, local_to_global (M j r) e = Some g -> exists n, nth_error nv e = Some n /\ nth_error ents n = Some (j, g).
Proof.
  intros Hr Hj. unfold new_v. set (maps := fun q => match map_at T types mesh j q with Some m => m | None => mkIM 0 0 0 [] [] [] [] end).
  set (x := fun q => match owned_numbers T types mesh j q with Some l => l | None => [] end).
  rewrite owned_numbers_eq by assumption. cbn [obind].
  assert (EM : forall q, q < P -> M j q = maps q) by (intros q Hq; unfold maps; rewrite map_at_eq by assumption; reflexivity).
  assert (EX : forall q, q < P -> x q = seq (first q + off j q) (size_local (M j q)) ++ repeat 0 (num_ghosts (M j q)))
    by (intros q Hq; unfold x; rewrite owned_numbers_eq by assumption; reflexivity).
  pose proof (rf_maps _ _ _ _ _ _ _ _ HR j Hj) as Hok. assert (Hok' : maps_ok P maps) by (apply (maps_ok_ext P (M j)); [lia|exact EM|exact Hok]).
  assert (Hfull : full_size P maps 1 x).
  { intros q Hq. rewrite EX by exact Hq. rewrite <- EM by exact Hq. rewrite app_length, seq_length, repeat_length. lia. }
  destruct (fwd_stmt P maps 1 nat 0 x Hok' Hfull) as (y & Hy). destruct (Hy r Hr) as (E & Hlen & Hown & Hgh & _). exists (y r). split; [exact E|].
  assert (Hx : forall q i, q < P -> i < size_local (M j q) -> nth_error (x q) i = Some (first q + off j q + i)).
  { intros q i Hq Hi. rewrite EX by exact Hq. rewrite nth_error_app1 by (rewrite seq_length; exact Hi). apply nth_error_seq, Hi. }
  intros e g Hg. unfold local_to_global in Hg. destruct (Nat.ltb_spec e (size_local (M j r))) as [L|G].
  - injection Hg as <-. exists (first r + off j r + e). split; [|apply ents_nth; assumption].
    rewrite Hown by (rewrite <- EM by exact Hr; lia). apply Hx; assumption.
  - pose proof (nth_error_In _ _ Hg) as Hin. destruct (ghost_owner P (M j) Hok r g Hr Hin) as (o & _ & Ho & _ & Hw & _).
    exists (first o + off j o + (g - im_lo (M j o))). split.
    + pose proof (Hgh (e - size_local (M j r)) g o 0) as H. rewrite <- !EM in H by assumption. specialize (H Hg Ho Hw ltac:(lia)).
      replace (1 * (size_local (M j r) + (e - size_local (M j r))) + 0) with e in H by lia. rewrite H.
      replace (1 * (g - im_lo (M j o)) + 0) with (g - im_lo (M j o)) by lia. apply Hx; [exact Ho|]. unfold owns, size_local in *. lia.
    + assert (Hi : g - im_lo (M j o) < size_local (M j o)) by (unfold owns, size_local in *; lia).
      rewrite (ents_nth o j _ Ho Hj Hi). do 2 f_equal. unfold owns in Hw. lia.
Qed.

(** ** Coordinates *)
Definition good (r v p : nat) : Prop :=
  exists g, local_to_global (M 0 r) v = Some g /\ forall a, a < 3 -> nth_error (um_x (mesh r)) (3 * p + a) = Some (pos g a).
Definition v2x_inv (r : nat) (D : nat -> Prop) (v2x : list nat) : Prop :=
  length v2x = size_local (M 0 r) + num_ghosts (M 0 r) /\ forall v, D v -> exists p, nth_error v2x v = Some p /\ good r v p.
Lemma v2x_mono r (D D' : nat -> Prop) v2x : (forall v, D' v -> D v) -> v2x_inv r D v2x -> v2x_inv r D' v2x.
Proof. intros H (L & I). split; [exact L|]. intros v Hv. apply I, H, Hv. Qed.
Lemma links0 r k c vs : links types mesh kinds r k c 0 = Some vs <-> exists cv, um_conn (mesh r) (dim, k) (0, 0) = Some cv /\ nth_error cv c = Some vs.
Proof.
  unfold links. cbn [Nat.leb]. destruct (um_conn (mesh r) (dim, k) (0, 0)) as [cv|]; cbn [obind].
  - split; [intro H; exists cv; auto|intros (? & E & H); injection E as <-; exact H].
  - split; [discriminate|intros (? & E & _); discriminate].
Qed.
Lemma layout_ok n dofs : n = length dofs -> layout_dofs (n, map (fun d => [d]) dofs) = Some dofs.
Proof.
  intros ->. unfold layout_dofs. cbn [fst snd]. rewrite (omap_map _ (fun k => nth k dofs 0)).
  - rewrite map_nth_seq. reflexivity.
  - intros k Hk. apply in_seq in Hk. rewrite nth_error_map, (nth_error_nth' dofs 0) by lia. reflexivity.
Qed.

Lemma vertex_to_x_eq r : r < P -> exists v2x, vertex_to_x T types mesh r (map (fun j => M j r) (seq 0 nk)) = Some v2x /\
  forall v, v < size_local (M 0 r) + num_ghosts (M 0 r) -> exists p, nth_error v2x v = Some p /\ good r v p.
Proof.
  intro Hr. unfold vertex_to_x. rewrite nth_error_map, nth_error_seq by (pose proof kinds2; lia). cbn [option_map obind plus]. rewrite tdim_eq. unfold cell_entity_types.
  set (E := fun k v => exists c vs, c < size_local (CM k r) + num_ghosts (CM k r) /\ links types mesh kinds r k c 0 = Some vs /\ In v vs).
  try clear G. match goal with |- context [ofold ?f ?l ?s] => pose proof (fun H D => ofold_grow f (v2x_inv r) E l (v2x_mono r) H D s) as G end.
    match type of G with ?A -> _ => assert (HF : A) end.
  - intros k Hk D v2x HI. apply in_seq in Hk. cbn [plus] in Hk.
    destruct (rf_geometry _ _ _ _ _ _ _ _ HR r k Hr ltac:(lia)) as (dofmap & dofs & n & E1 & E2 & En & Hc).
    destruct (rf_cell_map _ _ _ _ _ _ _ _ HR r k Hr ltac:(lia)) as (ms & E3 & E4).
    rewrite E1. cbn [obind].
    destruct (um_conn (mesh r) (dim, k) (0, 0)) as [cv|] eqn:Ecv; [|exfalso; exact (rf_conn _ _ _ _ _ _ _ _ HR r k 0 Hr ltac:(lia) ltac:(lia) Ecv)].
    cbn [obind]. rewrite E2. cbn [obind]. rewrite layout_ok by exact En. cbn [obind]. rewrite E3. cbn [obind]. rewrite E4. cbn [obind].
    set (Ec := fun c v => exists vs, nth_error cv c = Some vs /\ In v vs).
    try clear G. match goal with |- context [ofold ?f ?l ?s] => pose proof (fun H D => ofold_grow f (v2x_inv r) Ec l (v2x_mono r) H D s) as G end.
    match type of G with ?A -> _ => assert (HF : A) end.
    + intros c Hin D1 v1 HI1. apply in_seq in Hin. cbn [plus] in Hin. destruct (Hc c ltac:(lia)) as (vs & row & El & Er & Hn & Hv).
      apply links0 in El as (cv' & Ecv' & El). rewrite Ecv in Ecv'. injection Ecv' as <-. rewrite El. cbn [obind].
      try clear G. match goal with |- context [ofold ?f ?l ?s] => pose proof (fun H D => ofold_grow f (v2x_inv r) (fun i v => nth_error vs i = Some v) l (v2x_mono r) H D s) as G end.
    match type of G with ?A -> _ => assert (HF : A) end.
      * intros i Hi D2 v2 HI2. apply in_seq in Hi. cbn [plus] in Hi.
        destruct (nth_error vs i) as [v|] eqn:Ev; [|apply nth_error_None in Ev; lia]. destruct (nth_error dofs i) as [d|] eqn:Ed; [|apply nth_error_None in Ed; lia].
        cbn [obind]. rewrite Er. cbn [obind]. destruct (Hv i v d Ev Ed) as (p & g & Ep & Eg & Hx). rewrite Ep. cbn [obind].
        destruct HI2 as (L2 & G2).
        assert (Lv : v < length v2). { rewrite L2. destruct (Nat.lt_ge_cases v (size_local (M 0 r) + num_ghosts (M 0 r))) as [L|GE]; [exact L|]. exfalso.
          unfold local_to_global in Eg. destruct (Nat.ltb_spec v (size_local (M 0 r))) as [A|A]; [lia|]. apply nth_error_bound in Eg. unfold num_ghosts in GE. lia. }
        destruct (modify_some v2 v (fun _ => p) Lv) as (v3 & E3'). exists v3. split; [exact E3'|].
        split; [rewrite (modify_length _ _ _ _ E3'); exact L2|].
        intros w Hw. rewrite (modify_nth _ _ _ w _ E3'). destruct (Nat.eqb_spec v w) as [<-|N].
        -- apply nth_error_lt in Lv as (y & Ey). rewrite Ey. exists p. split; [reflexivity|]. exists g. split; [exact Eg|exact Hx].
        -- destruct Hw as [Hw|Hw]; [apply G2, Hw|congruence].
      * destruct (G HF D1 HI1) as (v2 & EV & HV). exists v2. split; [exact EV|]. refine (v2x_mono _ _ _ _ _ HV). intros v [Hd|(vs' & Evs & Hv')]; [left; exact Hd|right].
        rewrite El in Evs. injection Evs as <-. apply In_nth_error in Hv' as (i & Hi). exists i. split; [apply in_seq; apply nth_error_bound in Hi; lia|exact Hi].
    + destruct (G HF D HI) as (v2 & EV & HV). exists v2. split; [exact EV|]. refine (v2x_mono _ _ _ _ _ HV). intros v [Hd|(c & vs & Hc' & El & Hv)]; [left; exact Hd|right].
      apply links0 in El as (cv' & Ecv' & El). rewrite Ecv in Ecv'. injection Ecv' as <-. exists c. split; [apply in_seq; lia|]. exists vs. auto.
  - assert (I0 : v2x_inv r (fun _ => False) (repeat 0 (size_local (M 0 r) + num_ghosts (M 0 r)))) by (split; [rewrite repeat_length; reflexivity|intros v []]).
    destruct (G HF _ I0) as (v2x & EV & _ & HV). exists v2x. split; [exact EV|]. intros v Hv. apply HV. right.
    destruct (rf_vertex _ _ _ _ _ _ _ _ HR r v Hr Hv) as (k & c & vs & Hk & Hc & El & Hin). exists k. split; [apply in_seq; lia|]. exists c, vs. auto.
Qed.

Lemma omap_forall2 {A B} (f : A -> option B) (Q : A -> B -> Prop) l : (forall a, In a l -> exists b, f a = Some b /\ Q a b) ->
  exists lb, omap f l = Some lb /\ Forall2 Q l lb.
Proof.
  induction l as [|a l IH]; intro H; [exists []; split; [reflexivity|constructor]|].
  destruct (H a (or_introl eq_refl)) as (b & E & Hq). destruct IH as (lb & El & Hl); [intros c Hc; apply H; right; exact Hc|].
  exists (b :: lb). cbn [omap]. rewrite E. cbn [obind]. rewrite El. split; [reflexivity|constructor; assumption].
Qed.
Lemma Forall2_mapl {A B C} (f : A -> B) (Q : B -> C -> Prop) l l' : Forall2 (fun a => Q (f a)) l l' -> Forall2 Q (map f l) l'.
Proof. induction 1; constructor; assumption. Qed.
Lemma Forall2_concat2 {A B C} (f : A -> list B) (Q : B -> list C -> Prop) l new :
  Forall2 (fun a b => exists rows, b = concat rows /\ Forall2 Q (f a) rows) l new ->
  exists rows, concat new = concat rows /\ Forall2 Q (concat (map f l)) rows.
Proof.
  induction 1 as [|a b l new (rows & -> & Hr) _ (rows' & E & Hr')]; [exists []; split; [reflexivity|constructor]|].
  exists (rows ++ rows'). cbn [concat map]. rewrite concat_app, E. split; [reflexivity|]. apply Forall2_app; assumption.
Qed.
Lemma seq_add lo n : seq lo n = map (Nat.add lo) (seq 0 n).
Proof. induction n as [|n IH]; [reflexivity|]. rewrite !seq_S, map_app, <- IH. reflexivity. Qed.
Lemma l2g_bound m v g : local_to_global m v = Some g -> v < size_local m + num_ghosts m.
Proof.
  unfold local_to_global, num_ghosts. destruct (Nat.ltb_spec v (size_local m)) as [L|G]; intro H; [lia|]. apply nth_error_bound in H. lia.
Qed.
Lemma l2g_own m i : i < size_local m -> local_to_global m i = Some (im_lo m + i).
Proof. intro H. unfold local_to_global. destruct (Nat.ltb_spec i (size_local m)); [reflexivity|lia]. Qed.

Lemma new_x_eq r : r < P -> exists rows, new_x T zero add div types mesh r (map (fun j => M j r) (seq 0 nk)) = Some (concat rows) /\
  Forall2 (middle verts pos zero add div) (rank_list r) rows.
Proof.
  intro Hr. unfold new_x. destruct (vertex_to_x_eq r Hr) as (v2x & -> & HV). cbn [obind]. pose proof kinds2 as Hk.
  rewrite nth_error_map, nth_error_seq by lia. cbn [option_map obind plus].
  destruct (omap_forall2 (old_point T mesh r v2x) (fun i => middle verts pos zero add div (0, im_lo (M 0 r) + i)) (seq 0 (size_local (M 0 r)))) as (old & -> & Hold).
  { intros i Hi. apply in_seq in Hi. destruct (HV i ltac:(lia)) as (p & Ep & g & Eg & Hx). rewrite l2g_own in Eg by lia. injection Eg as <-.
    exists (map (pos (im_lo (M 0 r) + i)) (seq 0 3)). split; [|unfold middle; reflexivity].
    unfold old_point. rewrite Ep. cbn [obind]. apply omap_map. intros a Ha. apply in_seq in Ha. rewrite Nat.mul_comm. apply Hx. lia. }
  cbn [obind]. rewrite map_length, seq_length.
  match goal with |- context [omap ?f (seq 1 (nk - 1))] =>
    destruct (omap_forall2 f (fun j b => exists rows, b = concat rows /\
      Forall2 (middle verts pos zero add div) (map (pair j) (seq (im_lo (M j r)) (size_local (M j r)))) rows) (seq 1 (nk - 1))) as (new & -> & Hnew) end.
  { intros j Hj. apply in_seq in Hj. rewrite e_index_eq, kinds_nth by lia. cbn [obind].
    destruct (rf_entity _ _ _ _ _ _ _ _ HR r j Hr ltac:(lia)) as (ev & Eev & Hev). rewrite Eev. cbn [obind].
    rewrite nth_error_map, nth_error_seq by lia. cbn [option_map obind plus].
    destruct (omap_forall2 (centre T zero add div mesh r v2x ev) (fun w => middle verts pos zero add div (j, im_lo (M j r) + w)) (seq 0 (size_local (M j r)))) as (rows & -> & Hrows).
    - intros w Hw. apply in_seq in Hw. destruct (Hev w ltac:(lia)) as (vs & gs & Evs & Egs & Hp). unfold centre. rewrite Evs. cbn [obind].
      exists (map (fun a => div (fold_left add (map (fun v => pos v a) gs) zero) (length gs)) (seq 0 3)). split.
      + apply omap_map. intros a Ha. apply in_seq in Ha. rewrite (omap_length _ _ _ Egs). clear Evs Hp.
        assert (G : forall s, ofold (fun s v => p <- nth_error v2x v ;; x <- nth_error (um_x (mesh r)) (3 * p + a) ;; Some (add s x)) vs s =
          Some (fold_left add (map (fun v => pos v a) gs) s)).
        { revert gs Egs. induction vs as [|v vs IH]; intros gs Egs s; [injection Egs as <-; reflexivity|]. cbn [omap] in Egs.
          destruct (local_to_global (M 0 r) v) as [g|] eqn:Eg; [|discriminate]. cbn [obind] in Egs.
          destruct (omap (local_to_global (M 0 r)) vs) as [gs'|] eqn:E'; [|discriminate]. injection Egs as <-.
          destruct (HV v (l2g_bound _ _ _ Eg)) as (p & Ep & g' & Eg' & Hx). assert (g' = g) by congruence. subst g'.
          cbn [ofold map fold_left]. rewrite Ep. cbn [obind]. rewrite Hx by lia. cbn [obind]. apply IH. reflexivity. }
        rewrite G. reflexivity.
      + unfold middle. cbn [fst snd]. destruct (Nat.eqb_spec j 0) as [E|_]; [lia|]. exists gs. split; [exact Hp|reflexivity].
    - cbn [obind]. exists (concat rows). split; [reflexivity|]. exists rows. split; [reflexivity|]. rewrite seq_add, map_map. apply Forall2_mapl, Hrows. }
  cbn [obind]. destruct (Forall2_concat2 _ _ _ _ Hnew) as (rows & E & Hrows). exists (old ++ rows). rewrite E, concat_app. split; [reflexivity|].
  unfold rank_list. replace nk with (S (nk - 1)) by lia. cbn [seq map concat]. apply Forall2_app; [|exact Hrows].
  rewrite seq_add, map_map. apply Forall2_mapl, Hold.
Qed.

(** ** The new vertices of a cell *)
Lemma low_entities t : 2 <= cell_dim t -> new_entities t 0 = map (fun v => [v]) (seq 0 (num_cell_vertices t)).
Proof. destruct t; cbn [cell_dim]; intro H; try lia; vm_compute; reflexivity. Qed.
Lemma new_vertices_eq t : 2 <= cell_dim t ->
  new_vertices t = new_entities t 0 ++ new_entities t 1 ++ new_entities t 2 ++ (if cell_dim t =? 3 then new_entities t 3 else []).
Proof. destruct t; cbn [cell_dim]; intro H; try lia; vm_compute; reflexivity. Qed.
Definition nvl (r : nat) : list (list nat) := match omap (fun j => new_v T P types mesh j r) (seq 0 nk) with Some l => l | None => [] end.
Lemma nvl_eq r : r < P -> omap (fun j => new_v T P types mesh j r) (seq 0 nk) = Some (nvl r).
Proof.
  intro Hr. unfold nvl. destruct (omap_some (fun j => new_v T P types mesh j r) (seq 0 nk)) as (l & ->); [|reflexivity].
  intros j Hj. apply in_seq in Hj. destruct (new_v_eq j r Hr ltac:(lia)) as (nv & E & _). exists nv. exact E.
Qed.
Lemma pick_ok r j es gs : r < P -> j < nk -> omap (local_to_global (M j r)) es = Some gs ->
  exists ns, (v <- nth_error (nvl r) j ;; omap (nth_error v) es) = Some ns /\ Forall2 (fun g n => nth_error ents n = Some (j, g)) gs ns.
Proof.
  intros Hr Hj. destruct (omap_nth _ _ _ (nvl_eq r Hr) j j) as (v & -> & Ev); [rewrite nth_error_seq by exact Hj; reflexivity|].
  destruct (new_v_eq j r Hr Hj) as (v' & Ev' & Hv). rewrite Ev in Ev'. injection Ev' as <-. cbn [obind].
  revert gs. induction es as [|e es IH]; intros gs Egs; [injection Egs as <-; exists []; split; [reflexivity|constructor]|]. cbn [omap] in Egs.
  destruct (local_to_global (M j r) e) as [g|] eqn:Eg; [|discriminate]. cbn [obind] in Egs.
  destruct (omap (local_to_global (M j r)) es) as [gs'|] eqn:E'; [|discriminate]. injection Egs as <-.
  destruct (IH gs' eq_refl) as (ns & En & Hn). destruct (Hv e g Eg) as (n & E1 & E2). exists (n :: ns). cbn [omap]. rewrite E1. cbn [obind]. rewrite En.
  split; [reflexivity|constructor; assumption].
Qed.
Definition numbered (cv : list nat) (e : list nat) (n : nat) : Prop := exists j g, nth_error ents n = Some (j, g) /\
      Permutation (if j =? 0 then [g] else verts j g) (map (fun v => nth v cv 0) e).
Lemma numbered_trans cv j es gs ns : j <> 0 -> Forall2 (fun vs g => Permutation (verts j g) (map (fun v => nth v cv 0) vs)) es gs ->
  Forall2 (fun g n => nth_error ents n = Some (j, g)) gs ns -> Forall2 (numbered cv) es ns.
Proof.
  intros Hj H. revert ns. induction H as [|e g es gs He _ IH]; intros ns Hn; inversion Hn as [|? ? ? ? Hg Ht]; subst; constructor; auto.
  exists j, g. split; [exact Hg|]. destruct (Nat.eqb_spec j 0); [contradiction|exact He].
Qed.
Lemma numbered_low cv ns : Forall2 (fun g n => nth_error ents n = Some (0, g)) cv ns ->
  Forall2 (numbered cv) (map (fun v => [v]) (seq 0 (length cv))) ns.
Proof.
  assert (G : forall pre l ns, Forall2 (fun g n => nth_error ents n = Some (0, g)) l ns -> pre ++ l = cv ->
    Forall2 (numbered cv) (map (fun v => [v]) (seq (length pre) (length l))) ns).
  { intros pre l ns' H. revert pre. induction H as [|g n l ns' Hg _ IH]; intros pre E; cbn [length seq map]; constructor.
    - exists 0, g. split; [exact Hg|]. cbn [Nat.eqb map]. rewrite <- E, app_nth2, Nat.sub_diag by lia. reflexivity.
    - specialize (IH (pre ++ [g])). rewrite app_length, Nat.add_1_r in IH. apply IH. rewrite <- app_assoc. exact E. }
  intro H. exact (G [] cv ns H eq_refl).
Qed.

Lemma cell_entities_eq r k t c cv ce : r < P -> nth_error cell_types k = Some t -> c < size_local (CM k r) ->
  um_conn (mesh r) (dim, k) (0, 0) = Some cv -> um_conn (mesh r) (dim, k) (1, 0) = Some ce ->
  exists N, cell_entities T types mesh r (nvl r) k t cv ce c = Some N /\ cell_numbers types mesh kinds M verts ents r k c N.
Proof.
  intros Hr Hk Hc Ecv Ece. destruct (rf_links _ _ _ _ _ _ _ _ HR r k t c Hr Hk Hc) as (vs & gv & Evs & Egv & Hlen & Hj).
  pose proof (rf_cell _ _ _ _ _ _ _ _ HR t (nth_error_In _ _ Hk)) as Hdim. pose proof (rf_dim _ _ _ _ _ _ _ _ HR) as D. pose proof kinds2 as K2. pose proof nk_dim as K4.
  assert (S0 : exists ns, (v <- nth_error (nvl r) 0 ;; omap (nth_error v) vs) = Some ns /\ Forall2 (numbered gv) (new_entities t 0) ns).
  { destruct (pick_ok r 0 vs gv Hr ltac:(lia) Egv) as (ns & E & H). exists ns. split; [exact E|]. rewrite low_entities, <- Hlen by lia. apply numbered_low, H. }
  assert (S1 : forall j, 1 <= j < nk -> exists es ns, links types mesh kinds r k c j = Some es /\
    (v <- nth_error (nvl r) j ;; omap (nth_error v) es) = Some ns /\ Forall2 (numbered gv) (new_entities t j) ns).
  { intros j Hjj. destruct (Hj j Hjj) as (es & gs & E1 & E2 & HF). destruct (pick_ok r j es gs Hr ltac:(lia) E2) as (ns & E & H). exists es, ns.
    split; [exact E1|]. split; [exact E|]. apply (numbered_trans gv j _ gs); [lia|exact HF|exact H]. }
  destruct S0 as (n0 & E0 & F0). destruct (S1 1 ltac:(lia)) as (es1 & n1 & L1 & E1 & F1).
  apply links0 in Evs as Evs'. destruct Evs' as (cv' & Ecv' & Ev). rewrite Ecv in Ecv'. injection Ecv' as <-.
  unfold links in L1. cbn [Nat.leb] in L1. rewrite Ece in L1. cbn [obind] in L1.
  unfold cell_entities. rewrite Ev. cbn [obind]. rewrite E0. cbn [obind]. rewrite L1. cbn [obind]. rewrite E1. cbn [obind]. rewrite e_index_eq, tdim_eq.
  match goal with |- exists N, (faces <- ?f ;; _) = _ /\ _ => assert (S2 : exists ns, f = Some ns /\ Forall2 (numbered gv) (new_entities t 2) ns) end.
  { destruct (Nat.lt_ge_cases 2 nk) as [L|G].
    - rewrite kinds_nth by exact L. destruct (S1 2 ltac:(lia)) as (es & ns & L2 & E2 & F2). unfold links in L2. cbn [Nat.leb] in L2.
      destruct (Nat.eqb_spec dim 3) as [E3|N3].
      + rewrite E3 in L2. cbn [Nat.ltb Nat.leb] in L2. exists ns. split; [|exact F2]. destruct (um_conn (mesh r) (3, k) (2, nth 2 kinds 0)) as [cn|].
        * cbn [obind] in L2. rewrite L2. cbn [obind]. exact E2.
        * injection L2 as <-. destruct (nth_error (nvl r) 2); [|discriminate]. exact E2.
      + replace (2 <? dim) with false in L2 by (symmetry; apply Nat.ltb_ge; lia). rewrite Hk in L2. exists ns. split; [|exact F2].
        change (kind 2) with Quadrilateral in L2. destruct (cell_eqb t Quadrilateral).
        * injection L2 as <-. exact E2.
        * injection L2 as <-. destruct (nth_error (nvl r) 2); [|discriminate]. exact E2.
    - rewrite (proj2 (nth_error_None kinds 2)) by exact G. exists []. split; [reflexivity|].
      rewrite (rf_more _ _ _ _ _ _ _ _ HR t 2 (nth_error_In _ _ Hk) G). constructor. }
  destruct S2 as (n2 & -> & F2). cbn [obind].
  match goal with |- exists N, (inner <- ?f ;; _) = _ /\ _ =>
    assert (S3 : exists ns, f = Some ns /\ Forall2 (numbered gv) (if cell_dim t =? 3 then new_entities t 3 else []) ns) end.
  { rewrite Hdim. destruct (Nat.ltb_spec 3 nk) as [L|G].
    - assert (E3 : dim = 3) by lia. rewrite E3. cbn [Nat.eqb andb]. destruct (S1 3 ltac:(lia)) as (es & ns & L3 & E3' & F3). exists ns. split; [|exact F3].
      unfold links in L3. cbn [Nat.leb] in L3. rewrite E3 in L3. cbn [Nat.ltb Nat.leb] in L3. rewrite Hk in L3. change (kind 3) with Hexahedron in L3.
      destruct (cell_eqb t Hexahedron); injection L3 as <-; [exact E3'|]. destruct (nth_error (nvl r) 3); [|discriminate]. exact E3'.
    - cbn [andb]. exists []. split; [reflexivity|]. destruct (Nat.eqb_spec dim 3); [|constructor].
      rewrite (rf_more _ _ _ _ _ _ _ _ HR t 3 (nth_error_In _ _ Hk) G). constructor. }
  destruct S3 as (n3 & -> & F3). cbn [obind]. eexists. split; [reflexivity|].
  exists t, vs, gv. split; [exact Hk|]. split; [exact Evs|]. split; [exact Egv|]. rewrite new_vertices_eq by lia.
  change (Forall2 (numbered gv) (new_entities t 0 ++ new_entities t 1 ++ new_entities t 2 ++ (if cell_dim t =? 3 then new_entities t 3 else [])) (n0 ++ n1 ++ n2 ++ n3)).
  repeat apply Forall2_app; assumption.
Qed.

(** ** The cells *)
Lemma modify_map (f : nat -> list nat) n k g : k < n ->
  modify (map f (seq 0 n)) k g = Some (map (fun u => if u =? k then g (f u) else f u) (seq 0 n)).
Proof.
  intro Hk. destruct (modify_some (map f (seq 0 n)) k g) as (l & E); [rewrite map_length, seq_length; exact Hk|]. rewrite E. f_equal.
  apply nth_error_ext. intro i. rewrite (modify_nth _ _ _ i _ E), !nth_error_map.
  destruct (nth_error (seq 0 n) i) as [j|] eqn:Ej; [|destruct (k =? i); reflexivity].
  assert (j = i). { pose proof (nth_error_bound _ _ _ Ej) as B. rewrite seq_length in B. rewrite nth_error_seq in Ej by exact B. injection Ej as <-. lia. }
  subst j. cbn [option_map]. rewrite (Nat.eqb_sym k i). destruct (i =? k); reflexivity.
Qed.
Lemma forall2_length {A B} (Q : A -> B -> Prop) l l' : Forall2 Q l l' -> length l = length l'.
Proof. induction 1; cbn [length]; congruence. Qed.
Definition numbers (r k c : nat) : list nat :=
  match nth_error cell_types k, um_conn (mesh r) (dim, k) (0, 0), um_conn (mesh r) (dim, k) (1, 0) with
  | Some t, Some cv, Some ce => match cell_entities T types mesh r (nvl r) k t cv ce c with Some N => N | None => [] end
  | _, _, _ => []
  end.
Lemma list_bound t l : refined_cell_list t = Some l -> forall i, In i l -> i < length (new_vertices t).
Proof.
  intros E i Hi. assert (G : forallb (fun i => i <? length (new_vertices t)) l = true) by (destruct t; try discriminate; injection E as <-; vm_compute; reflexivity).
  rewrite forallb_forall in G. apply Nat.ltb_lt, G, Hi.
Qed.
Lemma tets_bound i : In i pyr_to_tet_list -> i < length (new_vertices Pyramid).
Proof.
  intros Hi. assert (G : forallb (fun i => i <? length (new_vertices Pyramid)) pyr_to_tet_list = true) by (vm_compute; reflexivity).
  rewrite forallb_forall in G. apply Nat.ltb_lt, G, Hi.
Qed.
Lemma list_groups t l : refined_cell_list t = Some l -> concat (groups (num_cell_vertices t) l) = l.
Proof. intro E. destruct t; try discriminate; injection E as <-; vm_compute; reflexivity. Qed.
Lemma tets_groups : concat (groups 4 pyr_to_tet_list) = pyr_to_tet_list.
Proof. vm_compute. reflexivity. Qed.
Lemma take_all (N l : list nat) : (forall i, In i l -> i < length N) -> omap (nth_error N) l = Some (map (fun i => nth i N 0) l).
Proof. intro H. apply omap_map. intros i Hi. apply nth_error_nth', H, Hi. Qed.
Lemma child_part u v N (gs : list (list nat)) :
  concat (map (fun uc => if cell_eqb (fst uc) u then map (fun i => nth i N 0) (snd uc) else []) (map (pair v) gs)) =
  if cell_eqb v u then map (fun i => nth i N 0) (concat gs) else [].
Proof.
  rewrite map_map. cbn [fst snd]. destruct (cell_eqb v u); [rewrite concat_map; reflexivity|]. induction gs as [|g gs IH]; [reflexivity|exact IH].
Qed.
Lemma child_cells_eq u t l N : refined_cell_list t = Some l ->
  child_cells u t N = (if cell_eqb t u then map (fun i => nth i N 0) l else []) ++
    (if cell_eqb t Pyramid then if cell_eqb Tetrahedron u then map (fun i => nth i N 0) pyr_to_tet_list else [] else []).
Proof.
  intro E. unfold child_cells, children. rewrite E. rewrite map_app, concat_app, child_part, (list_groups t l E). f_equal.
  destruct t; cbn [cell_eqb map concat]; try reflexivity. rewrite child_part, tets_groups. reflexivity.
Qed.
Lemma cell_at u v t : nth_error cell_types u = Some t -> nth_error cell_types v = Some t -> u = v.
Proof.
  intros Hu Hv. pose proof (rf_types _ _ _ _ _ _ _ _ HR dim) as Hn. rewrite cells_nth in Hn.
  apply (proj1 (NoDup_nth_error cell_types) Hn); [apply nth_error_bound in Hu; exact Hu|congruence].
Qed.
Notation ctype := (fun u => nth u cell_types Point).

Lemma refine_type_eq r k (f : nat -> list nat) : r < P -> k < length cell_types ->
  refine_type T types mesh r (nvl r) (map f (seq 0 (length cell_types))) k =
    Some (map (fun u => f u ++ concat (map (fun c => child_cells (ctype u) (ctype k) (numbers r k c)) (seq 0 (size_local (CM k r))))) (seq 0 (length cell_types))) /\
  forall c, c < size_local (CM k r) -> cell_numbers types mesh kinds M verts ents r k c (numbers r k c).
Proof.
  intros Hr Hk. destruct (nth_error_lt cell_types k Hk) as (t & Et). pose proof (rf_cell _ _ _ _ _ _ _ _ HR t (nth_error_In _ _ Et)) as Hdim.
  pose proof (rf_dim _ _ _ _ _ _ _ _ HR) as D. rewrite (nth_error_nth _ _ Point Et).
  destruct (um_conn (mesh r) (dim, k) (0, 0)) as [cv|] eqn:Ecv; [|exfalso; exact (rf_conn _ _ _ _ _ _ _ _ HR r k 0 Hr Hk ltac:(lia) Ecv)].
  destruct (um_conn (mesh r) (dim, k) (1, 0)) as [ce|] eqn:Ece; [|exfalso; exact (rf_conn _ _ _ _ _ _ _ _ HR r k 1 Hr Hk ltac:(lia) Ece)].
  destruct (rf_cell_map _ _ _ _ _ _ _ _ HR r k Hr Hk) as (ms & E3 & E4).
  assert (HN : forall c, c < size_local (CM k r) -> cell_entities T types mesh r (nvl r) k t cv ce c = Some (numbers r k c) /\
    cell_numbers types mesh kinds M verts ents r k c (numbers r k c)).
  { intros c Hc. destruct (cell_entities_eq r k t c cv ce Hr Et Hc Ecv Ece) as (N & E & H). unfold numbers. rewrite Et, Ecv, Ece, E. split; [reflexivity|exact H]. }
  split; [|intros c Hc; apply HN, Hc].
  unfold refine_type. unfold cell_entity_types. rewrite Et. cbn [obind].
  destruct (refined_cell_list t) as [l|] eqn:El; [|exfalso; destruct t; try discriminate; cbn [cell_dim] in Hdim; lia]. cbn [obind].
  assert (Htet : exists kt, (if cell_eqb t Pyramid then find_type Tetrahedron cell_types else Some 0) = Some kt /\
    (cell_eqb t Pyramid = true -> nth_error cell_types kt = Some Tetrahedron)).
  { destruct (cell_eqb t Pyramid) eqn:Ep; [|exists 0; split; [reflexivity|discriminate]]. apply cell_eqb_iff in Ep. subst t.
    pose proof (rf_pyramid _ _ _ _ _ _ _ _ HR (nth_error_In _ _ Et)) as Hin. apply In_nth_error in Hin as (kt & Hkt). exists kt. split; [|intros _; exact Hkt].
    apply find_type_some; [rewrite <- cells_nth; apply (rf_types _ _ _ _ _ _ _ _ HR)|exact Hkt]. }
  destruct Htet as (kt & -> & Hkt). cbn [obind]. rewrite tdim_eq, Ecv, Ece. cbn [obind]. rewrite E3. cbn [obind]. rewrite E4. cbn [obind].
  assert (G : forall n, n <= size_local (CM k r) -> forall cs, cs = seq 0 n -> ofold (fun topology c =>
    entities <- cell_entities T types mesh r (nvl r) k t cv ce c ;;
    cells <- omap (nth_error entities) l ;;
    topology <- modify topology k (fun l => l ++ cells) ;;
    (if cell_eqb t Pyramid then
      tets <- omap (nth_error entities) pyr_to_tet_list ;; modify topology kt (fun l => l ++ tets)
    else Some topology)) cs (map f (seq 0 (length cell_types))) =
    Some (map (fun u => f u ++ concat (map (fun c => child_cells (ctype u) t (numbers r k c)) cs)) (seq 0 (length cell_types)))).
  { induction n as [|n IH]; intros Hn cs ->.
    - cbn [seq ofold map concat]. f_equal. apply map_ext. intro u. rewrite app_nil_r. reflexivity.
    - rewrite seq_S. cbn [plus]. rewrite ofold_app, (IH ltac:(lia) _ eq_refl). cbn [obind ofold].
      destruct (HN n ltac:(lia)) as (En & t' & vs & gv & Et' & _ & _ & HF). assert (t' = t) by congruence. subst t'.
      rewrite En. cbn [obind]. apply forall2_length in HF. rewrite (take_all _ l) by (intros i Hi; rewrite <- HF; apply (list_bound t l El i Hi)). cbn [obind].
      rewrite modify_map by exact Hk. cbn [obind].
      match goal with |- (_ <- ?e ;; _) = _ => assert (EE : e = Some (map (fun u => f u ++ concat (map (fun c => child_cells (ctype u) t (numbers r k c)) (seq 0 n ++ [n]))) (seq 0 (length cell_types)))) end.
      2:{ rewrite EE. reflexivity. }
      destruct (cell_eqb t Pyramid) eqn:Ep.
      + pose proof Ep as Ep'. apply cell_eqb_iff in Ep'. subst t. specialize (Hkt eq_refl).
        rewrite (take_all _ pyr_to_tet_list) by (intros i Hi; rewrite <- HF; apply tets_bound, Hi). cbn [obind].
        rewrite modify_map by (apply nth_error_bound in Hkt; exact Hkt). f_equal. apply map_ext_in. intros u Hu. apply in_seq in Hu.
        rewrite map_app, concat_app. cbn [map concat]. rewrite app_nil_r, (child_cells_eq _ Pyramid l _ El). cbn [cell_eqb].
        destruct (nth_error_lt cell_types u ltac:(lia)) as (tu & Etu). rewrite (nth_error_nth _ _ Point Etu).
        destruct (Nat.eqb_spec u kt) as [->|N1].
        * assert (tu = Tetrahedron) by congruence. subst tu. destruct (Nat.eqb_spec kt k) as [->|N2]; [congruence|]. cbn [cell_eqb]. rewrite app_assoc. reflexivity.
        * destruct (Nat.eqb_spec u k) as [->|N2].
          -- assert (tu = Pyramid) by congruence. subst tu. cbn [cell_eqb]. rewrite app_nil_r, app_assoc. reflexivity.
          -- destruct tu; cbn [cell_eqb]; rewrite ?app_nil_r; try reflexivity; exfalso; [apply N1|apply N2]; eapply cell_at; eassumption.
      + f_equal. apply map_ext_in. intros u Hu. apply in_seq in Hu.
        rewrite map_app, concat_app. cbn [map concat]. rewrite app_nil_r, (child_cells_eq _ t l _ El), Ep, app_nil_r.
        destruct (nth_error_lt cell_types u ltac:(lia)) as (tu & Etu). rewrite (nth_error_nth _ _ Point Etu).
        destruct (Nat.eqb_spec u k) as [->|N2].
        * assert (tu = t) by congruence. subst tu. replace (cell_eqb t t) with true by (symmetry; apply cell_eqb_iff; reflexivity). rewrite app_assoc. reflexivity.
        * destruct (cell_eqb t tu) eqn:Eu; [|rewrite app_nil_r; reflexivity]. apply cell_eqb_iff in Eu. subst tu. exfalso. apply N2. eapply cell_at; eassumption. }
  apply (G (size_local (CM k r)) (le_n _) _ eq_refl).
Qed.

Lemma topology_eq r : r < P ->
  ofold (refine_type T types mesh r (nvl r)) (seq 0 (length cell_types)) (repeat [] (length cell_types)) =
  Some (map (fun u => concat (map (fun k => concat (map (fun c => child_cells (ctype u) (ctype k) (numbers r k c)) (seq 0 (size_local (CM k r)))))
    (seq 0 (length cell_types)))) (seq 0 (length cell_types))).
Proof.
  intro Hr. assert (G : forall n, n <= length cell_types -> ofold (refine_type T types mesh r (nvl r)) (seq 0 n) (repeat [] (length cell_types)) =
    Some (map (fun u => concat (map (fun k => concat (map (fun c => child_cells (ctype u) (ctype k) (numbers r k c)) (seq 0 (size_local (CM k r)))))
    (seq 0 n))) (seq 0 (length cell_types)))).
  { induction n as [|n IH]; intro Hn.
    - cbn [seq ofold map concat]. f_equal. assert (G0 : forall m a, repeat (@nil nat) m = map (fun _ : nat => []) (seq a m)) by (induction m as [|m IHm]; intro a; [reflexivity|]; cbn [repeat seq map]; f_equal; apply IHm). apply G0.
    - rewrite seq_S. cbn [plus]. rewrite ofold_app, (IH ltac:(lia)). cbn [obind ofold].
      rewrite (proj1 (refine_type_eq r n _ Hr ltac:(lia))). cbn [obind]. f_equal. apply map_ext. intro u. rewrite map_app, concat_app. cbn [map concat]. rewrite app_nil_r. reflexivity. }
  apply G. lia.
Qed.

Lemma refine_all : exists L N out rows, enumerates P kinds M L /\ Forall2 (middle verts pos zero add div) L rows /\
  concat (map (fun r => fst (out r)) (seq 0 P)) = concat rows /\
  forall r, r < P -> uniform_refine T zero add div P types mesh r = Some (out r) /\
    (forall k c, k < length cell_types -> c < size_local (CM k r) -> cell_numbers types mesh kinds M verts L r k c (N r k c)) /\
    length (snd (out r)) = length cell_types /\
    forall k u, nth_error cell_types k = Some u -> nth_error (snd (out r)) k = Some (concat (map (fun k' => concat (map (fun c =>
      child_cells u (nth k' cell_types Point) (N r k' c)) (seq 0 (size_local (CM k' r))))) (seq 0 (length cell_types)))).
Proof.
  set (topo := fun r => map (fun u => concat (map (fun k => concat (map (fun c => child_cells (ctype u) (ctype k) (numbers r k c)) (seq 0 (size_local (CM k r)))))
    (seq 0 (length cell_types)))) (seq 0 (length cell_types))).
  set (xs := fun r => match new_x T zero add div types mesh r (map (fun j => M j r) (seq 0 nk)) with Some x => x | None => [] end).
  assert (HX : exists rows, concat (map xs (seq 0 P)) = concat rows /\ Forall2 (middle verts pos zero add div) ents rows).
  { assert (H : Forall2 (fun r b => exists rows, b = concat rows /\ Forall2 (middle verts pos zero add div) (rank_list r) rows) (seq 0 P) (map xs (seq 0 P))).
    { assert (G : forall l, (forall r, In r l -> r < P) -> Forall2 (fun r b => exists rows, b = concat rows /\ Forall2 (middle verts pos zero add div) (rank_list r) rows) l (map xs l)).
      { induction l as [|r l IH]; intro Hl; cbn [map]; constructor.
        - destruct (new_x_eq r (Hl r (or_introl eq_refl))) as (rows & E & H). exists rows. split; [|exact H]. unfold xs. rewrite E. reflexivity.
        - apply IH. intros q Hq. apply Hl. right. exact Hq. }
      apply G. intros r Hr. apply in_seq in Hr. lia. }
    exact (Forall2_concat2 _ _ _ _ H). }
  destruct HX as (rows & EX & HX). exists ents, numbers, (fun r => (xs r, topo r)), rows. split; [split; [exact ents_nodup|exact ents_in]|].
  split; [exact HX|]. split; [exact EX|]. intros r Hr. split; [|split].
  - unfold uniform_refine. pose proof (rf_dim _ _ _ _ _ _ _ _ HR) as D. rewrite tdim_eq. destruct (Nat.ltb_spec dim 2); [lia|].
    rewrite uni_maps_eq by exact Hr. cbn [obind]. unfold xs. destruct (new_x_eq r Hr) as (rw & E & _). rewrite E. cbn [obind].
    rewrite map_length, seq_length, nvl_eq by exact Hr. cbn [obind]. unfold cell_entity_types. rewrite topology_eq by exact Hr. reflexivity.
  - intros k c Hk Hc. exact (proj2 (refine_type_eq r k (fun _ => []) Hr Hk) c Hc).
  - cbn [snd]. unfold topo. split; [rewrite map_length, seq_length; reflexivity|]. intros k u Hk. pose proof (nth_error_bound _ _ _ Hk) as B.
    rewrite nth_error_map, nth_error_seq by exact B. cbn [option_map plus]. rewrite (nth_error_nth _ _ Point Hk). reflexivity.
Qed.
End World.
