From Coq Require Import Ring Field.
From Verif Require Import Base BaseProofs BucketProofs Algo AlgoProofs Nbx World WorldProofs
  IndexMap IndexMapSpec IndexMapProofs ImSharedProofs Scatterer ScattererProofs VectorOps VectorSpec.

Lemma slice0 {A} (l : list A) n : n <= length l -> slice l 0 n = Some (firstn n l).
Proof. intro H. apply slice_some. rewrite Nat.sub_0_r. auto with arith. Qed.

Lemma combine_concat {A B C} (f : C -> list A) (g : C -> list B) l :
  (forall c, In c l -> length (f c) = length (g c)) ->
  combine (concat (map f l)) (concat (map g l)) = concat (map (fun c => combine (f c) (g c)) l).
Proof.
  induction l as [|c t IH]; intro H; [reflexivity|]. cbn [map concat].
  rewrite <- IH by (intros; apply H; now right). specialize (H c (or_introl eq_refl)). revert H.
  generalize (concat (map f t)), (concat (map g t)). generalize (f c), (g c).
  induction l as [|x l IH']; intros [|y l'] u v E; cbn in *; try discriminate; [reflexivity|]. f_equal. apply IH'. lia.
Qed.

Section Global.
Variables (T : Type) (P : nat).

Lemma global_length (v : vec T) n : sized P v -> n <= P ->
  length (concat (map (fun q => firstn (local_size T v q) (v_x T v q)) (seq 0 n)))
  = v_bs T v * lsum (map (fun q => size_local (v_map T v q)) (seq 0 n)).
Proof.
  intros Hs. induction n as [|n IH]; intro Hn; [cbn; now rewrite Nat.mul_0_r|].
  rewrite seq_S, !map_app, concat_app, app_length, IH, lsum_app by lia. cbn [map concat].
  rewrite app_nil_r, firstn_length, lsum_cons, lsum_nil. cbn [plus]. specialize (Hs n ltac:(lia)).
  unfold local_size in *. nia.
Qed.

Lemma global_entry (v : vec T) q g j : maps_ok P (v_map T v) -> sized P v -> q < P -> owns (v_map T v q) g -> j < v_bs T v ->
  nth_error (global_vec P v) (v_bs T v * g + j) = nth_error (v_x T v q) (v_bs T v * (g - im_lo (v_map T v q)) + j).
Proof.
  intros Hok Hs Hq Hg Hj. unfold global_vec.
  replace P with (q + S (P - S q)) by lia. rewrite seq_app, map_app, concat_app. cbn [seq map concat plus].
  pose proof (global_length v q Hs ltac:(lia)) as Hl. rewrite <- (lo_is_sum P _ Hok q Hq) in Hl.
  unfold owns in Hg. specialize (Hs q Hq).
  assert (Hlt : v_bs T v * (g - im_lo (v_map T v q)) + j < local_size T v q) by (unfold local_size, size_local; nia).
  rewrite nth_error_app2 by (rewrite Hl; nia). rewrite Hl.
  replace (v_bs T v * g + j - v_bs T v * im_lo (v_map T v q)) with (v_bs T v * (g - im_lo (v_map T v q)) + j) by nia.
  rewrite nth_error_app1 by (rewrite firstn_length; lia).
  rewrite <- (firstn_skipn (local_size T v q) (v_x T v q)) at 2. rewrite nth_error_app1 by (rewrite firstn_length; lia). reflexivity.
Qed.
End Global.

Section Ring.
Variables (T : Type) (zero one : T) (add mul sub : T -> T -> T) (opp : T -> T).
Hypothesis Rth : ring_theory zero one add mul sub opp eq.
Add Ring Tring : Rth.
Infix "+" := add. Infix "*" := mul.
Notation tsum := (tsum T zero add).

Lemma tsum_cons x l : tsum (x :: l) = x + tsum l.
Proof. reflexivity. Qed.
Lemma tsum_nil : tsum [] = zero.
Proof. reflexivity. Qed.
Lemma tsum_app a b : tsum (a ++ b) = tsum a + tsum b.
Proof. induction a as [|x t IH]; cbn [app]; rewrite ?tsum_cons, ?tsum_nil; [ring|]. rewrite IH. ring. Qed.
Lemma tsum_concat L : tsum (concat L) = tsum (map tsum L).
Proof. induction L as [|x t IH]; [reflexivity|]. cbn [concat map]. rewrite tsum_app, IH. reflexivity. Qed.
Lemma tsum_perm a b : Permutation a b -> tsum a = tsum b.
Proof. induction 1; rewrite ?tsum_cons; try congruence. ring. Qed.
Lemma tsum_map_add {A} (f g : A -> T) l : tsum (map (fun x => f x + g x) l) = tsum (map f l) + tsum (map g l).
Proof. induction l as [|x t IH]; cbn [map]; rewrite ?tsum_cons, ?tsum_nil; [ring|]. rewrite IH. ring. Qed.
Lemma tsum_map_scale {A} (f : A -> T) c l : tsum (map (fun x => c * f x) l) = c * tsum (map f l).
Proof. induction l as [|x t IH]; cbn [map]; rewrite ?tsum_cons, ?tsum_nil; [ring|]. rewrite IH. ring. Qed.
Lemma tsum_ext {A} (f g : A -> T) l : (forall x, In x l -> f x = g x) -> tsum (map f l) = tsum (map g l).
Proof. intro H. f_equal. now apply map_ext_in. Qed.
Lemma tsum_concat_map {A B} (f : B -> T) (g : A -> list B) l :
  tsum (map f (concat (map g l))) = tsum (map (fun a => tsum (map f (g a))) l).
Proof. rewrite concat_map, tsum_concat, !map_map. reflexivity. Qed.
Lemma fold_left_tsum l v : fold_left add l v = v + tsum l.
Proof. revert v; induction l as [|x t IH]; intro v; cbn [fold_left]; rewrite ?tsum_cons, ?tsum_nil; [ring|]. rewrite IH. ring. Qed.

(** ** inner_product *)
Variable conj : T -> T.
Variable P : nat.
Notation inner := (inner_product T zero add mul conj P).

Notation dot := (dot T zero add mul conj).

Lemma inner_ok a b : sized P a -> sized P b -> (forall r, r < P -> local_size T a r = local_size T b r) ->
  inner a b = Some (dot (global_vec P a) (global_vec P b)).
Proof.
  intros Ha Hb Hl. unfold inner_product.
  rewrite omap_map with (g := fun r => dot (firstn (local_size T a r) (v_x T a r)) (firstn (local_size T b r) (v_x T b r))).
  - cbn [obind]. f_equal. unfold dot, global_vec. rewrite combine_concat.
    + rewrite concat_map, tsum_concat, !map_map. reflexivity.
    + intros r Hr. apply in_seq in Hr. rewrite !firstn_length, !min_l, Hl by (try apply Ha; try apply Hb; lia). reflexivity.
  - intros r Hr. apply in_seq in Hr. unfold inner_local. rewrite Hl, Nat.eqb_refl by lia.
    pose proof (Ha r ltac:(lia)). pose proof (Hb r ltac:(lia)). rewrite (Hl r) in * by lia.
    rewrite !slice0 by assumption. reflexivity.
Qed.

Lemma inner_mismatch a b r : r < P -> local_size T a r <> local_size T b r -> inner a b = None.
Proof.
  intros Hr H. unfold inner_product. replace P with (r + S (P - S r))%nat by lia. rewrite seq_app.
  assert (E : forall l1 l2, omap (inner_local T zero add mul conj a b) (l1 ++ r :: l2) = None).
  { induction l1 as [|x t IH]; intro l2; cbn.
    - unfold inner_local. destruct (Nat.eqb_spec (local_size T a r) (local_size T b r)); [contradiction|reflexivity].
    - rewrite IH. destruct (inner_local T zero add mul conj a b x); reflexivity. }
  cbn [seq plus]. now rewrite E.
Qed.
End Ring.

(** ** Adjointness of the scatters *)
Section Adjoint.
Variables (T : Type) (zero one : T) (add mul sub : T -> T -> T) (opp : T -> T).
Hypothesis Rth : ring_theory zero one add mul sub opp eq.
Add Ring Tring2 : Rth.
Infix "+" := add. Infix "*" := mul.
Notation tsum := (tsum T zero add).
Variables (P : nat) (maps : nat -> imap) (bs : nat).
Hypothesis Hok : maps_ok P maps.

Variable conj : T -> T.
Notation sdot := (sdot T zero add mul conj).
Notation total := (total T zero add P).

Lemma seq_shift_map a n : seq a n = map (fun i => (a + i)%nat) (seq 0 n).
Proof.
  revert a; induction n as [|n IH]; intro a; [reflexivity|]. cbn. rewrite Nat.add_0_r. f_equal.
  rewrite (IH (S a)), <- seq_shift, map_map. apply map_ext. intro. lia.
Qed.

Lemma seq_cross n : Permutation (seq 0 (bs * n)) (map (fun ij => (bs * fst ij + snd ij)%nat) (cross (seq 0 n) bs)).
Proof.
  destruct (Nat.eq_dec bs 0) as [->|Hb].
  - replace (cross (seq 0 n) 0) with (@nil (nat * nat)); [constructor|]. unfold cross. cbn. symmetry. apply concat_map_nil.
  - apply NoDup_Permutation; [apply seq_NoDup| |].
    + apply NoDup_map_inj; [apply cross_NoDup, seq_NoDup|]. intros [a b] [c d] H1 H2 E. cbn [fst snd] in E.
      apply cross_in in H1 as (_ & H1). apply cross_in in H2 as (_ & H2).
      destruct (block_inj bs a b c d H1 H2); [lia|]. congruence.
    + intro i. rewrite in_seq, in_map_iff. split.
      * intro Hi. exists (i / bs, i mod bs)%nat. cbn [fst snd]. split; [symmetry; now apply Nat.div_mod|].
        apply cross_in. split; [|now apply Nat.mod_upper_bound]. apply in_seq. split; [lia|].
        apply Nat.div_lt_upper_bound; lia.
      * intros ([a b] & <- & H). apply cross_in in H as (Ha & Hb'). apply in_seq in Ha. cbn [fst snd]. nia.
Qed.

Variables (x y : nat -> list T).
Hypothesis Hx : forall r, r < P -> length (x r) = (bs * (size_local (maps r) + num_ghosts (maps r)))%nat.
Hypothesis Hy : forall r, r < P -> length (y r) = (bs * (size_local (maps r) + num_ghosts (maps r)))%nat.
Notation len r := (bs * (size_local (maps r) + num_ghosts (maps r)))%nat.
Notation own r := (bs * size_local (maps r))%nat.

Variables (fx ry : nat -> list T).
Hypothesis Hfx : forall r, r < P -> vec_scatter_fwd P maps bs T x r = Some (fx r).
Hypothesis Hry : forall r, r < P -> vec_scatter_rev P maps bs T add y r = Some (ry r).

(** Product term of ghost [k] of rank [q], component [j]. *)
Definition term (t : nat * nat * nat) : T :=
  let '(q, k, j) := t in
  let o := nth k (im_owners (maps q)) 0%nat in
  conj (nth (bs * (gh maps q k - im_lo (maps o)) + j)%nat (x o) zero)
  * nth (bs * (size_local (maps q) + k) + j)%nat (y q) zero.

Definition ghost_triples : list (nat * nat * nat) :=
  concat (map (fun q => map (fun kj => (q, fst kj, snd kj)) (cross (seq 0 (num_ghosts (maps q))) bs)) (seq 0 P)).
Definition owned_quads : list (nat * nat * nat * nat) :=
  concat (map (fun r => concat (map (fun ij => map (fun q => (r, fst ij, snd ij, q)) (seq 0 P)) (cross (seq 0 (size_local (maps r))) bs))) (seq 0 P)).
Definition seen (t : nat * nat * nat * nat) : list (nat * nat * nat) :=
  let '(r, i, j, q) := t in
  match index_in (im_lo (maps r) + i)%nat (im_ghosts (maps q)) with Some k => [(q, k, j)] | None => [] end.

Lemma in_triples q k j : In (q, k, j) ghost_triples <-> q < P /\ k < num_ghosts (maps q) /\ j < bs.
Proof.
  unfold ghost_triples. rewrite in_concat. split.
  - intros (l & Hl & H). apply in_map_iff in Hl as (q' & <- & Hq). apply in_map_iff in H as ([k' j'] & E & H). cbn in E.
    injection E as -> -> ->. apply cross_in in H as (H1 & H2). apply in_seq in H1, Hq. lia.
  - intros (H1 & H2 & H3). eexists. split; [apply in_map_iff; exists q; split; [reflexivity|apply in_seq; lia]|].
    apply in_map_iff. exists (k, j). split; [reflexivity|]. apply cross_in. split; [apply in_seq; lia|exact H3].
Qed.
Lemma in_quads r i j q : In (r, i, j, q) owned_quads <-> r < P /\ i < size_local (maps r) /\ j < bs /\ q < P.
Proof.
  unfold owned_quads. rewrite in_concat. split.
  - intros (l & Hl & H). apply in_map_iff in Hl as (r' & <- & Hr). apply in_concat in H as (l & Hl & H).
    apply in_map_iff in Hl as ([i' j'] & <- & Hij). apply in_map_iff in H as (q' & E & Hq). cbn in E. injection E as -> -> -> ->.
    apply cross_in in Hij as (Hi & Hj). apply in_seq in Hr, Hi, Hq. lia.
  - intros (H1 & H2 & H3 & H4). eexists. split; [apply in_map_iff; exists r; split; [reflexivity|apply in_seq; lia]|].
    apply in_concat. eexists. split; [apply in_map_iff; exists (i, j); split; [reflexivity|apply cross_in; split; [apply in_seq; lia|exact H3]]|].
    apply in_map_iff. exists q. split; [reflexivity|apply in_seq; lia].
Qed.
Lemma NoDup_triples : NoDup ghost_triples.
Proof.
  apply NoDup_concat; [apply seq_NoDup| |].
  - intros q _. apply NoDup_map_inj; [apply cross_NoDup, seq_NoDup|]. intros [a b] [c d] _ _ E. cbn in E. congruence.
  - intros a b z _ _ Ha Hb. apply in_map_iff in Ha as (u & <- & _). apply in_map_iff in Hb as (v & E & _). congruence.
Qed.
Lemma NoDup_quads : NoDup owned_quads.
Proof.
  apply NoDup_concat; [apply seq_NoDup| |].
  - intros r _. apply NoDup_concat; [apply cross_NoDup, seq_NoDup| |].
    + intros ij _. apply NoDup_map_inj; [apply seq_NoDup|]. intros a b _ _ E. congruence.
    + intros [a b] [c d] z _ _ Ha Hb. apply in_map_iff in Ha as (u & <- & _). apply in_map_iff in Hb as (v & E & _). cbn in E. congruence.
  - intros a b z _ _ Ha Hb. apply in_concat in Ha as (l & Hl & Ha). apply in_map_iff in Hl as (u & <- & _).
    apply in_map_iff in Ha as (q & <- & _). apply in_concat in Hb as (l & Hl & Hb). apply in_map_iff in Hl as (v & <- & _).
    apply in_map_iff in Hb as (q' & E & _). congruence.
Qed.

Lemma seen_perm : Permutation (concat (map seen owned_quads)) ghost_triples.
Proof.
  apply NoDup_Permutation.
  - apply NoDup_concat; [apply NoDup_quads| |].
    + intros [[[r i] j] q] _. cbn. destruct (index_in _ _); repeat constructor; auto.
    + intros [[[r i] j] q] [[[r' i'] j'] q'] [[q0 k] j0] H1 H2 Ha Hb. cbn in Ha, Hb.
      apply in_quads in H1 as (Hr & Hi & Hj & Hq). apply in_quads in H2 as (Hr' & Hi' & Hj' & Hq').
      destruct (index_in (im_lo (maps r) + i)%nat _) as [k1|] eqn:E1; [|destruct Ha].
      destruct Ha as [Ha|[]]. injection Ha as -> -> ->.
      destruct (index_in (im_lo (maps r') + i')%nat _) as [k2|] eqn:E2; [|destruct Hb].
      destruct Hb as [Hb|[]]. injection Hb as -> -> ->.
      apply index_in_some in E1, E2. assert (E : (im_lo (maps r) + i)%nat = (im_lo (maps r') + i')%nat) by congruence.
      assert (r = r').
      { apply (owner_unique P maps Hok r r' (im_lo (maps r) + i)%nat); auto; unfold owns; unfold size_local in *; lia. }
      subst r'. assert (i = i') by lia. congruence.
  - apply NoDup_triples.
  - intros [[q k] j]. rewrite in_triples, in_concat. split.
    + intros (l & Hl & H). apply in_map_iff in Hl as ([[[r i] j'] q'] & <- & Hq). cbn in H.
      apply in_quads in Hq as (Hr & Hi & Hj & Hq). destruct (index_in _ _) as [k1|] eqn:E1; [|destruct H].
      destruct H as [H|[]]. injection H as -> -> ->. apply index_in_some, nth_error_bound in E1. auto.
    + intros (Hq & Hk & Hj). pose proof (gh_nth maps q k Hk) as Hg.
      destruct (ghost_owner P maps Hok q (gh maps q k) Hq (nth_error_In _ _ Hg)) as (o & k' & Ho & _ & Hw & _).
      unfold owns in Hw. exists (seen (o, gh maps q k - im_lo (maps o), j, q)%nat). split.
      * apply in_map, in_quads. unfold size_local. repeat split; auto; lia.
      * cbn. replace (im_lo (maps o) + (gh maps q k - im_lo (maps o)))%nat with (gh maps q k) by lia.
        rewrite (index_in_nth _ _ _ (mo_once _ _ Hok q Hq) Hg). now left.
Qed.

Lemma adjoint : total (fun r => sdot (len r) (fx r) (y r)) = total (fun r => sdot (own r) (x r) (ry r)).
Proof.
  unfold total.
  transitivity (tsum (map (fun r => sdot (own r) (x r) (y r)) (seq 0 P)) + tsum (map term ghost_triples)).
  - unfold ghost_triples. rewrite (tsum_concat_map T zero one add mul sub opp Rth). rewrite <- (tsum_map_add T zero one add mul sub opp Rth).
    apply tsum_ext. intros r Hr. apply in_seq in Hr. assert (HrP : r < P) by lia.
    destruct (scatter_fwd_ok P maps bs Hok T zero x Hx r HrP) as (f & Ef & _ & Hown & Hgh).
    rewrite Hfx in Ef by exact HrP. injection Ef as <-.
    unfold sdot at 1. rewrite Nat.mul_add_distr_l, seq_app, map_app, (tsum_app T zero one add mul sub opp Rth). f_equal.
    + apply tsum_ext. intros i Hi. apply in_seq in Hi. f_equal. f_equal. specialize (Hown i ltac:(lia)).
      destruct (nth_error_lt (x r) i) as (v & Ev); [rewrite Hx by exact HrP; nia|]. rewrite Ev in Hown.
      rewrite (nth_error_nth _ _ _ Hown). symmetry. now apply nth_error_nth.
    + cbn [plus]. rewrite (seq_shift_map (own r)), map_map.
      rewrite (tsum_perm T zero one add mul sub opp Rth _ _ (Permutation_map _ (seq_cross (num_ghosts (maps r))))).
      rewrite !map_map. apply tsum_ext. intros [k j] Hkj. apply cross_in in Hkj as (Hk & Hj). apply in_seq in Hk.
      cbn [fst snd term]. replace (own r + (bs * k + j))%nat with (bs * (size_local (maps r) + k) + j)%nat by nia. f_equal. f_equal.
      pose proof (gh_nth maps r k ltac:(lia)) as Hg.
      destruct (nth_error_lt (im_owners (maps r)) k) as (o & Ho); [rewrite (mo_len _ _ Hok) by exact HrP; unfold num_ghosts in Hk; lia|].
      specialize (Hgh k _ o j Hg Ho Hj). rewrite (nth_error_nth _ _ 0%nat Ho).
      destruct (mo_owner _ _ Hok r k _ o HrP Hg Ho) as (HoP & _ & Hw). unfold owns in Hw.
      destruct (nth_error_lt (x o) (bs * (gh maps r k - im_lo (maps o)) + j)%nat) as (v & Ev).
      { rewrite Hx by exact HoP. unfold size_local. nia. }
      rewrite Ev in Hgh. rewrite (nth_error_nth _ _ _ Hgh). symmetry. now apply nth_error_nth.
  - rewrite <- (tsum_perm T zero one add mul sub opp Rth _ _ (Permutation_map term seen_perm)).
    unfold owned_quads. rewrite (tsum_concat_map T zero one add mul sub opp Rth). rewrite (tsum_concat_map T zero one add mul sub opp Rth).
    rewrite <- (tsum_map_add T zero one add mul sub opp Rth).
    apply tsum_ext. intros r Hr. apply in_seq in Hr. assert (HrP : r < P) by lia.
    destruct (scatter_rev_ok P maps bs Hok T zero y Hy add r HrP) as (f & Ef & _ & Hown & _).
    rewrite Hry in Ef by exact HrP. injection Ef as <-.
    unfold sdot. rewrite (tsum_concat_map T zero one add mul sub opp Rth).
    rewrite !(tsum_perm T zero one add mul sub opp Rth _ _ (Permutation_map _ (seq_cross (size_local (maps r))))).
    rewrite !map_map, <- (tsum_map_add T zero one add mul sub opp Rth).
    apply tsum_ext. intros [i j] Hij. apply cross_in in Hij as (Hi & Hj). apply in_seq in Hi. cbn [fst snd].
    specialize (Hown i j ltac:(lia) Hj).
    destruct (nth_error_lt (y r) (bs * i + j)%nat) as (v & Ev); [rewrite Hy by exact HrP; nia|]. rewrite Ev in Hown. cbn in Hown.
    rewrite (nth_error_nth _ _ _ Hown), (nth_error_nth _ _ _ Ev).
    rewrite (fold_left_tsum T zero one add mul sub opp Rth), (tsum_concat T zero one add mul sub opp Rth), map_map.
    set (xv := conj (nth (bs * i + j)%nat (x r) zero)).
    match goal with |- _ = xv * (v + ?S) => replace (xv * (v + S)) with (xv * v + xv * S) by ring end.
    apply (f_equal (add (xv * v))). rewrite !map_map, <- (tsum_map_scale T zero one add mul sub opp Rth). apply tsum_ext.
    intros q Hq. apply in_seq in Hq. unfold contrib, seen. destruct (index_in _ _) as [k|] eqn:Ek; cbn [map]; [|cbn; ring].
    pose proof (index_in_some _ _ _ Ek) as Hg. pose proof (nth_error_bound _ _ _ Hg) as Hk.
    destruct (nth_error_lt (im_owners (maps q)) k) as (o & Ho); [rewrite (mo_len _ _ Hok) by lia; exact Hk|].
    destruct (mo_owner _ _ Hok q k _ o ltac:(lia) Hg Ho) as (HoP & _ & Hw).
    assert (o = r).
    { eapply (owner_unique P maps Hok); eauto. unfold owns, size_local in *; lia. }
    subst o. unfold term. rewrite (nth_error_nth _ _ 0%nat Ho). unfold gh. rewrite (nth_error_nth _ _ 0%nat Hg).
    replace (im_lo (maps r) + i - im_lo (maps r))%nat with i by lia. fold xv. cbn. ring.
Qed.
End Adjoint.

(** ** Norms *)
Section NormProofs.
Variables (T U : Type) (uzero : U) (uadd : U -> U -> U) (ultb : U -> U -> bool) (absv normv : T -> U).
Variable P : nat.

Lemma norm_l1_ok x :
  (forall a b c, uadd a (uadd b c) = uadd (uadd a b) c) -> (forall a, uadd uzero a = a) -> (forall a, uadd a uzero = a) ->
  sized P x ->
  norm_l1 T U uzero uadd absv P x = Some (fold_right uadd uzero (map absv (global_vec P x))).
Proof.
  intros Ha Hl Hr Hs. unfold norm_l1.
  assert (F : forall l n, fold_left (fun n v => uadd n (absv v)) l n = uadd n (fold_right uadd uzero (map absv l))).
  { induction l as [|a t IH]; intro n; cbn; [now rewrite Hr|]. rewrite IH. now rewrite Ha. }
  assert (G : forall a b, fold_right uadd uzero (a ++ b) = uadd (fold_right uadd uzero a) (fold_right uadd uzero b)).
  { induction a as [|y t IH]; intro b; cbn; [now rewrite Hl|]. now rewrite IH, Ha. }
  rewrite omap_map with (g := fun r => fold_right uadd uzero (map absv (firstn (local_size T x r) (v_x T x r)))).
  - cbn [obind]. f_equal. unfold global_vec. generalize (seq 0 P). induction l as [|q t IH]; [reflexivity|].
    cbn [map concat fold_right]. rewrite map_app, G, IH. reflexivity.
  - intros r Hr'. apply in_seq in Hr'. rewrite slice0 by (apply Hs; lia). cbn [obind]. now rewrite F, Hl.
Qed.

Hypothesis Hasym : forall a b, ultb a b = true -> ultb b a = false.
Hypothesis Htrans : forall a b c, ultb a b = false -> ultb b c = false -> ultb a c = false.
Hypothesis Hnorm : forall a b, ultb (normv a) (normv b) = ultb (absv a) (absv b).

Lemma irrefl a : ultb a a = false.
Proof. destruct (ultb a a) eqn:E; [|reflexivity]. now rewrite (Hasym _ _ E) in E. Qed.

Lemma max_element_ok l m : max_element T U ultb normv l = Some m ->
  In m l /\ forall v, In v l -> ultb (absv m) (absv v) = false.
Proof.
  destruct l as [|a t]; [discriminate|]. cbn [max_element]. intro H. injection H as <-. revert a.
  induction t as [|b t IH]; intro a; cbn [fold_left].
  - split; [now left|]. intros v [->|[]]. apply irrefl.
  - destruct (IH (if ultb (normv a) (normv b) then b else a)) as (H1 & H2).
    set (m := fold_left _ t _) in *. split.
    + destruct H1 as [<-|H1]; [|now right; right]. destruct (ultb (normv a) (normv b)); [now right; left|now left].
    + pose proof (H2 _ (or_introl eq_refl)) as H0. rewrite Hnorm in H0. intros v [<-|[<-|Hv]]; [| |apply H2; now right].
      * destruct (ultb (absv a) (absv b)) eqn:E; [|exact H0]. eapply Htrans; [exact H0|]. now apply Hasym.
      * destruct (ultb (absv a) (absv b)) eqn:E; [exact H0|]. eapply Htrans; [exact H0|exact E].
Qed.

Lemma fold_umax l a : let m := fold_left (umax U ultb) l a in
  In m (a :: l) /\ forall v, In v (a :: l) -> ultb m v = false.
Proof.
  cbn zeta. revert a; induction l as [|b t IH]; intro a; cbn [fold_left].
  - split; [now left|]. intros v [->|[]]. apply irrefl.
  - destruct (IH (umax U ultb a b)) as (H1 & H2). set (m := fold_left _ t _) in *. split.
    + destruct H1 as [<-|H1]; [|now right; right]. unfold umax. destruct (ultb a b); [now right; left|now left].
    + pose proof (H2 _ (or_introl eq_refl)) as H0. unfold umax in H0. intros v [<-|[<-|Hv]]; [| |apply H2; now right].
      * destruct (ultb a b) eqn:E; [|exact H0]. eapply Htrans; [exact H0|]. now apply Hasym.
      * destruct (ultb a b) eqn:E; [exact H0|]. eapply Htrans; [exact H0|exact E].
Qed.

Lemma norm_linf_ok x : 0 < P -> sized P x -> (forall r, r < P -> 0 < local_size T x r) ->
  exists m, norm_linf T U ultb absv normv P x = Some (absv m) /\ In m (global_vec P x) /\
            forall v, In v (global_vec P x) -> ultb (absv m) (absv v) = false.
Proof.
  intros HP Hs Hpos. unfold norm_linf.
  assert (E : forall r, r < P -> exists m, max_element T U ultb normv (firstn (local_size T x r) (v_x T x r)) = Some m).
  { intros r Hr. specialize (Hs r Hr). specialize (Hpos r Hr).
    destruct (local_size T x r) as [|n]; [lia|]. destruct (v_x T x r) as [|a t]; cbn in *; [lia|]. eauto. }
  destruct (E 0 HP) as (m0 & E0).
  set (M := fun r => match max_element T U ultb normv (firstn (local_size T x r) (v_x T x r)) with Some m => m | None => m0 end).
  assert (EM : forall r, r < P -> max_element T U ultb normv (firstn (local_size T x r) (v_x T x r)) = Some (M r)).
  { intros r Hr. destruct (E r Hr) as (m & Em). unfold M. now rewrite Em. }
  rewrite omap_map with (g := fun r => absv (M r)).
  2:{ intros r Hr. apply in_seq in Hr. rewrite slice0 by (apply Hs; lia). cbn [obind]. rewrite EM by lia. reflexivity. }
  cbn [obind]. destruct P as [|p] eqn:EP; [lia|]. cbn [seq map].
  destruct (fold_umax (map (fun r => absv (M r)) (seq 1 p)) (absv (M 0))) as (H1 & H2).
  set (m := fold_left _ _ _) in *. change (absv (M 0) :: map (fun r => absv (M r)) (seq 1 p)) with (map (fun r => absv (M r)) (seq 0 (S p))) in *.
  apply in_map_iff in H1 as (r & Er & Hr). apply in_seq in Hr. exists (M r). split; [congruence|]. split.
  - unfold global_vec. apply in_concat. eexists. split; [apply in_map_iff; exists r; split; [reflexivity|apply in_seq; lia]|].
    apply (max_element_ok _ _ (EM r ltac:(lia))).
  - intros v Hv. unfold global_vec in Hv. apply in_concat in Hv as (l & Hl & Hv). apply in_map_iff in Hl as (q & <- & Hq).
    pose proof (proj2 (max_element_ok _ _ (EM q ltac:(apply in_seq in Hq; lia))) _ Hv) as H.
    eapply Htrans; [|exact H]. rewrite Er. apply H2. apply in_map_iff. eauto.
Qed.

Lemma norm_linf_fails x r : r < P -> local_size T x r = 0 -> norm_linf T U ultb absv normv P x = None.
Proof.
  clear Hasym Htrans Hnorm. intros Hr H. unfold norm_linf. replace P with (r + S (P - S r)) by lia. rewrite seq_app.
  match goal with |- context [omap ?f _] => set (F := f) end.
  assert (EF : F r = None). { unfold F. rewrite H. rewrite slice0 by lia. reflexivity. }
  assert (E : forall l1 l2, omap F (l1 ++ r :: l2) = None).
  { induction l1 as [|y t IH]; intro l2; cbn [app omap]; [now rewrite EF|]. rewrite IH. destruct (F y); reflexivity. }
  cbn [seq plus]. now rewrite E.
Qed.
End NormProofs.
