(** Assembly of matrices for an arbitrary insertion callback, and of what is built on it. *)
From Verif Require Import Base BaseProofs Algo MatrixCSR MatrixProofs Assemble AssembleSpec AsmBlocks AsmSums AsmVector.
Open Scope nat_scope.

(** * Setting entries to zero *)
Section Erase.
Context {T : Type}.
Variable zero : T.
Definition erases (n : nat) (F : list T -> option (list T)) (p : nat -> bool) : Prop :=
  forall A, length A = n -> exists A', F A = Some A' /\ length A' = n /\ forall i, i < n -> nth i A' zero = if p i then zero else nth i A zero.
Lemma erases_id n : erases n Some (fun _ => false).
Proof. intros A H. exists A. auto. Qed.
Lemma erases_ofold n {X} (f : list T -> X -> option (list T)) (p : X -> nat -> bool) l : (forall a, In a l -> erases n (fun A => f A a) (p a)) -> erases n (ofold f l) (fun i => existsb (fun a => p a i) l).
Proof.
  induction l as [|a l IH]; intros H A HA; [now apply erases_id|]. cbn [ofold existsb]. destruct (H a (or_introl eq_refl) A HA) as (A1 & E1 & L1 & V1). rewrite E1. cbn [obind].
  destruct (IH (fun b Hb => H b (or_intror Hb)) A1 L1) as (A2 & E2 & L2 & V2). exists A2. split; [exact E2|]. split; [exact L2|]. intros i Hi. rewrite V2, V1 by exact Hi. destruct (p a i); cbn [orb]; [|reflexivity]. now destruct (existsb _ l).
Qed.
Lemma erases_upd n j : j < n -> erases n (fun A => upd A j zero) (fun i => i =? j).
Proof.
  intros Hj A HA. destruct (upd_some A j zero) as (A' & E); [lia|]. exists A'. split; [exact E|]. split; [rewrite (upd_length _ _ _ _ E); exact HA|]. intros i Hi. destruct (Nat.eqb_spec i j) as [->|N].
  - now rewrite (nth_error_nth _ _ zero (upd_nth_eq _ _ _ _ E)).
  - pose proof (upd_nth_neq _ _ _ _ _ E (not_eq_sym N)) as En. destruct (nth_error_lt A i) as (z & Ez); [lia|]. rewrite Ez in En. now rewrite (nth_error_nth _ _ zero En), (nth_error_nth _ _ zero Ez).
Qed.
Lemma erases_ext n F G p q : erases n F p -> (forall A, length A = n -> G A = F A) -> (forall i, i < n -> q i = p i) -> erases n G q.
Proof. intros HF E Hq A HA. destruct (HF A HA) as (A' & E1 & L & V). exists A'. rewrite (E A HA). split; [exact E1|]. split; [exact L|]. intros i Hi. now rewrite V, Hq. Qed.

Definition marked (bc : list bool) (i : nat) : bool := nth i bc false.
Lemma fill_zero_ok n p m : p + m <= n -> erases n (fun A => fill_zero zero A p m) (fun i => existsb (fun k => i =? p + k) (seq 0 m)).
Proof. intro H. unfold fill_zero. apply erases_ofold. intros k Hk. apply in_seq in Hk. apply erases_upd. lia. Qed.
Lemma marked_at bc i b : nth_error bc i = Some b -> marked bc i = b.
Proof. intro H. unfold marked. now rewrite (nth_error_nth _ _ false H). Qed.
Lemma in_enum_iff {A} (l : list A) i a : In (i, a) (enum l) <-> nth_error l i = Some a.
Proof.
  split; [apply in_enum|]. intro H. unfold enum. apply (nth_error_In _ i). apply nth_error_combine2. split; [|exact H]. apply nth_error_seq. eapply nth_error_bound; eauto.
Qed.
Lemma existsb_seq n (p : nat -> bool) : existsb p (seq 0 n) = true <-> exists k, k < n /\ p k = true.
Proof. rewrite existsb_exists. split; intros (k & Hk & E); exists k; (split; [|exact E]); [apply in_seq in Hk; lia|apply in_seq; lia]. Qed.
Lemma bool_eq (a b : bool) : (a = true <-> b = true) -> a = b.
Proof. destruct a, b; intuition congruence. Qed.
Lemma target_at bs dofs i k d : k < bs -> nth_error dofs i = Some d -> target bs dofs (bs * i + k) = bs * d + k.
Proof. intros Hk Hd. rewrite target_block by exact Hk. now rewrite (nth_error_nth _ _ 0 Hd). Qed.
Lemma split_block bs m a : a < bs * m -> exists i k, k < bs /\ i < m /\ a = bs * i + k.
Proof. intro H. assert (bs <> 0) by nia. exists (a / bs), (a mod bs). pose proof (Nat.mod_upper_bound a bs). split; [lia|]. split; [apply Nat.div_lt_upper_bound; lia|]. now apply Nat.div_mod. Qed.

Lemma zero_rows_ok bs nc dofs bc n : n = bs * length dofs * nc -> (bc <> [] -> forall d, In d dofs -> bs * d + bs <= length bc) ->
  erases n (zero_rows zero bs nc dofs bc) (fun i => marked bc (target bs dofs (i / nc))).
Proof.
  intros Hn Hd. unfold zero_rows. destruct bc as [|b0 bc0] eqn:Eb.
  - eapply erases_ext; [apply erases_id|reflexivity|]. intros i Hi. unfold marked. destruct (target _ _ _); reflexivity.
  - rewrite <- Eb in *. assert (Hb : bc <> []) by (rewrite Eb; discriminate). specialize (Hd Hb). clear Eb Hb.
    eapply erases_ext with (p := fun i => existsb (fun q => (fun '(j, d) i => existsb (fun k => marked bc (bs * d + k) && existsb (fun r => i =? nc * (bs * j + k) + r) (seq 0 nc)) (seq 0 bs)) q i) (enum dofs)); [apply erases_ofold|reflexivity|].
    + intros [j d] Hin. apply in_enum in Hin. pose proof (nth_error_bound _ _ _ Hin) as Hj. apply erases_ofold. intros k Hk. apply in_seq in Hk.
      specialize (Hd d (nth_error_In _ _ Hin)). destruct (nth_error_lt bc (bs * d + k)) as (m & Em); [lia|]. rewrite (marked_at _ _ _ Em). eapply erases_ext; [|intros A HA; rewrite Em; cbn [obind]; reflexivity|reflexivity].
      destruct m; [|apply erases_id]. cbn [andb]. apply fill_zero_ok. rewrite Hn. transitivity (nc * (bs * length dofs)); [|lia]. assert (bs * j + k + 1 <= bs * length dofs) by nia. nia.
    + intros i Hi. apply bool_eq. assert (Hnc : nc <> 0) by (intro Z; rewrite Z, Nat.mul_0_r in Hn; lia). assert (Ha : i / nc < bs * length dofs) by (apply Nat.div_lt_upper_bound; lia).
      pose proof (Nat.div_mod i nc Hnc) as Edm. pose proof (Nat.mod_upper_bound i nc Hnc) as Hm. split.
      * intro H. destruct (split_block bs (length dofs) (i / nc) Ha) as (j & k & Hk & Hj & Ea). destruct (nth_error_lt dofs j Hj) as (d & Ed). rewrite Ea, (target_at bs dofs j k d Hk Ed) in H.
        apply existsb_exists. exists (j, d). split; [now apply in_enum_iff|]. apply existsb_seq. exists k. split; [exact Hk|]. apply andb_true_intro. split; [exact H|]. apply existsb_seq. exists (i mod nc). split; [exact Hm|]. apply Nat.eqb_eq. rewrite <- Ea. exact Edm.
      * intro H. apply existsb_exists in H as ([j d] & Hin & H). apply in_enum in Hin. apply existsb_seq in H as (k & Hk & H). apply andb_prop in H as (Hmk & H). apply existsb_seq in H as (r & Hr & H). apply Nat.eqb_eq in H.
        assert (i / nc = bs * j + k) as ->. { symmetry. apply (Nat.div_unique i nc _ r); [exact Hr|]. exact H. }
        now rewrite (target_at bs dofs j k d Hk Hin).
Qed.
Lemma zero_cols_ok bs nr nc dofs bc n : n = nr * nc -> nc = bs * length dofs -> (bc <> [] -> forall d, In d dofs -> bs * d + bs <= length bc) ->
  erases n (zero_cols zero bs nr nc dofs bc) (fun i => marked bc (target bs dofs (i mod nc))).
Proof.
  intros Hn Hnc' Hd. unfold zero_cols. destruct bc as [|b0 bc0] eqn:Eb.
  - eapply erases_ext; [apply erases_id|reflexivity|]. intros i Hi. unfold marked. destruct (target _ _ _); reflexivity.
  - rewrite <- Eb in *. assert (Hb : bc <> []) by (rewrite Eb; discriminate). specialize (Hd Hb). clear Eb Hb.
    eapply erases_ext with (p := fun i => existsb (fun q => (fun '(j, d) i => existsb (fun k => marked bc (bs * d + k) && existsb (fun r => i =? r * nc + (bs * j + k)) (seq 0 nr)) (seq 0 bs)) q i) (enum dofs)); [apply erases_ofold|reflexivity|].
    + intros [j d] Hin. apply in_enum in Hin. pose proof (nth_error_bound _ _ _ Hin) as Hj. apply erases_ofold. intros k Hk. apply in_seq in Hk.
      specialize (Hd d (nth_error_In _ _ Hin)). destruct (nth_error_lt bc (bs * d + k)) as (m & Em); [lia|]. rewrite (marked_at _ _ _ Em). eapply erases_ext; [|intros A HA; rewrite Em; cbn [obind]; reflexivity|reflexivity].
      destruct m; [|apply erases_id]. cbn [andb]. apply erases_ofold. intros r Hr. apply in_seq in Hr. apply erases_upd. assert (bs * j + k < nc) by nia. nia.
    + intros i Hi. apply bool_eq. assert (Hnc : nc <> 0) by (intro Z; rewrite Z, Nat.mul_0_r in Hn; lia). pose proof (Nat.mod_upper_bound i nc Hnc) as Hm. pose proof (Nat.div_mod i nc Hnc) as Edm. assert (Ha : i mod nc < bs * length dofs) by lia.
      assert (Hrow : i / nc < nr) by (apply Nat.div_lt_upper_bound; [exact Hnc|rewrite Nat.mul_comm, <- Hn; exact Hi]). split.
      * intro H. destruct (split_block bs (length dofs) (i mod nc) Ha) as (j & k & Hk & Hj & Ea). destruct (nth_error_lt dofs j Hj) as (d & Ed). rewrite Ea, (target_at bs dofs j k d Hk Ed) in H.
        apply existsb_exists. exists (j, d). split; [now apply in_enum_iff|]. apply existsb_seq. exists k. split; [exact Hk|]. apply andb_true_intro. split; [exact H|]. apply existsb_seq. exists (i / nc). split; [exact Hrow|]. apply Nat.eqb_eq. rewrite <- Ea. lia.
      * intro H. apply existsb_exists in H as ([j d] & Hin & H). apply in_enum in Hin. pose proof (nth_error_bound _ _ _ Hin) as Hj. apply existsb_seq in H as (k & Hk & H). apply andb_prop in H as (Hmk & H). apply existsb_seq in H as (r & Hr & H). apply Nat.eqb_eq in H.
        assert (i mod nc = bs * j + k) as ->. { symmetry. apply (Nat.mod_unique i nc r); [nia|]. lia. }
        now rewrite (target_at bs dofs j k d Hk Hin).
Qed.
(** The element tensor without the constrained rows and columns. *)
Lemma zero_both_ok bs0 bs1 r0 r1 bc0 bc1 nr nc A : nr = bs0 * length r0 -> nc = bs1 * length r1 -> length A = nr * nc ->
  (bc0 <> [] -> forall d, In d r0 -> bs0 * d + bs0 <= length bc0) -> (bc1 <> [] -> forall d, In d r1 -> bs1 * d + bs1 <= length bc1) ->
  exists A', (A1 <- zero_rows zero bs0 nc r0 bc0 A ;; zero_cols zero bs1 nr nc r1 bc1 A1) = Some A' /\ length A' = nr * nc /\
    forall a b, a < nr -> b < nc -> nth (a * nc + b) A' zero = if marked bc0 (target bs0 r0 a) || marked bc1 (target bs1 r1 b) then zero else nth (a * nc + b) A zero.
Proof.
  intros E0 E1 HA H0 H1. destruct (zero_rows_ok bs0 nc r0 bc0 (nr * nc)) with (A := A) as (A1 & F1 & L1 & V1); [now rewrite E0|exact H0|exact HA|].
  destruct (zero_cols_ok bs1 nr nc r1 bc1 (nr * nc)) with (A := A1) as (A2 & F2 & L2 & V2); [reflexivity|exact E1|exact H1|exact L1|]. exists A2. rewrite F1. cbn [obind]. split; [exact F2|]. split; [exact L2|].
  intros a b Ha Hb. assert (Hi : a * nc + b < nr * nc) by nia. rewrite V2, V1 by exact Hi. rewrite Nat.div_add_l, Nat.div_small, Nat.add_0_r by lia. rewrite (Nat.add_comm (a * nc) b), Nat.mod_add, Nat.mod_small by lia. destruct (marked bc0 _), (marked bc1 _); reflexivity.
Qed.
End Erase.

(** [has_bc] looks for a marked dof. *)
Lemma has_bc_ok dofs bc bs : (forall d, In d dofs -> bs * d + bs <= length bc) ->
  exists h, has_bc dofs bc bs = Some h /\ (h = false -> forall a, a < bs * length dofs -> marked bc (target bs dofs a) = false).
Proof.
  intros Hd. set (f := fun (r : bool) d => ofold (fun (r : bool) k => if r then Some true else nth_error bc (bs * d + k)) (seq 0 bs) r).
  assert (Hin : forall d, bs * d + bs <= length bc -> forall l r, (forall k, In k l -> k < bs) -> exists h, ofold (fun (r : bool) k => if r then Some true else nth_error bc (bs * d + k)) l r = Some h /\ (h = false -> r = false /\ forall k, In k l -> marked bc (bs * d + k) = false)).
  { intros d Hdd l. induction l as [|k l IH]; intros r Hl; [exists r; split; [reflexivity|intros ->; split; [reflexivity|intros k []]]|]. cbn [ofold]. destruct (nth_error_lt bc (bs * d + k)) as (m & Em); [specialize (Hl k (or_introl eq_refl)); lia|].
    destruct r; [destruct (IH true) as (h & E & Hh); [intros; apply Hl; now right|]; exists h; cbn [obind]; split; [exact E|intro Hf; destruct (Hh Hf); discriminate]|]. rewrite Em. cbn [obind]. destruct (IH m) as (h & E & Hh); [intros; apply Hl; now right|]. exists h. split; [exact E|]. intro Hf. destruct (Hh Hf) as (-> & Hk). split; [reflexivity|]. intros k' [<-|Hk']; [exact (marked_at _ _ _ Em)|now apply Hk]. }
  assert (Hout : forall l r, (forall d, In d l -> bs * d + bs <= length bc) -> exists h, ofold f l r = Some h /\ (h = false -> r = false /\ forall d k, In d l -> k < bs -> marked bc (bs * d + k) = false)).
  { induction l as [|d l IH]; intros r Hl; [exists r; split; [reflexivity|intros ->; split; [reflexivity|intros d k []]]|]. cbn [ofold]. destruct (Hin d (Hl d (or_introl eq_refl)) (seq 0 bs) r) as (h1 & E1 & H1); [intros k Hk; apply in_seq in Hk; lia|]. unfold f at 1. rewrite E1. cbn [obind].
    destruct (IH h1) as (h & E & Hh); [intros; apply Hl; now right|]. exists h. split; [exact E|]. intro Hf. destruct (Hh Hf) as (E' & Hk). destruct (H1 E') as (-> & Hk1). split; [reflexivity|]. intros d' k [<-|Hd'] Hlt; [apply Hk1; apply in_seq; lia|now apply Hk]. }
  destruct (Hout dofs false Hd) as (h & E & Hh). exists h. split; [exact E|]. intros Hf a Ha. destruct (Hh Hf) as (_ & Hm). destruct (split_block bs (length dofs) a Ha) as (i & k & Hk & Hi & ->). destruct (nth_error_lt dofs i Hi) as (d & Ed). rewrite (target_at _ _ _ _ _ Hk Ed). apply Hm; [eapply nth_error_In; eauto|exact Hk].
Qed.

(** * Joining blocks *)
Lemma target_app_l bs d1 d2 a : a < bs * length d1 -> target bs (d1 ++ d2) a = target bs d1 a.
Proof. intro H. unfold target. rewrite app_nth1; [reflexivity|]. apply Nat.div_lt_upper_bound; [nia|exact H]. Qed.
Lemma target_app_r bs d1 d2 a : 0 < bs -> target bs (d1 ++ d2) (bs * length d1 + a) = target bs d2 a.
Proof.
  intro H. unfold target. rewrite (Nat.mul_comm bs (length d1)), Nat.div_add_l by lia. rewrite app_nth2 by lia. rewrite (Nat.add_comm (length d1 * bs) a), Nat.mod_add by lia. do 2 f_equal. f_equal. lia.
Qed.
Lemma concat_uniform {A} (L : list (list A)) m d : (forall l, In l L -> length l = m) -> forall i b, i < length L -> b < m -> nth (i * m + b) (concat L) d = nth b (nth i L []) d.
Proof.
  induction L as [|l L IH]; intros Hm i b Hi Hb; [cbn in Hi; lia|]. cbn [concat]. pose proof (Hm l (or_introl eq_refl)) as El. destruct i as [|i].
  - cbn [Nat.mul Nat.add nth]. rewrite app_nth1 by lia. reflexivity.
  - cbn [nth]. rewrite app_nth2 by (rewrite El; nia). replace (S i * m + b - length l) with (i * m + b) by (rewrite El; nia). apply IH; [intros; apply Hm; now right|cbn in Hi; lia|exact Hb].
Qed.
Lemma concat_uniform_len {A} (L : list (list A)) m : (forall l, In l L -> length l = m) -> length (concat L) = length L * m.
Proof. induction L as [|l L IH]; intro H; [reflexivity|]. cbn [concat length]. rewrite app_length, (H l (or_introl eq_refl)), IH by (intros; apply H; now right). lia. Qed.
Lemma slice_in {A} (l : list A) a b : a <= b -> b <= length l -> slice l a b = Some (firstn (b - a) (skipn a l)).
Proof. intros H1 H2. unfold slice. now rewrite (proj2 (Nat.leb_le _ _) H1), (proj2 (Nat.leb_le _ _) H2). Qed.
Lemma nth_slice {A} (l : list A) a n k d : k < n -> nth k (firstn n (skipn a l)) d = nth (a + k) l d.
Proof.
  intro H. assert (F : forall m : list A, nth k (firstn n m) d = nth k m d) by (revert n H; induction k as [|k IH]; intros [|n] H [|y m]; cbn; try lia; try reflexivity; apply IH; lia).
  rewrite F. clear F H. revert a. induction l as [|y l IH]; intros [|a]; cbn [skipn nth Nat.add]; try reflexivity; [destruct k; reflexivity|apply IH].
Qed.
Lemma put_ok (l v : list nat) off : off + length v <= length l -> exists l', put l off v = Some l' /\ length l' = length l /\ (forall d, In d l' -> In d l \/ In d v) /\
  (forall i, i < length v -> nth (off + i) l' 0 = nth i v 0) /\ (forall i, i < off \/ off + length v <= i -> nth i l' 0 = nth i l 0).
Proof.
  intro H. unfold put. rewrite (proj2 (Nat.leb_le _ _) H). eexists. split; [reflexivity|]. assert (Lf : length (firstn off l) = off) by (rewrite firstn_length; lia). repeat split.
  - rewrite !app_length, Lf, skipn_length. lia.
  - intros d Hd. apply in_app_or in Hd as [Hd|Hd]; [left; rewrite <- (firstn_skipn off l); apply in_or_app; now left|]. apply in_app_or in Hd as [Hd|Hd]; [now right|]. left. rewrite <- (firstn_skipn (off + length v) l). apply in_or_app. now right.
  - intros i Hi. rewrite app_nth2 by lia. rewrite Lf, app_nth1 by lia. f_equal. lia.
  - intros i Hi. destruct Hi as [Hi|Hi].
    + rewrite app_nth1 by lia. rewrite <- (firstn_skipn off l) at 2. rewrite app_nth1 by lia. reflexivity.
    + rewrite app_nth2 by lia. rewrite Lf, app_nth2 by lia. rewrite <- (firstn_skipn (off + length v) l) at 2. rewrite app_nth2 by (rewrite firstn_length; lia). f_equal. rewrite firstn_length. lia.
Qed.
(** The joint dofs of a facet. *)
Lemma put2_ok (j dA dB : list nat) w : length j = 2 * w -> length dA <= w -> length dB <= w -> exists j', (j <- put j 0 dA ;; put j w dB) = Some j' /\ length j' = 2 * w /\
  (forall d, In d j' -> In d j \/ In d dA \/ In d dB) /\ (forall i, i < length dA -> nth i j' 0 = nth i dA 0) /\ (forall i, i < length dB -> nth (w + i) j' 0 = nth i dB 0).
Proof.
  intros Hj HA HB. destruct (put_ok j dA 0) as (j1 & E1 & L1 & I1 & V1 & W1); [lia|]. destruct (put_ok j1 dB w) as (j2 & E2 & L2 & I2 & V2 & W2); [lia|]. exists j2. rewrite E1. cbn [obind]. split; [exact E2|]. split; [lia|]. split; [|split].
  - intros d Hd. destruct (I2 d Hd) as [H|H]; [|tauto]. destruct (I1 d H); tauto.
  - intros i Hi. rewrite W2 by lia. apply (V1 i Hi).
  - exact V2.
Qed.
Lemma target_eq bs l m i n a : (forall k, k < n -> nth (i + k) l 0 = nth k m 0) -> a < bs * n -> target bs l (bs * i + a) = target bs m a.
Proof.
  intros H Ha. destruct (split_block bs n a Ha) as (j & k & Hk & Hj & ->). replace (bs * i + (bs * j + k)) with (bs * (i + j) + k) by lia. rewrite !target_block by exact Hk. now rewrite H.
Qed.

Section MatAsm.
Context {T U St Q : Type}.
Variables (zero : T) (add : T -> T -> T).
Hypothesis add_0_l : forall a, add zero a = a.
Hypothesis add_comm : forall a b, add a b = add b a.
Hypothesis add_assoc : forall a b c, add a (add b c) = add (add a b) c.
Variables (Inv : St -> Prop) (view : St -> Q -> T) (D : Q -> Prop).
Variable mat_set : St -> list nat -> list nat -> list T -> option St.
Variables (lifting : bool) (bs0 bs1 : nat) (bc0 bc1 : list bool).
Variable val : nat -> nat -> T -> Q -> T.
Variables (okr okc : nat -> Prop) (okp : nat -> nat -> Prop).
Notation adds := (adds add Inv view D).
Notation tsum := (tsum zero add).
Notation bsum := (bsum zero add).

Definition okb (rows cols : list nat) : Prop := (forall d, In d rows -> okr d) /\ (forall d, In d cols -> okc d) /\ forall r c, In r rows -> In c cols -> okp r c.
(** What an entry of a block contributes. *)
Definition mval (q : Q) (I J : nat) (v : T) : T := val I J (if lifting then v else if marked bc0 I || marked bc1 J then zero else v) q.
Definition gshare (bl : mblock) (q : Q) : T := bsum bs0 bs1 (mval q) bl.

Hypothesis Hbs0 : 0 < bs0.
Hypothesis Hbs1 : 0 < bs1.
Hypothesis Hval0 : forall I J q, val I J zero q = zero.
Hypothesis Hval1 : lifting = true -> forall I J v q, marked bc1 J = false -> val I J v q = zero.
Hypothesis Hset : forall rows cols A, okb rows cols -> length A = bs0 * length rows * (bs1 * length cols) ->
  adds (fun s => mat_set s rows cols A) (fun q => bsum bs0 bs1 (fun I J v => val I J v q) (rows, cols, fun a b => nth (a * (bs1 * length cols) + b) A zero)).
Definition mk0 (d : nat) : Prop := bc0 <> [] -> bs0 * d + bs0 <= length bc0.
Definition mk1 (d : nat) : Prop := bc1 <> [] \/ lifting = true -> bs1 * d + bs1 <= length bc1.
Hypothesis Hm0 : forall d, okr d -> mk0 d.
Hypothesis Hm1 : forall d, okc d -> mk1 d.

Lemma bsum_ext v w rows cols f g : (forall a b, a < bs0 * length rows -> b < bs1 * length cols -> v (target bs0 rows a) (target bs1 cols b) (f a b) = w (target bs0 rows a) (target bs1 cols b) (g a b)) ->
  bsum bs0 bs1 v (rows, cols, f) = bsum bs0 bs1 w (rows, cols, g).
Proof. intro H. unfold AssembleSpec.bsum. apply tsum_ext. intros a Ha. apply tsum_ext. intros b Hb. now apply H. Qed.
Lemma bsum_zero v rows cols f : (forall a b, a < bs0 * length rows -> b < bs1 * length cols -> v (target bs0 rows a) (target bs1 cols b) (f a b) = zero) -> bsum bs0 bs1 v (rows, cols, f) = zero.
Proof. intro H. unfold AssembleSpec.bsum. apply (tsum_zero zero add add_0_l). intros a Ha. apply (tsum_zero zero add add_0_l). intros b Hb. now apply H. Qed.
Lemma adds_zero h : (forall q, D q -> h q = zero) -> adds Some h.
Proof. intro H. apply (adds_eq add Inv view D Some Some (fun _ => zero)); [now apply adds_id|reflexivity|exact H]. Qed.

Lemma mat_step_ok d0 d1 Ae : okb d0 d1 -> length Ae = bs0 * length d0 * (bs1 * length d1) ->
  adds (mat_step zero mat_set lifting bs0 bs1 bc0 bc1 d0 d1 (Some Ae)) (gshare (d0, d1, fun a b => nth (a * (bs1 * length d1) + b) Ae zero)).
Proof.
  intros Hok HA. pose proof Hok as (H0 & H1 & _). unfold mat_step. destruct lifting eqn:El.
  - destruct (has_bc_ok d1 bc1 bs1) as (h & Eh & Hh); [intros d Hd; apply Hm1; [now apply H1|now right]|]. rewrite Eh. cbn [obind]. destruct h; cbn [negb].
    + cbn [obind]. apply (adds_eq add Inv view D _ _ _ _ (Hset d0 d1 Ae Hok HA)); [reflexivity|]. intros q _. unfold gshare, mval. rewrite El. reflexivity.
    + apply adds_zero. intros q _. apply bsum_zero. intros a b Ha Hb. unfold mval. rewrite El. apply Hval1; [reflexivity|]. now apply Hh.
  - cbn [obind]. destruct (zero_both_ok zero bs0 bs1 d0 d1 bc0 bc1 _ _ Ae eq_refl eq_refl HA) as (A' & EA & LA & VA); [intros Hb d Hd; now apply Hm0; [apply H0|]|intros Hb d Hd; apply Hm1; [now apply H1|now left]|].
    rewrite EA. cbn [obind]. apply (adds_eq add Inv view D _ _ _ _ (Hset d0 d1 A' Hok LA)); [reflexivity|]. intros q _. apply bsum_ext. intros a b Ha Hb. unfold mval. rewrite El, VA by assumption. reflexivity.
Qed.

Section OneType.
Variables (ct : @ctype T) (x : list U) (constants : list T).
Hypothesis Hct : type_sizes bs0 bs1 ct.
Notation dm0 := (ct_dm0 ct).
Notation dm1 := (ct_dm1 ct).
Notation okbl bls := (forall bl, In bl bls -> okb (fst (fst bl)) (snd (fst bl))).
Notation gshares := (shares zero add gshare).
Lemma gshares_one bl q : gshares [bl] q = gshare bl q.
Proof. unfold shares. cbn. now apply (add_0_r zero add). Qed.

Lemma elem_tensor_len n0 n1 kernel co ents prm c c0 c1 Ae : (forall co cst cd en p, keeps_size (fun l => kernel l co cst cd en p)) -> elem_tensor (U := U) zero n0 n1 (ct_P0 ct) (ct_P1T ct) kernel constants (ct_xd ct) x c co ents prm c0 c1 = Some Ae -> length Ae = n0 * n1.
Proof.
  intros Hk. unfold elem_tensor. destruct (coords (ct_xd ct) x c) as [cd|]; [|discriminate]. cbn [obind]. intros [= <-]. destruct Hct as (_ & _ & _ & _ & HP & HP1). rewrite HP1, HP, Hk. apply repeat_length.
Qed.
Lemma mat_cells_ok ig flat cs bls : (forall co cst cd en p, keeps_size (fun l => ci_kernel ig l co cst cd en p)) -> cell_mb zero ct x constants ig flat cs = Some bls -> okbl bls ->
  adds (mat_cells zero mat_set lifting dm0 dm1 (ct_P0 ct) (ct_P1T ct) (ct_xd ct) x (ci_kernel ig) constants flat cs bc0 bc1 (ci_cells ig) (ci_cells0 ig) (ci_cells1 ig)) (gshares bls).
Proof.
  intros Hk E Hr. unfold cell_mb in E. destruct (Nat.eqb_spec (length (ci_cells ig) * cs) (length flat)) as [Hf|]; [|discriminate]. destruct (Nat.eqb_spec (length (ci_cells0 ig)) (length (ci_cells ig))) as [Hl|]; [|discriminate].
  destruct (Nat.eqb_spec (length (ci_cells1 ig)) (length (ci_cells ig))) as [Hl1|]; [|discriminate]. cbn [negb orb] in E.
  pose proof Hct as (Eb0 & Eb1 & Hw0 & Hw1 & _). rewrite Eb0, Eb1 in E.
  unshelve eapply (adds_eq add _ _ _ _ _ _ _ (adds_over zero add add_0_l add_comm add_assoc _ _ _ gshare
    (fun s '(c, c0, c1, co) => dofs0 <- nth_error (cd_rows dm0) c0 ;; dofs1 <- nth_error (cd_rows dm1) c1 ;;
       mat_step zero mat_set lifting bs0 bs1 bc0 bc1 dofs0 dofs1 (elem_tensor zero (bs0 * cd_width dm0) (bs1 * cd_width dm1) (ct_P0 ct) (ct_P1T ct) (ci_kernel ig) constants (ct_xd ct) x c co [] [] c0 c1) s) _ _ _ E _)).
  - intros [[[c c0] c1] co] bl _ Eb Hi. cbv beta iota in Eb |- *. destruct (nth_error (cd_rows dm0) c0) as [dofs0|] eqn:Ed; [|discriminate]. cbn [obind] in Eb |- *. destruct (nth_error (cd_rows dm1) c1) as [dofs1|] eqn:Ed1; [|discriminate]. cbn [obind] in Eb |- *.
    destruct (elem_tensor _ _ _ _ _ _ _ _ _ _ _ _ _ _ _) as [Ae|] eqn:Ee; [|discriminate]. cbn [obind] in Eb. injection Eb as <-. pose proof (elem_tensor_len _ _ _ _ _ _ _ _ _ _ Hk Ee) as HA.
    rewrite <- (Hw0 _ (nth_error_In _ _ Ed)), <- (Hw1 _ (nth_error_In _ _ Ed1)) in *. specialize (Hr _ (Hi _ (or_introl eq_refl))). cbn [fst snd] in Hr.
    apply (adds_eq add _ _ _ _ _ _ _ (mat_step_ok dofs0 dofs1 Ae Hr HA)); [reflexivity|]. intros q _. apply gshares_one.
  - intros s _. unfold mat_cells. apply ofold_zip; [now rewrite enum_len, items_len|]. intros i [j c] [[[c' c0] c1] co] s' Hi Hit. apply enum_at in Hi as (-> & Hi). apply items_at in Hit as (H1 & H2 & H2' & H3); [|lia]. rewrite Hi in H1. injection H1 as ->. rewrite H2, H2'. cbn [obind]. rewrite H3, Eb0, Eb1. reflexivity.
  - reflexivity.
Qed.
Lemma mat_entities_ok perms ig flat cs bls : (forall co cst cd en p, keeps_size (fun l => ei_kernel ig l co cst cd en p)) -> ent_mb zero ct x constants perms ig flat cs = Some bls -> okbl bls ->
  adds (mat_entities zero mat_set lifting dm0 dm1 (ct_P0 ct) (ct_P1T ct) (ct_xd ct) x (ei_kernel ig) constants flat cs perms bc0 bc1 (ei_ents ig) (ei_cells0 ig) (ei_cells1 ig)) (gshares bls).
Proof.
  intros Hk E Hr. unfold ent_mb in E. destruct (Nat.eqb_spec (length (ei_ents ig) * cs) (length flat)) as [Hf|]; [|discriminate]. destruct (Nat.eqb_spec (length (ei_cells0 ig)) (length (ei_ents ig))) as [Hl|]; [|discriminate].
  destruct (Nat.eqb_spec (length (ei_cells1 ig)) (length (ei_ents ig))) as [Hl1|]; [|discriminate]. cbn [negb orb] in E.
  pose proof Hct as (Eb0 & Eb1 & Hw0 & Hw1 & _). rewrite Eb0, Eb1 in E.
  unshelve eapply (adds_eq add _ _ _ _ _ _ _ (adds_over zero add add_0_l add_comm add_assoc _ _ _ gshare
    (fun s '((c, le), c0, c1, co) => dofs0 <- nth_error (cd_rows dm0) c0 ;; dofs1 <- nth_error (cd_rows dm1) c1 ;;
       mat_step zero mat_set lifting bs0 bs1 bc0 bc1 dofs0 dofs1 (perm <- perm_of perms c le ;; elem_tensor zero (bs0 * cd_width dm0) (bs1 * cd_width dm1) (ct_P0 ct) (ct_P1T ct) (ei_kernel ig) constants (ct_xd ct) x c co [le] [perm] c0 c1) s) _ _ _ E _)).
  - intros [[[[c le] c0] c1] co] bl _ Eb Hi. cbv beta iota in Eb |- *. destruct (nth_error (cd_rows dm0) c0) as [dofs0|] eqn:Ed; [|discriminate]. cbn [obind] in Eb |- *. destruct (nth_error (cd_rows dm1) c1) as [dofs1|] eqn:Ed1; [|discriminate]. cbn [obind] in Eb |- *.
    destruct (perm_of perms c le) as [perm|]; [|discriminate]. cbn [obind] in Eb |- *.
    destruct (elem_tensor _ _ _ _ _ _ _ _ _ _ _ _ _ _ _) as [Ae|] eqn:Ee; [|discriminate]. cbn [obind] in Eb. injection Eb as <-. pose proof (elem_tensor_len _ _ _ _ _ _ _ _ _ _ Hk Ee) as HA.
    rewrite <- (Hw0 _ (nth_error_In _ _ Ed)), <- (Hw1 _ (nth_error_In _ _ Ed1)) in *. specialize (Hr _ (Hi _ (or_introl eq_refl))). cbn [fst snd] in Hr.
    apply (adds_eq add _ _ _ _ _ _ _ (mat_step_ok dofs0 dofs1 Ae Hr HA)); [reflexivity|]. intros q _. apply gshares_one.
  - intros s _. unfold mat_entities. apply ofold_zip; [now rewrite enum_len, items_len|]. intros i [j [c le]] [[[[c' le'] c0] c1] co] s' Hi Hit. apply enum_at in Hi as (-> & Hi). apply items_at in Hit as (H1 & H2 & H2' & H3); [|lia]. rewrite Hi in H1. injection H1 as -> ->. rewrite H2, H2'. cbn [obind]. rewrite H3, Eb0, Eb1. reflexivity.
  - reflexivity.
Qed.

(** ** Interior facets *)
Notation w0 := (cd_width dm0).
Notation w1 := (cd_width dm1).
Lemma insert_block_ok nr nc Ae r c ro co : okb r c -> length Ae = nr * nc -> ro + bs0 * length r <= nr -> co + bs1 * length c <= nc ->
  adds (insert_block mat_set bs0 bs1 nc Ae r c ro co) (fun q => bsum bs0 bs1 (fun I J v => val I J v q) (r, c, fun a b => nth ((ro + a) * nc + (co + b)) Ae zero)).
Proof.
  intros Hok HA Hro Hco. destruct r as [|r0 r']; [|destruct c as [|c0 c']].
  - apply adds_zero. intros q _. apply bsum_zero. cbn [length]. intros a b Ha. lia.
  - apply adds_zero. intros q _. apply bsum_zero. cbn [length]. intros a b _ Hb. lia.
  - set (r := r0 :: r') in *. set (c := c0 :: c') in *. set (m := length c * bs1).
    assert (Eb : omap (fun i => slice Ae ((ro + i) * nc + co) ((ro + i) * nc + co + length c * bs1)) (seq 0 (length r * bs0)) = Some (map (fun i => firstn m (skipn ((ro + i) * nc + co) Ae)) (seq 0 (length r * bs0)))).
    { apply omap_map. intros i Hi. apply in_seq in Hi. rewrite slice_in; [|lia|]; [do 2 f_equal; unfold m; lia|]. rewrite HA. assert (co + length c * bs1 <= nc) by lia. assert (ro + i + 1 <= nr) by lia. nia. }
    set (L := map _ (seq 0 _)) in Eb.
    assert (HL : forall l, In l L -> length l = m). { intros l Hl. apply in_map_iff in Hl as (i & <- & Hi). apply in_seq in Hi. rewrite firstn_length, skipn_length, HA. assert (co + m <= nc) by (unfold m; lia). assert (ro + i + 1 <= nr) by lia. apply Nat.min_l. nia. }
    assert (LL : length L = bs0 * length r) by (unfold L; rewrite map_length, seq_length; lia).
    apply (adds_eq add _ _ _ _ _ _ _ (Hset r c (concat L) Hok ltac:(rewrite (concat_uniform_len L m HL), LL; unfold m; lia))); [intros s _; change (insert_block mat_set bs0 bs1 nc Ae r c ro co s) with (block <- omap (fun i => slice Ae ((ro + i) * nc + co) ((ro + i) * nc + co + length c * bs1)) (seq 0 (length r * bs0)) ;; mat_set s r c (concat block)); rewrite Eb; reflexivity|].
    intros q _. apply bsum_ext. intros a b Ha Hb. f_equal. replace (bs1 * length c) with m in * by (unfold m; lia). rewrite (concat_uniform L m zero HL) by lia.
    unfold L. rewrite (nth_indep _ [] (firstn m (skipn ((ro + 0) * nc + co) Ae))) by (rewrite map_length, seq_length; lia). rewrite (map_nth (fun i => firstn m (skipn ((ro + i) * nc + co) Ae)) _ 0 a), seq_nth by lia. rewrite nth_slice by exact Hb. cbn [Nat.add]. f_equal. lia.
Qed.
Lemma bsum_joint v r0 r1 c0 c1 f : bsum bs0 bs1 v (r0 ++ r1, c0 ++ c1, f) =
  add (add (bsum bs0 bs1 v (r0, c0, f)) (bsum bs0 bs1 v (r0, c1, fun a b => f a (bs1 * length c0 + b))))
      (add (bsum bs0 bs1 v (r1, c0, fun a b => f (bs0 * length r0 + a) b)) (bsum bs0 bs1 v (r1, c1, fun a b => f (bs0 * length r0 + a) (bs1 * length c0 + b)))).
Proof.
  assert (Hc : forall (g : nat -> T) rr, tsum (bs1 * length (c0 ++ c1)) (fun b => v rr (target bs1 (c0 ++ c1) b) (g b)) =
    add (tsum (bs1 * length c0) (fun b => v rr (target bs1 c0 b) (g b))) (tsum (bs1 * length c1) (fun b => v rr (target bs1 c1 b) (g (bs1 * length c0 + b))))).
  { intros g rr. rewrite app_length, Nat.mul_add_distr_l, (tsum_add zero add add_0_l add_comm add_assoc). f_equal; apply tsum_ext; intros b Hb; [now rewrite target_app_l|now rewrite target_app_r]. }
  unfold AssembleSpec.bsum. rewrite app_length, Nat.mul_add_distr_l, (tsum_add zero add add_0_l add_comm add_assoc). f_equal.
  - rewrite <- (tsum_plus zero add add_0_l add_comm add_assoc). apply tsum_ext. intros a Ha. rewrite target_app_l by exact Ha. apply (Hc (f a)).
  - rewrite <- (tsum_plus zero add add_0_l add_comm add_assoc). apply tsum_ext. intros a Ha. rewrite target_app_r by exact Hbs0. apply (Hc (f (bs0 * length r0 + a))).
Qed.
Definition Inv3 (st : St * list nat * list nat) : Prop := Inv (fst (fst st)) /\ (length (snd (fst st)) = 2 * w0 /\ forall d, In d (snd (fst st)) -> mk0 d) /\ (length (snd st) = 2 * w1 /\ forall d, In d (snd st) -> mk1 d).
Definition view3 (st : St * list nat * list nat) : Q -> T := view (fst (fst st)).
Lemma facet_tensor_len kernel co f t0 t1 Ae : (forall co cst cd en p, keeps_size (fun l => kernel l co cst cd en p)) -> facet_tensor (U := U) zero dm0 dm1 (ct_P0 ct) (ct_P1T ct) kernel constants (ct_xd ct) x (ct_perms ct) f co t0 t1 = Some Ae -> length Ae = (bs0 * (2 * w0)) * (bs1 * (2 * w1)).
Proof.
  intros Hk. unfold facet_tensor. destruct Hct as (Eb0 & Eb1 & _ & _ & HP & HP1). rewrite Eb0, Eb1. destruct f as [[ca la] [cb lb]].
  destruct (coords _ _ ca) as [cda|]; [|discriminate]. cbn [obind]. destruct (coords _ _ cb) as [cdb|]; [|discriminate]. cbn [obind]. destruct (perm_of _ ca la) as [pa|]; [|discriminate]. cbn [obind]. destruct (perm_of _ cb lb) as [pb|]; [|discriminate]. cbn [obind]. cbv zeta.
  set (N := (bs0 * (2 * w0)) * (bs1 * (2 * w1))). set (A0 := kernel _ _ _ _ _ _). assert (H0 : length A0 = N) by (unfold A0, N; rewrite Hk, repeat_length; lia).
  set (A1 := match fst t0 with Some c => _ | None => _ end). assert (H1 : length A1 = N) by (unfold A1; destruct (fst t0); [now rewrite HP|exact H0]).
  assert (H2 : forall A2, match snd t0 with Some c => on_span A1 (bs0 * w0 * (bs1 * 2 * w1)) (bs0 * w0 * (bs1 * 2 * w1)) (fun s => ct_P0 ct s c (bs1 * 2 * w1)) | None => Some A1 end = Some A2 -> length A2 = N).
  { intros A2. destruct (snd t0) as [c|]; [|now intros [= <-]]. intro E. rewrite (on_span_len _ _ _ _ _ (HP c _) E). exact H1. }
  destruct (match snd t0 with Some c => _ | None => _ end) as [A2|]; [|discriminate]. specialize (H2 A2 eq_refl). cbn [obind].
  set (A3 := match fst t1 with Some c => _ | None => _ end). assert (H3 : length A3 = N) by (unfold A3; destruct (fst t1); [now rewrite HP1|exact H2]).
  destruct (snd t1) as [c|]; [|now intros [= <-]]. clearbody A3. revert A3 H3. generalize (seq 0 (bs0 * 2 * w0)). intro l. induction l as [|r l IH]; intros A3 H3; cbn [ofold]; [now intros [= <-]|].
  destruct (on_span A3 _ _ _) as [A4|] eqn:E4; [|discriminate]. cbn [obind]. apply IH. rewrite (on_span_len _ _ _ _ _ (HP1 c 1) E4). exact H3.
Qed.
Lemma opt_dofs_len0 c d : opt_dofs (cd_rows dm0) c = Some d -> length d <= w0 /\ (c <> None -> length d = w0).
Proof. destruct Hct as (_ & _ & Hw & _). destruct c as [c|]; cbn; [intro H; rewrite (Hw d (nth_error_In _ _ H)); lia|]. intros [= <-]. cbn. split; [lia|congruence]. Qed.
Lemma opt_dofs_len1 c d : opt_dofs (cd_rows dm1) c = Some d -> length d <= w1 /\ (c <> None -> length d = w1).
Proof. destruct Hct as (_ & _ & _ & Hw & _). destruct c as [c|]; cbn; [intro H; rewrite (Hw d (nth_error_In _ _ H)); lia|]. intros [= <-]. cbn. split; [lia|congruence]. Qed.
Lemma app_of_nth (j dA dB : list nat) w : length j = 2 * w -> length dA = w -> length dB = w -> (forall i, i < length dA -> nth i j 0 = nth i dA 0) -> (forall i, i < length dB -> nth (w + i) j 0 = nth i dB 0) -> j = dA ++ dB.
Proof.
  intros Hj HA HB H1 H2. apply (nth_ext _ _ 0 0); [rewrite app_length; lia|]. intros i Hi. destruct (Nat.lt_ge_cases i w) as [C|C].
  - rewrite app_nth1 by lia. apply H1. lia.
  - rewrite app_nth2 by lia. rewrite HA. rewrite <- (H2 (i - w)) by lia. f_equal. lia.
Qed.
(** The tensor that is inserted. *)
Lemma masked_ok j0 j1 Ae nr nc : nr = bs0 * length j0 -> nc = bs1 * length j1 -> length Ae = nr * nc -> (forall d, In d j0 -> mk0 d) -> (forall d, In d j1 -> mk1 d) ->
  exists A', (if lifting then Some Ae else Ae <- zero_rows zero bs0 nc j0 bc0 Ae ;; zero_cols zero bs1 nr nc j1 bc1 Ae) = Some A' /\ length A' = nr * nc /\
    forall q a b, a < nr -> b < nc -> val (target bs0 j0 a) (target bs1 j1 b) (nth (a * nc + b) A' zero) q = mval q (target bs0 j0 a) (target bs1 j1 b) (nth (a * nc + b) Ae zero).
Proof.
  intros E0 E1 HA H0 H1. unfold mval. destruct lifting eqn:El.
  - exists Ae. split; [reflexivity|]. split; [exact HA|]. reflexivity.
  - destruct (zero_both_ok zero bs0 bs1 j0 j1 bc0 bc1 nr nc Ae E0 E1 HA) as (A' & EA & LA & VA); [intros Hb d Hd; now apply H0|intros Hb d Hd; apply H1; [exact Hd|now left]|]. exists A'. split; [exact EA|]. split; [exact LA|]. intros q a b Ha Hb. now rewrite VA.
Qed.
Lemma facet_step_ok kernel co f t0 t1 d00 d01 d10 d11 Ae :
  opt_dofs (cd_rows dm0) (fst t0) = Some d00 -> opt_dofs (cd_rows dm0) (snd t0) = Some d01 -> opt_dofs (cd_rows dm1) (fst t1) = Some d10 -> opt_dofs (cd_rows dm1) (snd t1) = Some d11 ->
  facet_tensor (U := U) zero dm0 dm1 (ct_P0 ct) (ct_P1T ct) kernel constants (ct_xd ct) x (ct_perms ct) f co t0 t1 = Some Ae -> (forall co cst cd en p, keeps_size (fun l => kernel l co cst cd en p)) ->
  let at_ := fun i j a b => nth ((i * (bs0 * w0) + a) * (2 * (bs1 * w1)) + (j * (bs1 * w1) + b)) Ae zero in
  let bls := [(d00, d10, at_ 0 0); (d00, d11, at_ 0 1); (d01, d10, at_ 1 0); (d01, d11, at_ 1 1)] in
  okbl bls ->
  AsmSums.adds add Inv3 view3 D (facet_step zero mat_set lifting dm0 dm1 (ct_P0 ct) (ct_P1T ct) (ct_xd ct) x kernel constants (ct_perms ct) bc0 bc1 f co t0 t1) (gshares bls).
Proof.
  intros E00 E01 E10 E11 EA Hk at_ bls Hok [[s j0] j1] (HI & (Lj0 & Mj0) & (Lj1 & Mj1)). cbn [fst snd] in HI, Lj0, Mj0, Lj1, Mj1.
  pose proof (facet_tensor_len _ _ _ _ _ _ Hk EA) as LA. pose proof Hct as (Eb0 & Eb1 & _).
  pose proof (opt_dofs_len0 _ _ E00) as (L00 & F00). pose proof (opt_dofs_len0 _ _ E01) as (L01 & F01). pose proof (opt_dofs_len1 _ _ E10) as (L10 & F10). pose proof (opt_dofs_len1 _ _ E11) as (L11 & F11).
  assert (O00 : okb d00 d10) by (apply (Hok (d00, d10, at_ 0 0)); now left). assert (O01 : okb d00 d11) by (apply (Hok (d00, d11, at_ 0 1)); right; now left).
  assert (O10 : okb d01 d10) by (apply (Hok (d01, d10, at_ 1 0)); right; right; now left). assert (O11 : okb d01 d11) by (apply (Hok (d01, d11, at_ 1 1)); right; right; right; now left).
  destruct (put2_ok j0 d00 d01 w0 Lj0 L00 L01) as (k0 & P0 & Lk0 & I0 & V00 & V01). destruct (put2_ok j1 d10 d11 w1 Lj1 L10 L11) as (k1 & P1 & Lk1 & I1 & V10 & V11).
  assert (Mk0 : forall d, In d k0 -> mk0 d). { intros d Hd. destruct (I0 d Hd) as [H|[H|H]]; [now apply Mj0| |]; apply Hm0; [now apply O00|now apply O10]. }
  assert (Mk1 : forall d, In d k1 -> mk1 d). { intros d Hd. destruct (I1 d Hd) as [H|[H|H]]; [now apply Mj1| |]; apply Hm1; [now apply O00|now apply O01]. }
  set (nr := bs0 * 2 * w0). set (nc := bs1 * 2 * w1).
  assert (Enr : nr = bs0 * length k0) by (unfold nr; rewrite Lk0; lia). assert (Enc : nc = bs1 * length k1) by (unfold nc; rewrite Lk1; lia).
  assert (LA' : length Ae = nr * nc) by (rewrite LA; unfold nr, nc; lia).
  destruct (masked_ok k0 k1 Ae nr nc Enr Enc LA' Mk0 Mk1) as (A' & EM & LM & VM).
  (* the blocks of the masked tensor *)
  assert (T0 : forall i a, i < 2 -> a < bs0 * length (if i =? 0 then d00 else d01) -> target bs0 k0 (i * (bs0 * w0) + a) = target bs0 (if i =? 0 then d00 else d01) a).
  { intros [|[|i]] a Hi Ha; [| |lia]; cbn [Nat.eqb] in *.
    - replace (0 * (bs0 * w0) + a) with (bs0 * 0 + a) by lia. apply (target_eq bs0 k0 d00 0 (length d00) a V00 Ha).
    - replace (1 * (bs0 * w0) + a) with (bs0 * w0 + a) by lia. apply (target_eq bs0 k0 d01 w0 (length d01) a V01 Ha). }
  assert (T1 : forall i a, i < 2 -> a < bs1 * length (if i =? 0 then d10 else d11) -> target bs1 k1 (i * (bs1 * w1) + a) = target bs1 (if i =? 0 then d10 else d11) a).
  { intros [|[|i]] a Hi Ha; [| |lia]; cbn [Nat.eqb] in *.
    - replace (0 * (bs1 * w1) + a) with (bs1 * 0 + a) by lia. apply (target_eq bs1 k1 d10 0 (length d10) a V10 Ha).
    - replace (1 * (bs1 * w1) + a) with (bs1 * w1 + a) by lia. apply (target_eq bs1 k1 d11 w1 (length d11) a V11 Ha). }
  assert (BL : forall q i j, i < 2 -> j < 2 -> bsum bs0 bs1 (fun I J v => val I J v q) ((if i =? 0 then d00 else d01), (if j =? 0 then d10 else d11), fun a b => nth ((i * (bs0 * w0) + a) * nc + (j * (bs1 * w1) + b)) A' zero) = gshare ((if i =? 0 then d00 else d01), (if j =? 0 then d10 else d11), at_ i j) q).
  { intros q i j Hi Hj. apply bsum_ext. intros a b Ha Hb. rewrite <- (T0 i a Hi Ha), <- (T1 j b Hj Hb).
    assert (length (if i =? 0 then d00 else d01) <= w0) by (destruct (i =? 0); assumption). assert (length (if j =? 0 then d10 else d11) <= w1) by (destruct (j =? 0); assumption).
    rewrite VM; [|unfold nr|unfold nc]; [|nia|nia]. unfold at_, nc. replace (bs1 * 2 * w1) with (2 * (bs1 * w1)) by lia. reflexivity. }
  assert (Skip : lifting = true -> exists h, has_bc k1 bc1 bs1 = Some h /\ (h = false -> forall q, gshares bls q = zero)).
  { intro El. destruct (has_bc_ok k1 bc1 bs1) as (h & Eh & Hh); [intros d Hd; apply Mk1; [exact Hd|now right]|]. exists h. split; [exact Eh|]. intros Hf q. specialize (Hh Hf).
    assert (Z : forall i j, i < 2 -> j < 2 -> gshare ((if i =? 0 then d00 else d01), (if j =? 0 then d10 else d11), at_ i j) q = zero).
    { intros i j Hi Hj. apply bsum_zero. intros a b Ha Hb. unfold mval. rewrite El. apply Hval1; [exact El|]. rewrite <- (T1 j b Hj Hb). apply Hh. rewrite Lk1. assert (length (if j =? 0 then d10 else d11) <= w1) by (destruct (j =? 0); assumption). nia. }
    unfold shares, bls. cbn [map]. pose proof (Z 0 0 ltac:(lia) ltac:(lia)) as Z00. pose proof (Z 0 1 ltac:(lia) ltac:(lia)) as Z01. pose proof (Z 1 0 ltac:(lia) ltac:(lia)) as Z10. pose proof (Z 1 1 ltac:(lia) ltac:(lia)) as Z11. cbn [Nat.eqb] in Z00, Z01, Z10, Z11. rewrite Z00, Z01, Z10, Z11. cbn [sum fold_right]. now rewrite !add_0_l. }
  assert (Ins : adds (fun s => match fst t0, snd t0, fst t1, snd t1 with
       | Some _, Some _, Some _, Some _ => mat_set s k0 k1 A'
       | _, _, _, _ =>
         s <- insert_block mat_set bs0 bs1 nc A' d00 d10 0 0 s ;;
         s <- insert_block mat_set bs0 bs1 nc A' d00 d11 0 (bs1 * w1) s ;;
         s <- insert_block mat_set bs0 bs1 nc A' d01 d10 (bs0 * w0) 0 s ;;
         insert_block mat_set bs0 bs1 nc A' d01 d11 (bs0 * w0) (bs1 * w1) s
       end) (gshares bls)).
  { assert (Four : adds (fun s => s <- insert_block mat_set bs0 bs1 nc A' d00 d10 0 0 s ;;
         s <- insert_block mat_set bs0 bs1 nc A' d00 d11 0 (bs1 * w1) s ;;
         s <- insert_block mat_set bs0 bs1 nc A' d01 d10 (bs0 * w0) 0 s ;;
         insert_block mat_set bs0 bs1 nc A' d01 d11 (bs0 * w0) (bs1 * w1) s) (gshares bls)).
    { assert (B00 := insert_block_ok nr nc A' d00 d10 0 0 O00 LM ltac:(unfold nr; nia) ltac:(unfold nc; nia)).
      assert (B01 := insert_block_ok nr nc A' d00 d11 0 (bs1 * w1) O01 LM ltac:(unfold nr; nia) ltac:(unfold nc; nia)).
      assert (B10 := insert_block_ok nr nc A' d01 d10 (bs0 * w0) 0 O10 LM ltac:(unfold nr; nia) ltac:(unfold nc; nia)).
      assert (B11 := insert_block_ok nr nc A' d01 d11 (bs0 * w0) (bs1 * w1) O11 LM ltac:(unfold nr; nia) ltac:(unfold nc; nia)).
      apply (adds_eq add _ _ _ _ _ _ _ (adds_seq add add_assoc _ _ _ _ _ _ _ B00 (adds_seq add add_assoc _ _ _ _ _ _ _ B01 (adds_seq add add_assoc _ _ _ _ _ _ _ B10 B11)))); [reflexivity|].
      intros q _. unfold shares, bls. cbn [map sum fold_right]. rewrite (add_0_r zero add add_0_l add_comm).
      pose proof (BL q 0 0 ltac:(lia) ltac:(lia)) as Z00. pose proof (BL q 0 1 ltac:(lia) ltac:(lia)) as Z01. pose proof (BL q 1 0 ltac:(lia) ltac:(lia)) as Z10. pose proof (BL q 1 1 ltac:(lia) ltac:(lia)) as Z11. cbn [Nat.eqb] in Z00, Z01, Z10, Z11. rewrite <- Z00, <- Z01, <- Z10, <- Z11.
      apply (f_equal2 add); [|apply (f_equal2 add); [|apply (f_equal2 add)]]; apply bsum_ext; intros a b Ha Hb; cbv beta; match goal with |- val _ _ (nth ?i _ _) _ = val _ _ (nth ?j _ _) _ => replace j with i by lia; reflexivity end. }
    destruct (fst t0) as [u00|]; [|exact Four]. destruct (snd t0) as [u01|]; [|exact Four]. destruct (fst t1) as [u10|]; [|exact Four]. destruct (snd t1) as [u11|]; [|exact Four]. clear Four.
    specialize (F00 ltac:(discriminate)). specialize (F01 ltac:(discriminate)). specialize (F10 ltac:(discriminate)). specialize (F11 ltac:(discriminate)).
    pose proof (app_of_nth k0 d00 d01 w0 Lk0 F00 F01 V00 V01) as Ek0. pose proof (app_of_nth k1 d10 d11 w1 Lk1 F10 F11 V10 V11) as Ek1.
    assert (Ok : okb k0 k1). { rewrite Ek0, Ek1. destruct O00 as (A1 & A2 & A3), O01 as (B1 & B2 & B3), O10 as (C1 & C2 & C3), O11 as (D1 & D2 & D3). split; [|split].
      - intros d Hd. apply in_app_or in Hd as [H|H]; auto.
      - intros d Hd. apply in_app_or in Hd as [H|H]; auto.
      - intros r c Hr Hc. apply in_app_or in Hr as [H|H]; apply in_app_or in Hc as [H'|H']; auto. }
    apply (adds_eq add _ _ _ _ _ _ _ (Hset k0 k1 A' Ok ltac:(rewrite LM, Enr, Enc; lia))); [reflexivity|]. intros q _. rewrite <- Enc. rewrite Ek0, Ek1, bsum_joint, F00, F10.
    unfold shares, bls. cbn [map sum fold_right]. rewrite (add_0_r zero add add_0_l add_comm). rewrite <- add_assoc.
    pose proof (BL q 0 0 ltac:(lia) ltac:(lia)) as Z00. pose proof (BL q 0 1 ltac:(lia) ltac:(lia)) as Z01. pose proof (BL q 1 0 ltac:(lia) ltac:(lia)) as Z10. pose proof (BL q 1 1 ltac:(lia) ltac:(lia)) as Z11. cbn [Nat.eqb] in Z00, Z01, Z10, Z11. rewrite <- Z00, <- Z01, <- Z10, <- Z11.
    apply (f_equal2 add); [|apply (f_equal2 add); [|apply (f_equal2 add)]]; apply bsum_ext; intros a b Ha Hb; cbv beta; match goal with |- val _ _ (nth ?i _ _) _ = val _ _ (nth ?j _ _) _ => replace j with i by lia; reflexivity end. }
  (* the step *)
  assert (Fin : forall st, (P <- (if lifting then h <- has_bc k1 bc1 bs1 ;; Some (negb h) else Some false) ;;
    (if (P : bool) then Some (s, k0, k1) else
     Ae <- facet_tensor zero dm0 dm1 (ct_P0 ct) (ct_P1T ct) kernel constants (ct_xd ct) x (ct_perms ct) f co t0 t1 ;;
     Ae <- (if lifting then Some Ae else Ae <- zero_rows zero bs0 nc k0 bc0 Ae ;; zero_cols zero bs1 nr nc k1 bc1 Ae) ;;
     s <- match fst t0, snd t0, fst t1, snd t1 with
       | Some _, Some _, Some _, Some _ => mat_set s k0 k1 Ae
       | _, _, _, _ =>
         s <- insert_block mat_set bs0 bs1 nc Ae d00 d10 0 0 s ;;
         s <- insert_block mat_set bs0 bs1 nc Ae d00 d11 0 (bs1 * w1) s ;;
         s <- insert_block mat_set bs0 bs1 nc Ae d01 d10 (bs0 * w0) 0 s ;;
         insert_block mat_set bs0 bs1 nc Ae d01 d11 (bs0 * w0) (bs1 * w1) s
       end ;; Some (s, k0, k1))) = st -> exists s', st = Some s' /\ Inv3 s' /\ forall q, D q -> view3 s' q = add (view3 (s, j0, j1) q) (gshares bls q)).
  { intros st <-. destruct (Ins s HI) as (s' & Es & Is & Vs). rewrite EA. cbn [obind]. rewrite EM. cbn [obind]. rewrite Es. cbn [obind].
    assert (Run : exists s'0, Some (s', k0, k1) = Some s'0 /\ Inv3 s'0 /\ forall q, D q -> view3 s'0 q = add (view3 (s, j0, j1) q) (gshares bls q)).
    { exists (s', k0, k1). split; [reflexivity|]. split; [split; [exact Is|split; [now split|now split]]|exact Vs]. }
    destruct lifting eqn:El; [|exact Run]. destruct (Skip eq_refl) as (h & Eh & Hh). rewrite Eh. cbn [obind]. destruct h; [exact Run|]. cbn [negb]. exists (s, k0, k1). split; [reflexivity|]. split; [split; [exact HI|split; now split]|].
    intros q _. rewrite (Hh eq_refl). symmetry. now apply (add_0_r zero add). }
  eapply Fin. unfold facet_step. rewrite Eb0, Eb1, E00, E01, E10, E11. cbn [obind].
  destruct (put j0 0 d00) as [j0a|] eqn:Pa; [|discriminate P0]. cbn [obind] in P0 |- *. rewrite P0. cbn [obind]. destruct (put j1 0 d10) as [j1a|] eqn:Pb; [|discriminate P1]. cbn [obind] in P1 |- *. rewrite P1. cbn [obind]. reflexivity.
Qed.
Lemma mat_facets_ok ig flat cs bls : (forall co cst cd en p, keeps_size (fun l => fi_kernel ig l co cst cd en p)) -> facet_mb zero ct x constants ig flat cs = Some bls -> okbl bls ->
  AsmSums.adds add Inv3 view3 D (mat_facets zero mat_set lifting dm0 dm1 (ct_P0 ct) (ct_P1T ct) (ct_xd ct) x (fi_kernel ig) constants flat cs (ct_perms ct) bc0 bc1 (fi_facets ig) (fi_cells0 ig) (fi_cells1 ig)) (gshares bls).
Proof.
  intros Hk E Hr. unfold facet_mb in E. destruct (Nat.eqb_spec (length (fi_facets ig) * (2 * cs)) (length flat)) as [Hf|]; [|discriminate]. destruct (Nat.eqb_spec (length (fi_cells0 ig)) (length (fi_facets ig))) as [Hl|]; [|discriminate].
  destruct (Nat.eqb_spec (length (fi_cells1 ig)) (length (fi_facets ig))) as [Hl1|]; [|discriminate]. cbn [negb orb] in E.
  pose proof Hct as (Eb0 & Eb1 & Hw0 & Hw1 & _). rewrite Eb0, Eb1 in E.
  unshelve eapply (adds_eq add _ _ _ _ _ _ _ (adds_over zero add add_0_l add_comm add_assoc Inv3 view3 D gshare
    (fun st '(f, t0, t1, co) => facet_step zero mat_set lifting dm0 dm1 (ct_P0 ct) (ct_P1T ct) (ct_xd ct) x (fi_kernel ig) constants (ct_perms ct) bc0 bc1 f co t0 t1 st) _ _ _ E _)).
  - intros [[[f t0] t1] co] bl _ Eb Hi. cbv beta iota in Eb |- *.
    destruct (opt_dofs (cd_rows dm0) (fst t0)) as [d00|] eqn:E00; [|discriminate]. cbn [obind] in Eb. destruct (opt_dofs (cd_rows dm0) (snd t0)) as [d01|] eqn:E01; [|discriminate]. cbn [obind] in Eb.
    destruct (opt_dofs (cd_rows dm1) (fst t1)) as [d10|] eqn:E10; [|discriminate]. cbn [obind] in Eb. destruct (opt_dofs (cd_rows dm1) (snd t1)) as [d11|] eqn:E11; [|discriminate]. cbn [obind] in Eb.
    destruct (facet_tensor _ _ _ _ _ _ _ _ _ _ _ _ _ _) as [Ae|] eqn:Ee; [|discriminate]. cbn [obind] in Eb. injection Eb as <-.
    apply (facet_step_ok _ co f t0 t1 d00 d01 d10 d11 Ae E00 E01 E10 E11 Ee Hk). intros b Hb. apply Hr. now apply Hi.
  - intros s _. unfold mat_facets. apply ofold_zip; [now rewrite enum_len, items_len|]. intros i [j c] [[[c' c0] c1] co] s' Hi Hit. apply enum_at in Hi as (-> & Hi). apply items_at in Hit as (H1 & H2 & H2' & H3); [|lia]. rewrite Hi in H1. injection H1 as ->. rewrite H2, H2'. cbn [obind]. rewrite H3. reflexivity.
  - reflexivity.
Qed.
End OneType.
Section Top.
Variables (x : list U) (constants : list T) (cf : @coefs T).
Notation okbl bls := (forall bl, In bl bls -> okb (fst (fst bl)) (snd (fst bl))).
Notation gshares := (shares zero add gshare).
Notation MC ct ig flat cs s := (mat_cells zero mat_set lifting (ct_dm0 ct) (ct_dm1 ct) (ct_P0 ct) (ct_P1T ct) (ct_xd ct) x (ci_kernel ig) constants flat cs bc0 bc1 (ci_cells ig) (ci_cells0 ig) (ci_cells1 ig) s).
Notation MF ct ig flat cs s := (mat_facets zero mat_set lifting (ct_dm0 ct) (ct_dm1 ct) (ct_P0 ct) (ct_P1T ct) (ct_xd ct) x (fi_kernel ig) constants flat cs (ct_perms ct) bc0 bc1 (fi_facets ig) (fi_cells0 ig) (fi_cells1 ig) s).
Notation ME ct k ig flat cs s := (mat_entities zero mat_set lifting (ct_dm0 ct) (ct_dm1 ct) (ct_P0 ct) (ct_P1T ct) (ct_xd ct) x (ei_kernel ig) constants flat cs (if k =? 0 then ct_perms ct else []) bc0 bc1 (ei_ents ig) (ei_cells0 ig) (ei_cells1 ig) s).
Notation LC l ct ti s := (ofold (fun s0 i => ig <- get_integral l i ti ;; '(flat, cs) <- get_coeffs (cf_cell cf) i ;; if negb (length (ci_cells ig) * cs =? length flat) then None else MC ct ig flat cs s0) (seq 0 (num_integrals l ti)) s).
Notation LF l nt ct ti s := (ofold (fun s0 i => if 1 <? nt then None else ig <- get_integral l i 0 ;; '(flat, cs) <- get_coeffs (cf_int cf) i ;; if negb (length (fi_facets ig) * 2 * cs =? length flat) then None else MF ct ig flat cs s0) (seq 0 (num_integrals l ti)) s).
Notation LE l cfe nt ct k ti s := (ofold (fun s0 i => if 1 <? nt then None else ig <- get_integral l i 0 ;; '(flat, cs) <- get_coeffs cfe i ;; if negb (length (ei_ents ig) * cs =? length flat) then None else ME ct k ig flat cs s0) (seq 0 (num_integrals l ti)) s).
Lemma mcells_loop_ok l ti ct bls : type_sizes bs0 bs1 ct -> (forall e, In e l -> forall co cst cd en p, keeps_size (fun v => ci_kernel (snd e) v co cst cd en p)) -> consecutive l ti ->
  over_igs (cell_mb zero ct x constants) (entries l ti) (cf_cell cf) = Some bls -> okbl bls -> adds (fun s => LC l ct ti s) (gshares bls).
Proof.
  intros Hct Hk Hc E Hr. apply (adds_integrals zero add add_0_l add_comm add_assoc _ _ _ gshare (fun s ig flat cs => if negb (length (ci_cells ig) * cs =? length flat) then None else MC ct ig flat cs s) _ _ _ _ _ Hc E).
  intros e flat cs bl He Eb Hi. assert (Hl : length (ci_cells (snd e)) * cs = length flat) by (unfold cell_mb in Eb; destruct (Nat.eqb_spec (length (ci_cells (snd e)) * cs) (length flat)) as [Z|]; [exact Z|discriminate]).
  rewrite (proj2 (Nat.eqb_eq _ _) Hl). cbn [negb]. apply (mat_cells_ok ct x constants Hct (snd e) flat cs bl); [apply Hk; eapply entries_in; eauto|exact Eb|]. intros b Hb. apply Hr. now apply Hi.
Qed.
Lemma mfacets_loop_ok l ct bls : type_sizes bs0 bs1 ct -> (forall e, In e l -> forall co cst cd en p, keeps_size (fun v => fi_kernel (snd e) v co cst cd en p)) -> consecutive l 0 ->
  over_igs (facet_mb zero ct x constants) (entries l 0) (cf_int cf) = Some bls -> okbl bls -> AsmSums.adds add (Inv3 ct) view3 D (fun s => LF l 1 ct 0 s) (gshares bls).
Proof.
  intros Hct Hk Hc E Hr. cbn [Nat.ltb Nat.leb]. apply (adds_integrals zero add add_0_l add_comm add_assoc _ _ _ gshare (fun s ig flat cs => if negb (length (fi_facets ig) * 2 * cs =? length flat) then None else MF ct ig flat cs s) _ _ _ _ _ Hc E).
  intros e flat cs bl He Eb Hi. assert (Hl : length (fi_facets (snd e)) * 2 * cs = length flat) by (unfold facet_mb in Eb; destruct (Nat.eqb_spec (length (fi_facets (snd e)) * (2 * cs)) (length flat)) as [Z|]; [lia|discriminate]).
  rewrite (proj2 (Nat.eqb_eq _ _) Hl). cbn [negb]. apply (mat_facets_ok ct x constants Hct (snd e) flat cs bl); [apply Hk; eapply entries_in; eauto|exact Eb|]. intros b Hb. apply Hr. now apply Hi.
Qed.
Lemma ments_loop_ok l cfe k ct bls : type_sizes bs0 bs1 ct -> (forall e, In e l -> forall co cst cd en p, keeps_size (fun v => ei_kernel (snd e) v co cst cd en p)) -> consecutive l 0 ->
  over_igs (ent_mb zero ct x constants (ext_perms ct k)) (entries l 0) cfe = Some bls -> okbl bls -> adds (fun s => LE l cfe 1 ct k 0 s) (gshares bls).
Proof.
  intros Hct Hk Hc E Hr. cbn [Nat.ltb Nat.leb]. apply (adds_integrals zero add add_0_l add_comm add_assoc _ _ _ gshare (fun s ig flat cs => if negb (length (ei_ents ig) * cs =? length flat) then None else ME ct k ig flat cs s) _ _ _ _ _ Hc E).
  intros e flat cs bl He Eb Hi. assert (Hl : length (ei_ents (snd e)) * cs = length flat) by (unfold ent_mb in Eb; destruct (Nat.eqb_spec (length (ei_ents (snd e)) * cs) (length flat)) as [Z|]; [exact Z|discriminate]).
  rewrite (proj2 (Nat.eqb_eq _ _) Hl). cbn [negb]. apply (mat_entities_ok ct x constants Hct (ext_perms ct k) (snd e) flat cs bl); [apply Hk; eapply entries_in; eauto|exact Eb|]. intros b Hb. apply Hr. now apply Hi.
Qed.
Lemma gshares_nil : adds Some (gshares []).
Proof. apply adds_zero. reflexivity. Qed.
Lemma mext_loop_ok a nt ct ti bls : type_sizes bs0 bs1 ct -> kernels_ok a -> form_ok a nt -> ti < nt ->
  over_ext (fun k igs cfe => over_igs (ent_mb zero ct x constants (ext_perms ct k)) (entries igs ti) cfe) a cf = Some bls -> okbl bls ->
  adds (fun s => ofold (fun s '(k, igs) => cfe <- nth_error (cf_ext cf) k ;; LE igs cfe nt ct k ti s) (enum (fm_ext a)) s) (gshares bls).
Proof.
  intros Hct (_ & _ & Ke) (_ & _ & Fe & Fm) Ht E Hr. unfold over_ext in E. destruct (omap _ _) as [m|] eqn:Em; [|discriminate]. cbn [obind] in E. injection E as <-.
  apply (adds_omap zero add add_0_l add_comm add_assoc _ _ _ gshare _ _ _ _ Em). intros [k igs] bl Hin Eb Hi. cbv beta iota in Eb |- *.
  destruct (nth_error (cf_ext cf) k) as [cfe|]; [|discriminate]. cbn [obind] in Eb |- *. apply in_enum_nth, nth_error_In in Hin.
  destruct (Nat.le_gt_cases nt 1) as [C|C].
  - assert (nt = 1) as -> by lia. assert (ti = 0) as -> by lia. apply ments_loop_ok; [exact Hct|intros e He; now apply (Ke igs)|now apply Fe|exact Eb|intros b Hb; apply Hr; now apply Hi].
  - destruct Fm as (_ & Fm); [lia|]. rewrite (Fm igs Hin) in Eb |- *. cbn in Eb. injection Eb as <-. apply gshares_nil.
Qed.
Lemma mint_loop_ok a nt ct ti bls : type_sizes bs0 bs1 ct -> kernels_ok a -> form_ok a nt -> ti < nt -> (fm_int a <> [] -> mk0 0 /\ mk1 0) ->
  over_igs (facet_mb zero ct x constants) (entries (fm_int a) ti) (cf_int cf) = Some bls -> okbl bls ->
  adds (fun s => st <- LF (fm_int a) nt ct ti (s, repeat 0 (2 * cd_width (ct_dm0 ct)), repeat 0 (2 * cd_width (ct_dm1 ct))) ;; Some (fst (fst st))) (gshares bls).
Proof.
  intros Hct (_ & Ki & _) (_ & Fi & _ & Fm) Ht H0 E Hr. destruct (fm_int a) as [|e0 l0] eqn:El.
  - cbn in E. injection E as <-. intros s Hs. cbn [num_integrals countb seq ofold obind fst]. exact (gshares_nil s Hs).
  - assert (nt = 1) as ->. { destruct (Nat.le_gt_cases nt 1) as [C|C]; [lia|]. destruct (Fm C); discriminate. } assert (ti = 0) as -> by lia. destruct (H0 ltac:(discriminate)) as (M0 & M1).
    intros s Hs. destruct (mfacets_loop_ok _ ct bls Hct Ki Fi E Hr (s, repeat 0 (2 * cd_width (ct_dm0 ct)), repeat 0 (2 * cd_width (ct_dm1 ct)))) as (st & Es & (Is & _) & Vs).
    { split; [exact Hs|]. cbn [fst snd]. split; (split; [apply repeat_length|]); intros d Hd; apply repeat_spec in Hd; subst d; assumption. }
    rewrite Es. cbn [obind]. exists (fst (fst st)). split; [reflexivity|]. split; [exact Is|exact Vs].
Qed.
Lemma type_mat_ok a nt ti ct bls : type_sizes bs0 bs1 ct -> kernels_ok a -> form_ok a nt -> ti < nt -> (fm_int a <> [] -> mk0 0 /\ mk1 0) -> type_mb zero a x constants cf ti ct = Some bls -> okbl bls ->
  adds (fun s => s <- LC (fm_cell a) ct ti s ;; st <- LF (fm_int a) nt ct ti (s, repeat 0 (2 * cd_width (ct_dm0 ct)), repeat 0 (2 * cd_width (ct_dm1 ct))) ;;
    ofold (fun s '(k, igs) => cfe <- nth_error (cf_ext cf) k ;; LE igs cfe nt ct k ti s) (enum (fm_ext a)) (fst (fst st))) (gshares bls).
Proof.
  intros Hct HK HF Ht H0 E Hr. unfold type_mb in E.
  destruct (over_igs _ (entries (fm_cell a) ti) _) as [bc|] eqn:Ec; [|discriminate]. cbn [obind] in E.
  destruct (over_igs _ (entries (fm_int a) ti) _) as [bi|] eqn:Ei; [|discriminate]. cbn [obind] in E.
  destruct (over_ext _ a cf) as [be|] eqn:Ee; [|discriminate]. cbn [obind] in E. injection E as <-.
  assert (Hrc : okbl bc) by (intros bl Hb; apply Hr; apply in_or_app; now left).
  assert (Hri : okbl bi) by (intros bl Hb; apply Hr; apply in_or_app; right; apply in_or_app; now left).
  assert (Hre : okbl be) by (intros bl Hb; apply Hr; apply in_or_app; right; apply in_or_app; now right).
  pose proof (mcells_loop_ok _ _ _ _ Hct (proj1 HK) (proj1 (proj1 HF ti Ht)) Ec Hrc) as A1. pose proof (mint_loop_ok a nt ct ti bi Hct HK HF Ht H0 Ei Hri) as A2. pose proof (mext_loop_ok a nt ct ti be Hct HK HF Ht Ee Hre) as A3.
  apply (adds_eq add _ _ _ _ _ _ _ (adds_seq add add_assoc _ _ _ _ _ _ _ A1 (adds_seq add add_assoc _ _ _ _ _ _ _ A2 A3))).
  - intros s _. destruct (ofold _ _ s) as [s1|]; [|reflexivity]. cbn [obind]. destruct (ofold _ _ (s1, _, _)) as [st|]; reflexivity.
  - intros q _. rewrite !(shares_app zero add add_0_l add_assoc). reflexivity.
Qed.
Theorem assemble_matrix_ok a types bls : (forall ct, In ct types -> type_sizes bs0 bs1 ct) -> kernels_ok a -> form_ok a (length types) -> (fm_int a <> [] -> mk0 0 /\ mk1 0) ->
  form_mb zero a types x constants cf = Some bls -> okbl bls -> adds (assemble_matrix_impl zero mat_set lifting a types x constants cf bc0 bc1) (gshares bls).
Proof.
  intros Hct HK HF H0 E Hr. unfold form_mb in E. destruct (omap _ _) as [m|] eqn:Em; [|discriminate]. cbn [obind] in E. injection E as <-.
  unfold assemble_matrix_impl. apply (adds_omap zero add add_0_l add_comm add_assoc _ _ _ gshare _ _ _ _ Em). intros [ti ct] bl Hin Eb Hi. cbv beta iota in Eb |- *.
  apply in_enum_nth in Hin. pose proof (nth_error_bound _ _ _ Hin) as Hlt. apply nth_error_In in Hin. specialize (Hct ct Hin).
  exact (type_mat_ok a _ ti ct bl Hct HK HF Hlt H0 Eb (fun b Hb => Hr b (Hi b Hb))).
Qed.
End Top.
End MatAsm.
