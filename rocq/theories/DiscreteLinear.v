(** Linear maps and their matrices, for properties C84 and C85. *)
From Verif Require Import Base BaseProofs InterpSpec InterpWrites PointOwnerProofs NonMatchingScatter AssembleSpec AsmSums DiscreteOps DiscreteOpsSpec.
From Coq Require Import Ring.
Open Scope nat_scope.

Lemma nth_map_seq {T} (f : nat -> T) n i d : i < n -> nth i (map f (seq 0 n)) d = f i.
Proof. intro H. rewrite (nth_indep _ d (f 0)) by (rewrite map_length, seq_length; exact H). rewrite map_nth, seq_nth by exact H. reflexivity. Qed.
Lemma nth_error_map_seq {T} (f : nat -> T) n i : i < n -> nth_error (map f (seq 0 n)) i = Some (f i).
Proof. intro H. rewrite nth_error_map, nth_error_seq by exact H. reflexivity. Qed.
Lemma list_ext {T} (d : T) n a b : length a = n -> length b = n -> (forall i, i < n -> nth i a d = nth i b d) -> a = b.
Proof. intros La Lb H. apply (nth_ext _ _ d d); [congruence|]. intros i Hi. apply H. lia. Qed.

Lemma nth_error_firstn_lt {A} n (l : list A) : forall i, i < n -> nth_error (firstn n l) i = nth_error l i.
Proof. revert l. induction n as [|n IH]; intros l i H; [lia|]. destruct l as [|x l]; [reflexivity|]. destruct i as [|i]; [reflexivity|]. cbn. apply IH. lia. Qed.

Section Ring.
Variables (T : Type) (zero one : T) (add mul sub : T -> T -> T) (opp : T -> T).
Hypothesis Rth : ring_theory zero one add mul sub opp eq.
Add Ring Tr : Rth.
Notation tsum := (tsum zero add).
Notation vadd := (vadd T add).
Notation vscale := (vscale T mul).
Notation linear := (linear T add mul).
Lemma r0l a : add zero a = a. Proof. ring. Qed.
Lemma rcomm a b : add a b = add b a. Proof. ring. Qed.
Lemma rassoc a b c : add a (add b c) = add (add a b) c. Proof. ring. Qed.

Lemma vadd_length x y n : length x = n -> length y = n -> length (vadd x y) = n.
Proof. intros Hx Hy. unfold DiscreteOpsSpec.vadd. rewrite map_length, combine_length. lia. Qed.
Lemma vadd_nth x y n i : length x = n -> length y = n -> i < n -> nth i (vadd x y) zero = add (nth i x zero) (nth i y zero).
Proof.
  intros Hx Hy Hi. unfold DiscreteOpsSpec.vadd.
  rewrite (nth_indep _ zero (add (fst (zero, zero)) (snd (zero, zero)))) by (rewrite map_length, combine_length; lia).
  rewrite (map_nth (fun p => add (fst p) (snd p))), combine_nth by lia. reflexivity.
Qed.
Lemma vscale_length s x : length (vscale s x) = length x.
Proof. apply map_length. Qed.
Lemma vscale_nth s x i : i < length x -> nth i (vscale s x) zero = mul s (nth i x zero).
Proof. intro Hi. unfold DiscreteOpsSpec.vscale. rewrite (nth_indep _ zero (mul s zero)) by (rewrite map_length; lia). apply map_nth. Qed.

Definition unit (n i : nat) : list T := map (fun j => if j =? i then one else zero) (seq 0 n).
Lemma unit_length n i : length (unit n i) = n.
Proof. unfold unit. now rewrite map_length, seq_length. Qed.
Lemma unit_nth n i j : nth j (unit n i) zero = if (j =? i) && (j <? n) then one else zero.
Proof.
  destruct (Nat.ltb_spec j n) as [H|H]; [unfold unit; rewrite nth_map_seq by exact H; now rewrite andb_true_r|].
  rewrite nth_overflow by (rewrite unit_length; exact H). now rewrite andb_false_r.
Qed.

(** Linear maps are determined by the unit vectors. *)
Definition prefix (n j : nat) (x : list T) : list T := map (fun i => if i <? j then nth i x zero else zero) (seq 0 n).
Lemma linear_units n n' f x m : linear n n' f -> length x = n -> m < n' -> nth m (f x) zero = tsum n (fun i => mul (nth i x zero) (nth m (f (unit n i)) zero)).
Proof.
  intros (Lf & Fa & Fs) Lx Hm.
  assert (Lp : forall j, length (prefix n j x) = n) by (intro j; unfold prefix; now rewrite map_length, seq_length).
  assert (G : forall j, j <= n -> nth m (f (prefix n j x)) zero = tsum j (fun i => mul (nth i x zero) (nth m (f (unit n i)) zero))).
  { induction j as [|j IH]; intro Hj.
    - assert (E : prefix n 0 x = vscale zero x).
      { apply (list_ext zero n); [apply Lp|rewrite vscale_length; exact Lx|]. intros i Hi. unfold prefix. rewrite nth_map_seq, vscale_nth by lia. cbn [Nat.ltb Nat.leb]. ring. }
      rewrite E, Fs, vscale_nth by (rewrite ?Lf; auto). rewrite tsum_0. ring.
    - assert (E : prefix n (S j) x = vadd (prefix n j x) (vscale (nth j x zero) (unit n j))).
      { apply (list_ext zero n); [apply Lp|apply vadd_length; [apply Lp|rewrite vscale_length; apply unit_length]|]. intros i Hi.
        rewrite (vadd_nth _ _ n) by (rewrite ?vscale_length, ?unit_length; auto). rewrite vscale_nth by (rewrite unit_length; exact Hi). rewrite unit_nth. unfold prefix. rewrite !nth_map_seq by exact Hi.
        rewrite (proj2 (Nat.ltb_lt i n) Hi), andb_true_r. destruct (Nat.eqb_spec i j) as [->|N].
        - rewrite (proj2 (Nat.ltb_lt j (S j))), Nat.ltb_irrefl by lia. ring.
        - destruct (Nat.ltb_spec i (S j)), (Nat.ltb_spec i j); try lia; ring. }
      rewrite E, Fa by (rewrite ?vscale_length, ?unit_length; auto). rewrite (vadd_nth _ _ n') by (rewrite ?Lf; rewrite ?vscale_length, ?unit_length; auto).
      rewrite Fs by apply unit_length. rewrite vscale_nth by (rewrite Lf; [exact Hm|apply unit_length]). rewrite IH by lia. rewrite (tsum_S zero add r0l rcomm rassoc). reflexivity. }
  rewrite <- (G n (le_n n)). do 2 f_equal. symmetry. apply (list_ext zero n); [apply Lp|exact Lx|]. intros i Hi. unfold prefix. rewrite nth_map_seq by exact Hi. now rewrite (proj2 (Nat.ltb_lt i n) Hi).
Qed.

Lemma linear_comp n n' n'' f g : linear n n' f -> linear n' n'' g -> linear n n'' (fun x => g (f x)).
Proof.
  intros (L1 & A1 & S1) (L2 & A2 & S2). split; [|split].
  - intros x Hx. apply L2, L1, Hx.
  - intros x y Hx Hy. rewrite A1 by assumption. apply A2; apply L1; assumption.
  - intros s x Hx. rewrite S1 by assumption. apply S2, L1, Hx.
Qed.
(** A list of linear functionals *)
Definition lfun (n : nat) (h : list T -> T) : Prop :=
  (forall x y, length x = n -> length y = n -> h (vadd x y) = add (h x) (h y)) /\ forall s x, length x = n -> h (vscale s x) = mul s (h x).
Lemma linear_map {A} n (l : list A) (h : A -> list T -> T) : (forall a, In a l -> lfun n (h a)) -> linear n (length l) (fun x => map (fun a => h a x) l).
Proof.
  intro H. split; [|split].
  - intros x _. apply map_length.
  - intros x y Hx Hy. revert H. induction l as [|a l IH]; intro H; [reflexivity|]. cbn [map combine]. unfold DiscreteOpsSpec.vadd in *. cbn [map combine fst snd].
    f_equal; [apply (H a); auto; now left|]. apply IH. intros b Hb. apply H. now right.
  - intros s x Hx. revert H. induction l as [|a l IH]; intro H; [reflexivity|]. cbn [map]. unfold DiscreteOpsSpec.vscale in *. cbn [map]. f_equal; [apply (H a); auto; now left|]. apply IH. intros b Hb. apply H. now right.
Qed.
Lemma lfun_coord n f n' k : linear n n' f -> k < n' -> lfun n (fun x => nth k (f x) zero).
Proof.
  intros (Lf & Fa & Fs) Hk. split.
  - intros x y Hx Hy. rewrite Fa by assumption. apply (vadd_nth _ _ n'); auto.
  - intros s x Hx. rewrite Fs by assumption. apply vscale_nth. rewrite Lf; auto.
Qed.
Lemma lfun_sum n m (w : nat -> T) (h : nat -> list T -> T) : (forall i, i < m -> lfun n (h i)) -> lfun n (fun x => tsum m (fun i => mul (w i) (h i x))).
Proof.
  intro H. split.
  - intros x y Hx Hy. rewrite <- (tsum_plus zero add r0l rcomm rassoc). apply tsum_ext. intros i Hi. rewrite (proj1 (H i Hi)) by assumption. ring.
  - intros s x Hx. revert H. induction m as [|m IH]; intro H; [rewrite !tsum_0; ring|]. rewrite !(tsum_S zero add r0l rcomm rassoc), IH by (intros; apply H; lia). rewrite (proj2 (H m ltac:(lia))) by assumption. ring.
Qed.
Lemma lfun_sum' n m (h : nat -> list T -> T) : (forall i, i < m -> lfun n (h i)) -> lfun n (fun x => tsum m (fun i => h i x)).
Proof.
  intro H. destruct (lfun_sum n m (fun _ => one) h H) as [A S]. split.
  - intros x y Hx Hy. specialize (A x y Hx Hy). assert (E : forall z, tsum m (fun i => mul one (h i z)) = tsum m (fun i => h i z)) by (intro z; apply tsum_ext; intros; ring). rewrite !E in A. exact A.
  - intros s x Hx. specialize (S s x Hx). assert (E : forall z, tsum m (fun i => mul one (h i z)) = tsum m (fun i => h i z)) by (intro z; apply tsum_ext; intros; ring). rewrite !E in S. exact S.
Qed.
Lemma lfun_entry n i (w : T) : lfun n (fun x => mul (nth i x zero) w).
Proof.
  split.
  - intros x y Hx Hy. destruct (Nat.lt_ge_cases i n) as [H|H]; [rewrite (vadd_nth x y n) by assumption; ring|].
    rewrite !nth_overflow; [ring|lia|lia|rewrite (vadd_length x y n); lia].
  - intros s x Hx. destruct (Nat.lt_ge_cases i n) as [H|H]; [rewrite vscale_nth by lia; ring|]. rewrite !nth_overflow; [ring|lia|rewrite vscale_length; lia].
Qed.
Lemma lfun_sub n h h' : lfun n h -> lfun n h' -> lfun n (fun x => sub (h x) (h' x)).
Proof. intros [A S] [A' S']. split; [intros x y Hx Hy; rewrite A, A' by assumption; ring|intros s x Hx; rewrite S, S' by assumption; ring]. Qed.

Lemma function_value_linear bs0 dim0 vs B n : linear n vs (function_value T zero add mul bs0 dim0 vs B).
Proof.
  rewrite <- (seq_length vs 0) at 1. unfold function_value. apply (linear_map n (seq 0 vs) (fun comp u => tsum dim0 (fun i => mul (nth (bs0 * i + comp mod bs0) u zero) (nth (comp / bs0) (nth i B []) zero)))).
  intros comp _. apply lfun_sum'. intros i _. apply lfun_entry.
Qed.
Lemma local_dofs_linear ident bs1 vs np Pi n (v : list T -> nat -> nat -> T) n' : (forall p k, p < np -> k < vs -> lfun n (fun u => v u p k)) ->
  (ident = false -> bs1 <> 1 -> bs1 <= vs) ->
  n' = (if ident then np * vs else if bs1 =? 1 then length Pi else length Pi * bs1) ->
  linear n n' (fun u => local_dofs T zero add mul ident bs1 vs np Pi (v u)).
Proof.
  intros H Hb ->. unfold local_dofs. destruct ident.
  - replace (np * vs) with (length (list_prod (seq 0 np) (seq 0 vs))) by (rewrite prod_length, !seq_length; reflexivity).
    apply (linear_map n _ (fun x u => v u (fst x) (snd x))). intros [p k] Hin. apply in_prod_iff in Hin as [Hp Hk]. apply in_seq in Hp, Hk. apply H; cbn [fst snd]; lia.
  - destruct (Nat.eqb_spec bs1 1) as [E|N].
    + apply (linear_map n Pi (fun row u => tsum vs (fun k => tsum np (fun p => mul (nth (k * np + p) row zero) (v u p k))))). intros row _. apply lfun_sum'. intros k Hk. apply lfun_sum. intros p Hp. now apply H.
    + replace (length Pi * bs1) with (length (list_prod Pi (seq 0 bs1))) by (rewrite prod_length, seq_length; reflexivity).
      apply (linear_map n _ (fun x u => tsum np (fun p => mul (nth p (fst x) zero) (v u p (snd x))))). intros [row k] Hin. apply in_prod_iff in Hin as [_ Hk]. apply in_seq in Hk. apply lfun_sum. intros p Hp. apply H; [exact Hp|]. cbn [snd]. specialize (Hb eq_refl N). lia.
Qed.

(** ** Matrices with given columns *)
Definition of_columns (n1 n0 : nat) (col : nat -> list T) : list (list T) := map (fun m => map (fun i => nth m (col i) zero) (seq 0 n0)) (seq 0 n1).
Lemma of_columns_length n1 n0 col : length (of_columns n1 n0 col) = n1.
Proof. unfold of_columns. now rewrite map_length, seq_length. Qed.
Lemma of_columns_nth n1 n0 col m : m < n1 -> nth_error (of_columns n1 n0 col) m = Some (map (fun i => nth m (col i) zero) (seq 0 n0)).
Proof. intro H. exact (nth_error_map_seq (fun m => map (fun i => nth m (col i) zero) (seq 0 n0)) n1 m H). Qed.
Lemma apply_columns_ok f n1 n0 col : (forall i, i < n0 -> length (col i) = n1) -> (forall x, length x = n1 -> length (f x) = n1) ->
  apply_columns T f n0 (of_columns n1 n0 col) = Some (of_columns n1 n0 (fun i => f (col i))).
Proof.
  intros Hc Hf. unfold apply_columns. rewrite (omap_map _ (fun i => f (col i))).
  - cbn [obind]. rewrite of_columns_length. unfold of_columns. apply omap_map. intros m Hm. apply in_seq in Hm.
    rewrite (omap_map _ (fun c => nth m c zero)); [now rewrite map_map|]. intros c Hin. apply in_map_iff in Hin as (i & <- & Hi). apply in_seq in Hi. apply nth_error_nth'. rewrite Hf; [lia|apply Hc; lia].
  - intros i Hi. apply in_seq in Hi. unfold of_columns. rewrite (omap_map _ (fun row => nth i row zero)).
    + cbn [obind]. do 2 f_equal. rewrite map_map. rewrite <- (map_nth_seq zero (col i)) at 1. rewrite (Hc i ltac:(lia)). apply map_ext_in. intros m _. now rewrite nth_map_seq by lia.
    + intros row Hin. apply in_map_iff in Hin as (m & <- & _). apply nth_error_nth'. rewrite map_length, seq_length. lia.
Qed.

Lemma sum_loop {A} (F : T -> A -> option T) (t : A -> T) l : (forall j v, In j l -> F v j = Some (add v (t j))) -> ofold F l zero = Some (sum zero add (map t l)).
Proof.
  intro H. assert (G : forall v, ofold F l v = Some (add v (sum zero add (map t l)))).
  { induction l as [|x l IH]; intro v; [cbn; f_equal; ring|]. cbn [ofold map]. rewrite H by now left. cbn [obind]. rewrite IH by (intros; apply H; now right). rewrite (sum_cons zero add). f_equal. ring. }
  rewrite G. f_equal. ring.
Qed.

Lemma sum_prod {A B} (t : A * B -> T) la lb : sum zero add (map t (list_prod la lb)) = sum zero add (map (fun a => sum zero add (map (fun b => t (a, b)) lb)) la).
Proof.
  induction la as [|a la IH]; [reflexivity|]. cbn [list_prod map]. rewrite map_app, (sum_app zero add r0l rassoc), map_map, IH. reflexivity.
Qed.

Lemma nth_map_default {A} (f : A -> T) l m (a : A) : nth_error l m = Some a -> nth m (map f l) zero = f a.
Proof. intro H. apply nth_error_nth. rewrite nth_error_map, H. reflexivity. Qed.

(** The local matrix: column [i] has the dofs of the function with the values [v i]. *)
Lemma local_matrix_ok ident bs1 vs np n0 Pi mv (v : nat -> nat -> nat -> T) n1 :
  (forall p i k, p < np -> i < n0 -> k < vs -> exists P row, nth_error mv p = Some P /\ nth_error P i = Some row /\ nth_error row k = Some (v i p k)) ->
  (ident = false -> forall row, In row Pi -> (if bs1 =? 1 then vs * np else np) <= length row) -> (ident = false -> bs1 <> 1 -> bs1 <= vs) ->
  n1 = (if ident then np * vs else if bs1 =? 1 then length Pi else length Pi * bs1) ->
  local_matrix T zero add mul ident bs1 vs np n0 Pi mv = Some (of_columns n1 n0 (fun i => local_dofs T zero add mul ident bs1 vs np Pi (v i))).
Proof.
  intros Hv HP Hb ->. unfold local_matrix.
  assert (K : forall {A} (l : list A) (F : A -> option (list T)) (g : A -> nat -> T), (forall a, In a l -> F a = Some (map (g a) (seq 0 n0))) ->
     omap F l = Some (of_columns (length l) n0 (fun i => map (fun a => g a i) l))).
  { intros A l F g H. rewrite (omap_map F (fun a => map (g a) (seq 0 n0)) l H). f_equal. unfold of_columns.
    apply nth_error_ext. intro m. destruct (Nat.lt_ge_cases m (length l)) as [Hm|Hm].
    - rewrite nth_error_map_seq by exact Hm. destruct (nth_error_lt l m Hm) as (a & Ea). rewrite nth_error_map, Ea. cbn [option_map]. f_equal. apply map_ext_in. intros i _. now rewrite (nth_map_default _ l m a Ea).
    - rewrite (proj2 (nth_error_None _ _)) by (rewrite map_length; lia). symmetry. apply nth_error_None. rewrite map_length, seq_length. lia. }
  unfold local_dofs. destruct ident.
  - rewrite (K _ _ _ (fun x i => v i (fst x) (snd x))); [rewrite prod_length, !seq_length; reflexivity|].
    intros [p k] Hin. apply in_prod_iff in Hin as [Hp Hk]. apply in_seq in Hp, Hk. apply omap_map. intros i Hi. apply in_seq in Hi.
    destruct (Hv p i k) as (P & row & -> & E & E'); try lia. cbn [obind fst snd]. now rewrite E.
  - specialize (HP eq_refl). destruct (Nat.eqb_spec bs1 1) as [E1|N1].
    + rewrite (K _ _ _ (fun row i => tsum vs (fun k => tsum np (fun p => mul (nth (k * np + p) row zero) (v i p k))))); [reflexivity|].
      intros row Hrow. apply omap_map. intros i Hi. apply in_seq in Hi.
      rewrite (sum_loop _ (fun x : nat * nat => mul (nth (fst x * np + snd x) row zero) (v i (snd x) (fst x)))).
      * f_equal. rewrite sum_prod. reflexivity.
      * intros [k p] s Hin. apply in_prod_iff in Hin as [Hk Hp]. apply in_seq in Hp, Hk. pose proof (HP row Hrow) as HL. rewrite (nth_error_nth' row zero) by nia. cbn [obind].
        destruct (Hv p i k) as (P & r & -> & E & E'); try lia. cbn [obind fst snd]. rewrite E. cbn [obind]. now rewrite E'.
    + rewrite (K _ _ _ (fun x i => tsum np (fun p => mul (nth p (fst x) zero) (v i p (snd x))))); [rewrite prod_length, seq_length; reflexivity|].
      intros [row k] Hin. apply in_prod_iff in Hin as [Hrow Hk]. apply in_seq in Hk. specialize (Hb eq_refl N1). apply omap_map. intros i Hi. apply in_seq in Hi. cbn [fst snd].
      rewrite (sum_loop _ (fun p => mul (nth p row zero) (v i p k))); [reflexivity|].
      intros p s Hp. apply in_seq in Hp. pose proof (HP row Hrow) as HL. rewrite (nth_error_nth' row zero) by lia. cbn [obind].
      destruct (Hv p i k) as (P & r & -> & E & E'); try lia. cbn [obind]. rewrite E. cbn [obind]. now rewrite E'.
Qed.

(** ** Unrolled basis functions *)
Lemma unit_value bs0 dim0 vs B m : 0 < bs0 -> m < bs0 * dim0 ->
  function_value T zero add mul bs0 dim0 vs B (unit (bs0 * dim0) m) = map (fun comp => if comp mod bs0 =? m mod bs0 then nth (comp / bs0) (nth (m / bs0) B []) zero else zero) (seq 0 vs).
Proof.
  intros Hb Hm. unfold function_value. apply map_ext_in. intros comp _. pose proof (Nat.mod_upper_bound comp bs0 ltac:(lia)) as H1. pose proof (Nat.div_mod m bs0 ltac:(lia)) as Em. pose proof (Nat.mod_upper_bound m bs0 ltac:(lia)) as H2.
  assert (Hd : m / bs0 < dim0) by (apply Nat.div_lt_upper_bound; lia).
  destruct (Nat.eqb_spec (comp mod bs0) (m mod bs0)) as [E|N].
  - rewrite (tsum_one zero add r0l rcomm rassoc dim0 _ (m / bs0) Hd).
    + rewrite unit_nth. rewrite E, <- Em, Nat.eqb_refl. destruct (Nat.ltb_spec m (bs0 * dim0)); [|lia]. cbn [andb]. ring.
    + intros a Ha Na. rewrite unit_nth. destruct (Nat.eqb_spec (bs0 * a + comp mod bs0) m) as [Ea|_]; [|cbn [andb]; ring]. exfalso. apply Na. nia.
  - apply (tsum_zero zero add r0l). intros a Ha. rewrite unit_nth. destruct (Nat.eqb_spec (bs0 * a + comp mod bs0) m) as [Ea|_]; [|cbn [andb]; ring]. exfalso. apply N. rewrite <- Ea. rewrite (Nat.mul_comm bs0 a), Nat.add_comm, Nat.mod_add by lia. symmetry. apply Nat.mod_small. exact H1.
Qed.

Lemma slice_row (B : list T) n vs m (f : nat -> T) : length B = n * vs -> m < n -> (forall k, k < vs -> nth_error B (m * vs + k) = Some (f k)) -> slice B (m * vs) (m * vs + vs) = Some (map f (seq 0 vs)).
Proof.
  intros LB Hm H. apply slice_some. split; [lia|]. split; [nia|]. replace (m * vs + vs - m * vs) with vs by lia. apply nth_error_ext. intro k. destruct (Nat.lt_ge_cases k vs) as [Hk|Hk].
  - rewrite nth_error_map_seq by exact Hk. rewrite <- (H k Hk). rewrite nth_error_firstn_lt by exact Hk. now rewrite nth_error_skipn.
  - rewrite (proj2 (nth_error_None _ _)) by (rewrite map_length, seq_length; lia). symmetry. apply nth_error_None. rewrite firstn_length. lia.
Qed.

Lemma unroll_ok bs0 dim0 vs0 vs1 B : 0 < bs0 -> vs1 = vs0 * bs0 -> length B = dim0 -> (forall row, In row B -> length row = vs0) ->
  exists U, unroll T zero bs0 dim0 vs0 vs1 B = Some U /\
  forall m, m < bs0 * dim0 -> slice U (m * vs1) (m * vs1 + vs1) = Some (function_value T zero add mul bs0 dim0 vs1 B (unit (bs0 * dim0) m)).
Proof.
  intros Hb Ev LB HB. unfold unroll.
  set (ws := map (fun x : (nat * nat) * nat => ((fst (fst x) * bs0 + snd x) * vs1 + (snd (fst x) * bs0 + snd x), nth (snd (fst x)) (nth (fst (fst x)) B []) zero))
     (list_prod (list_prod (seq 0 dim0) (seq 0 vs0)) (seq 0 bs0))).
  assert (E : ofold (fun U x => let '((i, j), k) := x in row <- nth_error B i ;; v <- nth_error row j ;;
      if vs1 <=? j * bs0 + k then None else upd U ((i * bs0 + k) * vs1 + (j * bs0 + k)) v)
    (list_prod (list_prod (seq 0 dim0) (seq 0 vs0)) (seq 0 bs0)) (repeat zero (bs0 * dim0 * vs1)) = wr ws (repeat zero (bs0 * dim0 * vs1))).
  { unfold ws. rewrite <- concat_singles. apply ofold_writes. intros [[i j] k] arr Hin. apply in_prod_iff in Hin as [Hij Hk]. apply in_prod_iff in Hij as [Hi Hj]. apply in_seq in Hi, Hj, Hk.
    rewrite (nth_error_nth' B []) by lia. cbn [obind]. assert (Lr : length (nth i B []) = vs0) by (apply HB, nth_In; lia). rewrite (nth_error_nth' (nth i B []) zero) by lia. cbn [obind fst snd].
    destruct (Nat.leb_spec vs1 (j * bs0 + k)) as [H|_]; [nia|]. now rewrite wr_one. }
  rewrite E. clear E.
  assert (Hws : forall a v, In (a, v) ws <-> exists i j k, i < dim0 /\ j < vs0 /\ k < bs0 /\ a = (i * bs0 + k) * vs1 + (j * bs0 + k) /\ v = nth j (nth i B []) zero).
  { intros a v. unfold ws. rewrite in_map_iff. split.
    - intros ([[i j] k] & E & Hin). injection E as <- <-. apply in_prod_iff in Hin as [Hij Hk]. apply in_prod_iff in Hij as [Hi Hj]. apply in_seq in Hi, Hj, Hk. cbn [fst snd]. exists i, j, k. do 3 (split; [lia|]). auto.
    - intros (i & j & k & Hi & Hj & Hk & -> & ->). exists ((i, j), k). split; [reflexivity|]. repeat (apply in_prod_iff; split); apply in_seq; lia. }
  destruct (wr_spec ws (repeat zero (bs0 * dim0 * vs1))) as (U & EU & LU & NU).
  { intros [a v] Hin. apply Hws in Hin as (i & j & k & Hi & Hj & Hk & -> & _). cbn [fst]. rewrite repeat_length. assert (i * bs0 + k < bs0 * dim0) by nia. assert (j * bs0 + k < vs1) by nia. nia. }
  exists U. split; [exact EU|]. rewrite repeat_length in LU. intros m Hm. rewrite (unit_value bs0 dim0 vs1 B m Hb Hm). apply (slice_row U (bs0 * dim0)); [exact LU|exact Hm|].
  intros comp Hc. rewrite NU.
  pose proof (Nat.div_mod m bs0 ltac:(lia)) as Em. pose proof (Nat.mod_upper_bound m bs0 ltac:(lia)) as H2. pose proof (Nat.div_mod comp bs0 ltac:(lia)) as Ec. pose proof (Nat.mod_upper_bound comp bs0 ltac:(lia)) as H3.
  assert (Hd : m / bs0 < dim0) by (apply Nat.div_lt_upper_bound; lia). assert (Hd2 : comp / bs0 < vs0) by (apply Nat.div_lt_upper_bound; lia).
  assert (Hinv : forall i j k, k < bs0 -> j * bs0 + k < vs1 -> m * vs1 + comp = (i * bs0 + k) * vs1 + (j * bs0 + k) -> i = m / bs0 /\ j = comp / bs0 /\ k = m mod bs0 /\ k = comp mod bs0).
  { intros i j k Hk Hlt E. destruct (digits_inj vs1 m comp (i * bs0 + k) (j * bs0 + k) Hc Hlt E) as [E1 E2].
    destruct (digits_inj bs0 i k (m / bs0) (m mod bs0)) as [-> ->]; [exact Hk|exact H2|lia|]. destruct (digits_inj bs0 j (m mod bs0) (comp / bs0) (comp mod bs0)) as [-> ->]; [exact H2|exact H3|lia|]. auto. }
  destruct (Nat.eqb_spec (comp mod bs0) (m mod bs0)) as [Eq|Nq].
  - rewrite (lastv_fun _ (nth (comp / bs0) (nth (m / bs0) B []) zero) ws); [reflexivity| |].
    + apply Hws. exists (m / bs0), (comp / bs0), (m mod bs0). do 3 (split; [assumption|]). split; [|reflexivity]. f_equal; [f_equal; lia|lia].
    + intros v Hv. apply Hws in Hv as (i & j & k & Hi & Hj & Hk & E & ->). destruct (Hinv i j k Hk ltac:(nia) E) as (-> & -> & _). reflexivity.
  - rewrite (proj2 (lastv_none _ _)); [apply nth_error_repeat; nia|]. intros v Hv. apply Hws in Hv as (i & j & k & Hi & Hj & Hk & E & ->). destruct (Hinv i j k Hk ltac:(nia) E) as (_ & _ & E1 & E2). congruence.
Qed.
End Ring.
