(** Property C23: entries inserted in a matrix. *)
From Verif Require Import Base BaseProofs Algo IndexMap MatrixCSR MatrixSpec MatrixProofs MatrixDense PropIndexMap.

(** C23: any history of add and set calls inside the pattern succeeds and gives the
    matrix that dense accumulation gives, for every scalar type and addition. *)
Theorem C23_insertions :
  forall T (zero : T) (add : T -> T -> T) calls A, csr_ok A ->
    (forall c, In c calls -> call_shape A c /\ call_inside A c) ->
    exists A', mat_run add calls A = Some A' /\
      mt_bs0 A' = mt_bs0 A /\ mt_bs1 A' = mt_bs1 A /\ mt_cols A' = mt_cols A /\ mt_rp A' = mt_rp A /\ csr_ok A' /\
      forall I J, dense zero A' I J = fold_left (dense_step zero add) calls (dense zero A) I J.
Proof. exact @run_calls_ok. Qed.
Print Assumptions C23_insertions.

(** C23, errors: an entry outside the pattern makes the call fail when the block sizes of
    values and matrix agree, when single values are inserted, or when the entry is in the
    first column of its block. *)
Theorem C23_outside_pattern_fails :
  forall T (add : T -> T -> T) A (c : call T) a b, csr_ok A -> 0 < c_bs0 c -> 0 < c_bs1 c ->
    (c_bs0 c = mt_bs0 A /\ c_bs1 c = mt_bs1 A) \/ (c_bs0 c = 1 /\ c_bs1 c = 1) \/ b mod c_bs1 c = 0 ->
    a < c_height c -> b < c_width c -> ~ in_pattern A (c_row c a) (c_col c b) -> mat_call add A c = None.
Proof. exact @outside_fails. Qed.
Print Assumptions C23_outside_pattern_fails.

(** C23, refuted: for blocks inserted in a matrix without blocks only the first column of
    each block is looked up.  Here entry (0, 1) is outside the pattern, the call succeeds
    and its value lands in entry (0, 2). *)
Definition ex_gap : csr nat := mkCSR 1 1 [0; 2] [0; 2] [0; 0].
Definition ex_gap_call : call nat := mkCall true 1 2 [5; 7] [0] [0].
Theorem C23_blocked_outside_refuted :
  csr_ok ex_gap /\ ~ in_pattern ex_gap (c_row ex_gap_call 0) (c_col ex_gap_call 1) /\
  exists A', mat_call Nat.add ex_gap ex_gap_call = Some A' /\ dense 0 A' 0 2 = 7.
Proof.
  split; [|split].
  - repeat split; cbn; try lia. exists [[0; 2]]. repeat split. repeat constructor.
  - intros (l & H & Hin). vm_compute in H. injection H as <-. vm_compute in Hin. lia.
  - eexists. split; [vm_compute; reflexivity|]. reflexivity.
Qed.
Print Assumptions C23_blocked_outside_refuted.

(** C23, storage modes: a new matrix with blocks and a new expanded matrix over the same
    pattern get the same entries from the same calls, the entries of the dense sum. *)
Theorem C23_modes_agree :
  forall T (zero : T) (add : T -> T -> T) bs0 bs1 rows offdiag calls,
    0 < bs0 -> 0 < bs1 -> Forall (StronglySorted lt) rows -> length offdiag = length rows ->
    let edges := concat rows in let offsets := psums (map (@length nat) rows) in
    let A := fst (csr_compact zero bs0 bs1 edges offsets offdiag) in
    (forall c, In c calls -> call_shape A c /\ call_inside A c) ->
    exists A' B offs B', mat_run add calls A = Some A' /\
      csr_expanded zero bs0 bs1 edges offsets offdiag = Some (B, offs) /\ mat_run add calls B = Some B' /\
      forall I J, dense zero A' I J = fold_left (dense_step zero add) calls (fun _ _ => zero) I J /\
                  dense zero B' I J = dense zero A' I J.
Proof. exact @modes_statement. Qed.
Print Assumptions C23_modes_agree.

(** The expanded matrix has the scalar pattern of the blocked one, and its off-diagonal
    offsets are at the same columns. *)
Theorem C23_expanded_pattern :
  forall T (zero : T) bs0 bs1 rows offdiag,
    0 < bs0 -> 0 < bs1 -> Forall (StronglySorted lt) rows -> length offdiag = length rows ->
    let edges := concat rows in let offsets := psums (map (@length nat) rows) in
    let A := fst (csr_compact zero bs0 bs1 edges offsets offdiag) in
    exists B offs, csr_expanded zero bs0 bs1 edges offsets offdiag = Some (B, offs) /\ csr_ok B /\ mt_bs0 B = 1 /\ mt_bs1 B = 1 /\
      length (mt_rp B) = S (length rows * bs0) /\
      (forall I J, in_pattern B I J <-> in_pattern A I J) /\
      length offs = length rows * bs0 /\
      forall I nd, I < length rows * bs0 -> nth_error offdiag (I / bs0) = Some nd ->
        exists a, nth_error (mt_rp B) I = Some a /\ nth_error offs I = Some (a + nd * bs1).
Proof. exact @expanded_statement. Qed.
Print Assumptions C23_expanded_pattern.

(** The dense copy: row-major, columns at their global position, zero elsewhere. *)
Theorem C23_to_dense :
  forall T (zero : T) (A : csr T) (m1 : imap), csr_ok A ->
    (forall c, In c (mt_cols A) -> exists g, local_to_global m1 c = Some g /\ g < im_size_global m1) ->
    (forall c c' g, local_to_global m1 c = Some g -> local_to_global m1 c' = Some g -> c = c') ->
    let height := (length (mt_rp A) - 1) * mt_bs0 A in
    let width := im_size_global m1 * mt_bs1 A in
    exists D, to_dense zero A m1 = Some D /\ length D = height * width /\
      forall I G, I < height -> G < width -> exists v, nth_error D (I * width + G) = Some v /\
        (forall c, local_to_global m1 c = Some (G / mt_bs1 A) -> v = dense zero A I (c * mt_bs1 A + G mod mt_bs1 A)) /\
        ((forall c, local_to_global m1 c <> Some (G / mt_bs1 A)) -> v = zero).
Proof. exact @to_dense_statement. Qed.
Print Assumptions C23_to_dense.

(** A blocked matrix; the three kinds of calls. *)
Definition ex_A : csr nat := fst (csr_compact 0 2 2 [0; 1; 1] [0; 2; 3] [1; 0]).
Definition ex_calls : list (call nat) :=
  [mkCall true 2 2 [1;2;3;4; 5;6;7;8] [0] [0; 1]; mkCall true 1 1 [10; 20; 30; 40] [0; 1] [3; 0]; mkCall false 2 2 [1;1;1;1] [1] [1];
   mkCall false 1 1 [9] [3] [2]].
Example ex_calls_inside : csr_ok ex_A /\ forall c, In c ex_calls -> call_shape ex_A c /\ call_inside ex_A c.
Proof.
  split.
  - repeat split; cbn; try lia. exists [[0; 1]; [1]]. repeat split. repeat constructor.
  - assert (G : forall c, In c ex_calls -> call_shape ex_A c /\
       forallb (fun a => forallb (fun b => match slice_at (mt_cols ex_A) (mt_rp ex_A) (c_row c a / 2) with
          Some l => existsb (Nat.eqb (c_col c b / 2)) l | None => false end) (seq 0 (c_width c))) (seq 0 (c_height c)) = true).
    { intros c Hc. split.
      - assert (B : forallb (fun a => S (c_row c a / 2) <? 3) (seq 0 (c_height c)) = true)
          by (repeat (destruct Hc as [<-|Hc]; [reflexivity|]); destruct Hc).
        repeat (destruct Hc as [<-|Hc]; [split; [cbn; lia|]; split; [cbn; lia|]; split; [reflexivity|]; split; [|cbn; lia];
          intros a Ha; rewrite forallb_forall in B; apply Nat.ltb_lt, B, in_seq; lia|]). destruct Hc.
      - repeat (destruct Hc as [<-|Hc]; [reflexivity|]). destruct Hc. }
    intros c Hc. destruct (G c Hc) as (G1 & G2). split; [exact G1|]. intros a b Ha Hb.
    rewrite forallb_forall in G2. specialize (G2 a ltac:(apply in_seq; lia)). rewrite forallb_forall in G2. specialize (G2 b ltac:(apply in_seq; lia)).
    unfold in_pattern. change (mt_bs0 ex_A) with 2. change (mt_bs1 ex_A) with 2.
    destruct (slice_at _ _ _) as [l|]; [|discriminate]. exists l. split; [reflexivity|].
    apply existsb_exists in G2 as (x & Hx & E). apply Nat.eqb_eq in E. now rewrite E.
Qed.
Example ex_run :
  option_map mt_data (mat_run Nat.add ex_calls ex_A) = Some [21;2;45;6; 3;14;7;38; 1;1;9;1].
Proof. reflexivity. Qed.
