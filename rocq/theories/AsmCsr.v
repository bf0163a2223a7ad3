(** Assembly into a CSR matrix. *)
From Verif Require Import Base BaseProofs Algo MatrixCSR MatrixSpec MatrixProofs Assemble AssembleSpec AsmBlocks AsmSums AsmVector AsmMatrix.
Open Scope nat_scope.

(** [A'] has the pattern of [A]. *)
Definition same_pattern {T} (A A' : csr T) : Prop := mt_bs0 A' = mt_bs0 A /\ mt_bs1 A' = mt_bs1 A /\ mt_cols A' = mt_cols A /\ mt_rp A' = mt_rp A.
(** Block sizes that [MatrixCSR::add] and [set] accept. *)
Definition bs_supported {T} (A : csr T) (bs0 bs1 : nat) : Prop :=
  (bs0 = mt_bs0 A /\ bs1 = mt_bs1 A) \/ (mt_bs0 A = 1 /\ mt_bs1 A = 1) \/ (bs0 = 1 /\ bs1 = 1).
(** Row [d] and all entries for the dofs [r] and [c] are in the pattern. *)
Definition row_in {T} (A : csr T) (bs0 d : nat) : Prop := forall k, k < bs0 -> S ((bs0 * d + k) / mt_bs0 A) < length (mt_rp A).
Definition pair_in {T} (A : csr T) (bs0 bs1 r c : nat) : Prop := forall k l, k < bs0 -> l < bs1 -> in_pattern A (bs0 * r + k) (bs1 * c + l).

Section Csr.
Context {T U : Type}.
Variables (zero : T) (add : T -> T -> T).
Hypothesis add_0_l : forall a, add zero a = a.
Hypothesis add_comm : forall a b, add a b = add b a.
Hypothesis add_assoc : forall a b c, add a (add b c) = add (add a b) c.
Variables (A0 : csr T) (bs0 bs1 : nat).
Hypothesis Hbs0 : 0 < bs0.
Hypothesis Hbs1 : 0 < bs1.
Hypothesis Hsup : bs_supported A0 bs0 bs1.
Definition cinv (A : csr T) : Prop := csr_ok A /\ same_pattern A0 A.
Definition cview (A : csr T) (q : nat * nat) : T := dense zero A (fst q) (snd q).
Definition cval (I J : nat) (v : T) (q : nat * nat) : T := if (I =? fst q) && (J =? snd q) then v else zero.
Notation cadds := (adds add cinv cview (fun _ => True)).
Definition crow (d : nat) : Prop := row_in A0 bs0 d.
Definition cpair (r c : nat) : Prop := pair_in A0 bs0 bs1 r c.

Lemma sum_if_concat (f : nat -> bool) (g : nat -> T) l : sum zero add (concat (map (fun b => if f b then [g b] else []) l)) = sum zero add (map (fun b => if f b then g b else zero) l).
Proof. induction l as [|b l IH]; [reflexivity|]. cbn [map concat]. rewrite (sum_app zero add add_0_l add_assoc), IH, sum_cons. destruct (f b); cbn [sum fold_right]; [now rewrite (add_0_r zero add)|reflexivity]. Qed.
Lemma sum_concat_map {X} (h : X -> list T) l : sum zero add (concat (map h l)) = sum zero add (map (fun a => sum zero add (h a)) l).
Proof. rewrite (sum_concat zero add add_0_l add_assoc), map_map. reflexivity. Qed.
Lemma mat_add_adds rows cols v : okb crow (fun _ => True) cpair rows cols -> length v = bs0 * length rows * (bs1 * length cols) ->
  cadds (fun A => mat_add add bs0 bs1 A v rows cols) (fun q => bsum zero add bs0 bs1 (fun I J w => cval I J w q) (rows, cols, fun a b => nth (a * (bs1 * length cols) + b) v zero)).
Proof.
  intros (Hr & _ & Hp) Hl A (HA & E0 & E1 & E2 & E3). set (c := mkCall true bs0 bs1 v rows cols).
  assert (Hrow : forall a, a < c_height c -> exists i k, k < bs0 /\ i < length rows /\ a = bs0 * i + k /\ c_row c a = bs0 * nth i rows 0 + k).
  { intros a Ha. unfold c_height in Ha. cbn in Ha. destruct (split_block bs0 (length rows) a ltac:(lia)) as (i & k & Hk & Hi & ->). exists i, k. repeat split; try assumption. unfold c_row. cbn [c_bs0 c_rows c]. pose proof (target_block bs0 rows i k Hk) as Ht. unfold target in Ht. lia. }
  assert (Hcol : forall b, b < c_width c -> exists i k, k < bs1 /\ i < length cols /\ b = bs1 * i + k /\ c_col c b = bs1 * nth i cols 0 + k).
  { intros b Hb. unfold c_width in Hb. cbn in Hb. destruct (split_block bs1 (length cols) b ltac:(lia)) as (i & k & Hk & Hi & ->). exists i, k. repeat split; try assumption. unfold c_col. cbn [c_bs1 c_cols c]. pose proof (target_block bs1 cols i k Hk) as Ht. unfold target in Ht. lia. }
  assert (Hc : forall c0, In c0 [c] -> call_shape A c0 /\ call_inside A c0).
  { intros c0 [<-|[]]. split.
    - unfold call_shape. rewrite E0, E1, E3. repeat split; try assumption.
      + unfold c_height, c_width. cbn. lia.
      + intros a Ha. destruct (Hrow a Ha) as (i & k & Hk & Hi & -> & ->). apply Hr; [now apply nth_In|exact Hk].
    - intros a b Ha Hb. destruct (Hrow a Ha) as (i & k & Hk & Hi & -> & ->). destruct (Hcol b Hb) as (j & l & Hll & Hj & -> & ->). unfold in_pattern. rewrite E0, E1, E2, E3. apply (Hp (nth i rows 0) (nth j cols 0)); try apply nth_In; assumption. }
  destruct (run_calls_ok zero add [c] A HA Hc) as (A' & EA & F0 & F1 & F2 & F3 & HA' & HD). unfold mat_run in EA. cbn [ofold] in EA. unfold mat_call in EA. cbn [c_add c c_bs0 c_bs1 c_x c_rows c_cols] in EA.
  destruct (mat_add add bs0 bs1 A v rows cols) as [A1|] eqn:EA1; [|discriminate]. cbn [obind] in EA. injection EA as ->. exists A'. split; [reflexivity|]. split; [split; [exact HA'|unfold same_pattern; rewrite F0, F1, F2, F3; auto]|].
  intros [I J] _. unfold cview. cbn [fst snd]. rewrite HD. cbn [fold_left]. unfold dense_step. cbn [c_add c]. rewrite (fold_add zero add add_0_l add_comm add_assoc). f_equal.
  unfold contribs. rewrite sum_concat_map. unfold bsum, tsum. unfold c_height, c_width. cbn [c_rows c_cols c_bs0 c_bs1 c_x c]. rewrite (Nat.mul_comm (length rows)), (Nat.mul_comm (length cols)).
  apply sum_ext. intros a _. rewrite sum_if_concat. apply sum_ext. intros b _. unfold cval. cbn [fst snd]. unfold c_row, c_col, target. cbn [c_rows c_cols c_bs0 c_bs1 c]. rewrite (Nat.mul_comm (nth (a / bs0) rows 0)), (Nat.mul_comm (nth (b / bs1) cols 0)). reflexivity.
Qed.
(** Masked sums. *)
Lemma gshare_csr bc0 bc1 bl I J : gshare zero add false bs0 bs1 bc0 bc1 cval bl (I, J) = if marked bc0 I || marked bc1 J then zero else mshare zero add bs0 bs1 bl I J.
Proof.
  unfold gshare, mshare. destruct bl as [[rows cols] f]. destruct (marked bc0 I || marked bc1 J) eqn:E.
  - apply (bsum_zero zero add add_0_l bs0 bs1). intros a b _ _. unfold mval, cval. cbn [fst snd]. destruct (Nat.eqb_spec (target bs0 rows a) I) as [->|]; [|reflexivity]. destruct (Nat.eqb_spec (target bs1 cols b) J) as [->|]; [|reflexivity]. cbn [andb]. rewrite E. reflexivity.
  - apply (bsum_ext zero add bs0 bs1). intros a b _ _. unfold mval, cval. cbn [fst snd]. destruct (Nat.eqb_spec (target bs0 rows a) I) as [->|]; [|reflexivity]. destruct (Nat.eqb_spec (target bs1 cols b) J) as [->|]; [|reflexivity]. cbn [andb]. rewrite E. reflexivity.
Qed.
Lemma gshares_csr bc0 bc1 bls I J : shares zero add (gshare zero add false bs0 bs1 bc0 bc1 cval) bls (I, J) = if marked bc0 I || marked bc1 J then zero else mat_sum zero add bs0 bs1 bls I J.
Proof.
  unfold shares, mat_sum. destruct (marked bc0 I || marked bc1 J) eqn:E.
  - apply (sum_zero zero add add_0_l). intros bl _. rewrite gshare_csr, E. reflexivity.
  - apply sum_ext. intros bl _. rewrite gshare_csr, E. reflexivity.
Qed.
Lemma assemble_csr_ok bc0 bc1 x constants cf (a : @form T U) types bls A :
  (forall ct, In ct types -> type_sizes bs0 bs1 ct) -> kernels_ok a -> form_ok a (length types) ->
  form_mb zero a types x constants cf = Some bls ->
  (forall bl, In bl bls -> (forall r, In r (fst (fst bl)) -> row_in A0 bs0 r /\ (bc0 <> [] -> bs0 * r + bs0 <= length bc0)) /\
     (forall c, In c (snd (fst bl)) -> bc1 <> [] -> bs1 * c + bs1 <= length bc1) /\
     (forall r c, In r (fst (fst bl)) -> In c (snd (fst bl)) -> pair_in A0 bs0 bs1 r c)) ->
  (fm_int a <> [] -> (bc0 <> [] -> bs0 <= length bc0) /\ (bc1 <> [] -> bs1 <= length bc1)) ->
  csr_ok A -> same_pattern A0 A ->
  exists A', assemble_matrix_impl zero (fun A rows cols v => mat_add add bs0 bs1 A v rows cols) false a types x constants cf bc0 bc1 A = Some A' /\ csr_ok A' /\ same_pattern A0 A' /\
    forall I J, dense zero A' I J = add (dense zero A I J) (if marked bc0 I || marked bc1 J then zero else mat_sum zero add bs0 bs1 bls I J).
Proof.
  intros Hct HK HF E Hok H0 HA HS.
  set (okr := fun d => crow d /\ (bc0 <> [] -> bs0 * d + bs0 <= length bc0)). set (okc := fun d => bc1 <> [] -> bs1 * d + bs1 <= length bc1).
  destruct (assemble_matrix_ok (U := U) zero add add_0_l add_comm add_assoc cinv cview (fun _ => True) (fun A rows cols v => mat_add add bs0 bs1 A v rows cols) false bs0 bs1 bc0 bc1 cval okr okc cpair) with (x := x) (constants := constants) (cf := cf) (a := a) (types := types) (bls := bls) (s := A) as (A' & EA & (HA' & HS') & HV).
  - exact Hbs0.
  - exact Hbs1.
  - discriminate.
  - intros rows cols v (K1 & K2 & K3) Hl. apply mat_add_adds; [|exact Hl]. split; [intros d Hd; apply (K1 d Hd)|]. split; [auto|exact K3].
  - intros d (_ & Hd) Hb. now apply Hd.
  - intros d Hd [Hb|Hb]; [now apply Hd|discriminate].
  - exact Hct.
  - exact HK.
  - exact HF.
  - intro Hi. destruct (H0 Hi) as (M0 & M1). split; [intro Hb; rewrite Nat.mul_0_r; now apply M0|intros [Hb|Hb]; [rewrite Nat.mul_0_r; now apply M1|discriminate]].
  - exact E.
  - intros bl Hb. destruct (Hok bl Hb) as (K1 & K2 & K3). split; [intros d Hd; apply (K1 d Hd)|]. split; [exact K2|exact K3].
  - split; assumption.
  - exists A'. split; [exact EA|]. split; [exact HA'|]. split; [exact HS'|]. intros I J. specialize (HV (I, J) Logic.I). unfold cview in HV. cbn [fst snd] in HV. rewrite HV. f_equal. apply gshares_csr.
Qed.
End Csr.
