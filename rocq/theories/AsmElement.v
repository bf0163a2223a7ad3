(** The blocks that the loops compute are those of the specification. *)
From Coq Require Import Ring.
From Verif Require Import Base BaseProofs Algo MatrixCSR MatrixSpec MatrixProofs DirichletBC Assemble AssembleSpec AsmBlocks AssembleBC AssembleBcSpec AsmSums AsmVector AsmMatrix AsmCsr AsmScalar AsmLift AsmBC AsmSystem.
Open Scope nat_scope.

Section Rel.
Context {B B' : Type}.
Variable R : B -> B' -> Prop.
Lemma omap_rel {X} (f : X -> option (list B)) (g : X -> option (list B')) l :
  (forall a r', In a l -> g a = Some r' -> exists r, f a = Some r /\ Forall2 R r r') ->
  forall m', omap g l = Some m' -> exists m, omap f l = Some m /\ Forall2 R (concat m) (concat m').
Proof.
  induction l as [|a l IH]; intros H m' Em; cbn [omap] in *; [injection Em as <-; exists []; split; [reflexivity|constructor]|].
  destruct (g a) as [r'|] eqn:Eg; [|discriminate]. cbn [obind] in Em. destruct (omap g l) as [t'|] eqn:Et; [|discriminate]. cbn [obind] in Em. injection Em as <-.
  destruct (H a r' (or_introl eq_refl) Eg) as (r & Er & HR). destruct (IH (fun b r0 Hb => H b r0 (or_intror Hb)) t' eq_refl) as (t & E & HT).
  exists (r :: t). rewrite Er, E. cbn [obind concat]. split; [reflexivity|]. now apply Forall2_app.
Qed.
Lemma over_items_rel {X} (f : X -> option (list B)) (g : X -> option (list B')) l :
  (forall a r', In a l -> g a = Some r' -> exists r, f a = Some r /\ Forall2 R r r') ->
  forall m', over_items g l = Some m' -> exists m, over_items f l = Some m /\ Forall2 R m m'.
Proof.
  intros H m' E. unfold over_items in *. destruct (omap g l) as [t'|] eqn:Et; [|discriminate]. cbn [obind] in E. injection E as <-.
  destruct (omap_rel f g l H t' Et) as (t & E & HT). exists (concat t). rewrite E. split; [reflexivity|exact HT].
Qed.
Lemma over_igs_rel {T X} (f : X -> list T -> nat -> option (list B)) (g : X -> list T -> nat -> option (list B')) l cf :
  (forall e flat cs r', In e l -> g (snd e) flat cs = Some r' -> exists r, f (snd e) flat cs = Some r /\ Forall2 R r r') ->
  forall m', over_integrals g l cf = Some m' -> exists m, over_igs f l cf = Some m /\ Forall2 R m m'.
Proof.
  intros H m' E. unfold over_integrals in E. destruct (omap _ l) as [t'|] eqn:Et; [|discriminate]. cbn [obind] in E. injection E as <-. unfold over_igs.
  destruct (omap_rel (fun e => c <- get_coeffs cf (fst (fst e)) ;; f (snd e) (fst c) (snd c)) (fun e => c <- coeffs_of cf (fst (fst e)) ;; g (snd e) (fst c) (snd c)) l) with (m' := t') as (t & E & HT).
  - intros e r' He Er. unfold get_coeffs, coeffs_of in *. destruct (option_map _ _) as [c|]; [|discriminate]. cbn [obind] in *. exact (H e (fst c) (snd c) r' He Er).
  - exact Et.
  - exists (concat t). rewrite E. split; [reflexivity|exact HT].
Qed.
End Rel.

Section El.
Context {T U : Type}.
Variables (zero : T).
Lemma nth_map_seq (f : nat -> T) n a : a < n -> nth a (map f (seq 0 n)) zero = f a.
Proof. intro H. rewrite (nth_indep _ zero (f 0)) by now rewrite map_length, seq_length. rewrite map_nth, seq_nth by exact H. reflexivity. Qed.
Lemma list_nth_eq (l : list T) n off : length l = off + n -> map (fun a => nth (off + a) l zero) (seq 0 n) = skipn off l.
Proof.
  intro H. apply (nth_ext _ _ zero zero); [rewrite map_length, seq_length, skipn_length; lia|]. rewrite map_length, seq_length. intros i Hi. rewrite nth_map_seq by exact Hi.
  rewrite <- (firstn_skipn off l) at 1. rewrite app_nth2; rewrite firstn_length_le by lia; [f_equal; lia|lia].
Qed.
Lemma on_span_nth (l l' : list T) off n f : on_span l off n f = Some l' -> length (f (firstn n (skipn off l))) = n ->
  length l' = length l /\ forall i, nth i l' zero = if (off <=? i) && (i <? off + n) then nth (i - off) (f (firstn n (skipn off l))) zero else nth i l zero.
Proof.
  intros E Hf. unfold on_span in E. destruct (slice l off (off + n)) as [s|] eqn:Es; [|discriminate]. cbn [obind] in E. injection E as <-.
  unfold slice in Es. destruct ((off <=? off + n) && (off + n <=? length l)) eqn:Eb; [|discriminate]. apply andb_prop in Eb as (_ & Eb). apply Nat.leb_le in Eb.
  replace (off + n - off) with n in Es by lia. injection Es as <-. split.
  - rewrite !app_length, Hf, firstn_length_le, skipn_length by lia. lia.
  - intro i. destruct (Nat.leb_spec off i) as [L|L]; cbn [andb].
    + rewrite app_nth2; rewrite firstn_length_le by lia; [|lia]. destruct (Nat.ltb_spec i (off + n)) as [L2|L2].
      * now rewrite app_nth1 by lia.
      * rewrite app_nth2 by lia. rewrite Hf. rewrite <- (firstn_skipn (off + n) l) at 2. rewrite (app_nth2 (firstn (off + n) l)); rewrite firstn_length_le by lia; [f_equal; lia|lia].
    + rewrite app_nth1 by (rewrite firstn_length_le; lia). rewrite <- (firstn_skipn off l) at 2. now rewrite app_nth1 by (rewrite firstn_length_le; lia).
Qed.
Lemma on_span_some (l : list T) off n f : off + n <= length l -> exists l', on_span l off n f = Some l'.
Proof. intro H. unfold on_span, slice. rewrite (proj2 (Nat.leb_le off (off + n))), (proj2 (Nat.leb_le (off + n) _)) by lia. cbn [andb obind]. eexists. reflexivity. Qed.
Lemma part_map (l : list T) off n : off + n <= length l -> firstn n (skipn off l) = map (fun a => nth (off + a) l zero) (seq 0 n).
Proof.
  intro H. apply (nth_ext _ _ zero zero); [rewrite map_length, seq_length, firstn_length, skipn_length; lia|]. rewrite firstn_length, skipn_length. intros i Hi. rewrite nth_map_seq by lia.
  transitivity (nth i (skipn off l) zero).
  - rewrite <- (firstn_skipn n (skipn off l)) at 2. now rewrite app_nth1 by (rewrite firstn_length, skipn_length; lia).
  - rewrite <- (firstn_skipn off l) at 2. rewrite app_nth2; rewrite firstn_length_le by lia; [f_equal; lia|lia].
Qed.

(** ** Vectors *)
Definition vbeq (bs : nat) (bl bl' : @vblock T) : Prop := fst bl = fst bl' /\ forall a, a < bs * length (fst bl) -> snd bl a = snd bl' a.
Definition mbeq (bs0 bs1 : nat) (bl bl' : @mblock T) : Prop :=
  fst bl = fst bl' /\ forall a b, a < bs0 * length (fst (fst bl)) -> b < bs1 * length (snd (fst bl)) -> snd bl a b = snd bl' a b.

Variables (bs0 bs1 : nat) (ct : @ctype T) (x : list U) (constants : list T).
Hypothesis Hct : type_ok zero bs0 bs1 ct.
Let n0 := cd_bs (ct_dm0 ct) * cd_width (ct_dm0 ct).
Let n1 := cd_bs (ct_dm1 ct) * cd_width (ct_dm1 ct).
Lemma n0_eq : n0 = bs0 * cd_width (ct_dm0 ct). Proof. unfold n0. now rewrite (proj1 (proj1 Hct)). Qed.
Lemma n1_eq : n1 = bs1 * cd_width (ct_dm1 ct). Proof. unfold n1. now rewrite (proj1 (proj2 (proj1 Hct))). Qed.
Lemma act0 : on_columns zero n0 (ct_P0 ct). Proof. rewrite n0_eq. exact (proj1 (proj2 Hct)). Qed.
Lemma act1 : on_rows zero n1 (ct_P1T ct). Proof. rewrite n1_eq. exact (proj2 (proj2 Hct)). Qed.
Lemma size0 l c n : length (ct_P0 ct l c n) = length l. Proof. exact (proj1 (proj2 (proj2 (proj2 (proj2 (proj1 Hct))))) c n l). Qed.
Lemma size1 l c n : length (ct_P1T ct l c n) = length l. Proof. exact (proj2 (proj2 (proj2 (proj2 (proj2 (proj1 Hct))))) c n l). Qed.
Lemma row0 c dofs : nth_error (cd_rows (ct_dm0 ct)) c = Some dofs -> length dofs = cd_width (ct_dm0 ct).
Proof. intro H. apply (proj1 (proj2 (proj2 (proj1 Hct)))). eapply nth_error_In; eauto. Qed.
Lemma row1 c dofs : nth_error (cd_rows (ct_dm1 ct)) c = Some dofs -> length dofs = cd_width (ct_dm1 ct).
Proof. intro H. apply (proj1 (proj2 (proj2 (proj2 (proj1 Hct))))). eapply nth_error_In; eauto. Qed.

Section Kernel.
Variable kernel : list T -> list T -> list T -> list U -> list nat -> list nat -> list T.
Hypothesis Hk : forall co cst cd en p, keeps_size (fun l => kernel l co cst cd en p).

Lemma elem_vec_rel c co en prm c0 dofs cd : points (ct_xd ct) x c = Some cd -> nth_error (cd_rows (ct_dm0 ct)) c0 = Some dofs ->
  exists be, elem_vector zero n0 (ct_P0 ct) kernel constants (ct_xd ct) x c co en prm c0 = Some be /\
    Forall2 (vbeq bs0) [(dofs, fun a => nth a be zero)] [(dofs, vec_part zero (ct_P0 ct) n0 (kernel (repeat zero n0) co constants cd en prm) 0 (Some c0))].
Proof.
  intros Ec Ed. unfold elem_vector, coords. unfold points in Ec. rewrite Ec. cbn [obind]. eexists. split; [reflexivity|]. constructor; [|constructor]. split; [reflexivity|]. intros a _. cbn [fst snd vec_part].
  rewrite list_nth_eq by (cbn; rewrite (Hk _ _ _ _ _ _), repeat_length; reflexivity). reflexivity.
Qed.
Lemma dofs_len0 c d a : dofs_of (cd_rows (ct_dm0 ct)) c = Some d -> a < bs0 * length d -> exists c', c = Some c' /\ a < n0.
Proof. destruct c as [c|]; cbn [dofs_of]; intros E Ha; [|injection E as <-; cbn in Ha; lia]. exists c. split; [reflexivity|]. rewrite (row0 _ _ E) in Ha. now rewrite n0_eq. Qed.
Lemma dofs_len1 c d a : dofs_of (cd_rows (ct_dm1 ct)) c = Some d -> a < bs1 * length d -> exists c', c = Some c' /\ a < n1.
Proof. destruct c as [c|]; cbn [dofs_of]; intros E Ha; [|injection E as <-; cbn in Ha; lia]. exists c. split; [reflexivity|]. rewrite (row1 _ _ E) in Ha. now rewrite n1_eq. Qed.
Lemma raw_len m co cst cd en p : length (kernel (repeat zero m) co cst cd en p) = m.
Proof. rewrite (Hk _ _ _ _ _ _). apply repeat_length. Qed.

Lemma facet_vec_rel ca la cb lb t co d0 d1 cda cdb pa pb :
  dofs_of (cd_rows (ct_dm0 ct)) (fst t) = Some d0 -> dofs_of (cd_rows (ct_dm0 ct)) (snd t) = Some d1 ->
  points (ct_xd ct) x ca = Some cda -> points (ct_xd ct) x cb = Some cdb -> perm_data (ct_perms ct) ca la = Some pa -> perm_data (ct_perms ct) cb lb = Some pb ->
  let raw := kernel (repeat zero (2 * n0)) co constants (cda ++ cdb) [la; lb] [pa; pb] in
  exists be, facet_vector zero (cd_bs (ct_dm0 ct)) (cd_width (ct_dm0 ct)) (ct_P0 ct) kernel constants (ct_xd ct) x (ct_perms ct) ((ca, la), (cb, lb)) co t = Some be /\
    Forall2 (vbeq bs0) [(d0, fun a => nth a be zero); (d1, fun a => nth (n0 + a) be zero)]
      [(d0, vec_part zero (ct_P0 ct) n0 raw 0 (fst t)); (d1, vec_part zero (ct_P0 ct) n0 raw n0 (snd t))].
Proof.
  intros E0 E1 Ea Eb Epa Epb raw. unfold facet_vector, coords. unfold points in Ea, Eb. rewrite Ea. cbn [obind]. rewrite Eb. cbn [obind]. unfold perm_of. unfold perm_data in Epa, Epb. rewrite Epa. cbn [obind]. rewrite Epb. cbn [obind].
  replace (cd_bs (ct_dm0 ct) * 2 * cd_width (ct_dm0 ct)) with (2 * n0) by (unfold n0; lia). fold raw. fold n0.
  assert (Lr : length raw = 2 * n0) by apply raw_len.
  set (be1 := match fst t with Some c => ct_P0 ct raw c 1 | None => raw end).
  assert (L1 : length be1 = 2 * n0) by (unfold be1; destruct (fst t); [rewrite size0|]; exact Lr).
  assert (V1 : forall c a, fst t = Some c -> a < n0 -> nth a be1 zero = vec_part zero (ct_P0 ct) n0 raw 0 (Some c) a).
  { intros c a Ec Ha. unfold be1. rewrite Ec. cbn [vec_part]. pose proof (act0 raw c 1 a 0) as HA. rewrite !Nat.mul_1_r, !Nat.add_0_r in HA. rewrite HA by lia. rewrite (proj2 (Nat.ltb_lt _ _) Ha).
    f_equal. f_equal. apply map_ext. intro i. f_equal. lia. }
  assert (V2 : forall a, nth (n0 + a) be1 zero = nth (n0 + a) raw zero).
  { intros a. destruct (Nat.lt_ge_cases a n0) as [Ha|Ha]; [|now rewrite !nth_overflow by lia]. unfold be1. destruct (fst t) as [c|]; [|reflexivity].
    pose proof (act0 raw c 1 (n0 + a) 0) as HA. rewrite !Nat.mul_1_r, !Nat.add_0_r in HA. rewrite HA by lia. destruct (Nat.ltb_spec (n0 + a) n0); [lia|reflexivity]. }
  destruct (snd t) as [c|] eqn:Et.
  - destruct (on_span_some be1 n0 n0 (fun s => ct_P0 ct s c 1)) as (be & E); [lia|]. exists be. split; [exact E|].
    destruct (on_span_nth _ _ _ _ _ E) as (_ & V); [rewrite size0, firstn_length, skipn_length; lia|].
    constructor; [|constructor; [|constructor]]; (split; [reflexivity|]); cbn [fst snd]; intros a Ha.
    + destruct (dofs_len0 _ _ _ E0 Ha) as (c' & Ec & Ha'). rewrite Ec. rewrite V. destruct (Nat.leb_spec n0 a); [lia|]. cbn [andb]. now apply V1.
    + destruct (dofs_len0 _ _ _ E1 Ha) as (c' & Ec & Ha'). rewrite V. rewrite (proj2 (Nat.leb_le n0 (n0 + a))), (proj2 (Nat.ltb_lt (n0 + a) (n0 + n0))) by lia. cbn [andb vec_part].
      f_equal; [lia|]. f_equal. rewrite part_map by lia. apply map_ext. intro i. apply V2.
  - exists be1. split; [reflexivity|]. constructor; [|constructor; [|constructor]]; (split; [reflexivity|]); cbn [fst snd]; intros a Ha.
    + destruct (dofs_len0 _ _ _ E0 Ha) as (c' & Ec & Ha'). rewrite Ec. now apply V1.
    + destruct (dofs_len0 _ _ _ E1 Ha) as (c' & Ec & Ha'). discriminate.
Qed.

Lemma elem_mat_rel c co en prm c0 c1 dofs0 dofs1 cd : points (ct_xd ct) x c = Some cd -> nth_error (cd_rows (ct_dm0 ct)) c0 = Some dofs0 -> nth_error (cd_rows (ct_dm1 ct)) c1 = Some dofs1 ->
  exists Ae, elem_tensor zero n0 n1 (ct_P0 ct) (ct_P1T ct) kernel constants (ct_xd ct) x c co en prm c0 c1 = Some Ae /\
    Forall2 (mbeq bs0 bs1) [(dofs0, dofs1, fun a b => nth (a * n1 + b) Ae zero)]
      [(dofs0, dofs1, mat_part zero (ct_P0 ct) (ct_P1T ct) n0 n1 n1 (kernel (repeat zero (n0 * n1)) co constants cd en prm) 0 0 (Some c0) (Some c1))].
Proof.
  intros Ec E0 E1. unfold elem_tensor, coords. unfold points in Ec. rewrite Ec. cbn [obind]. eexists. split; [reflexivity|]. constructor; [|constructor]. split; [reflexivity|]. cbn [fst snd mat_part]. intros a b Ha Hb.
  destruct (dofs_len0 (Some c0) dofs0 a E0 Ha) as (_ & _ & Ha'). destruct (dofs_len1 (Some c1) dofs1 b E1 Hb) as (_ & _ & Hb'). set (raw := kernel _ _ _ _ _ _). assert (Lr : length raw = n0 * n1) by apply raw_len.
  rewrite (act1 _ c1 n0 n1 a b) by (try lia; rewrite size0; exact Lr). rewrite (proj2 (Nat.ltb_lt _ _) Hb'). f_equal. f_equal. apply map_ext_in. intros b' Hb0. apply in_seq in Hb0.
  rewrite (act0 raw c0 n1 a b') by (try lia; rewrite Lr; nia). rewrite (proj2 (Nat.ltb_lt _ _) Ha'). reflexivity.
Qed.

(** The loop over the rows of the second trial cell. *)
Lemma row_loop c cols : n1 <= cols -> forall k Ae off, off + n1 <= cols -> k * cols <= length Ae ->
  exists Ae', ofold (fun Ae row => on_span Ae (row * cols + off) n1 (fun s => ct_P1T ct s c 1)) (seq 0 k) Ae = Some Ae' /\ length Ae' = length Ae /\
    forall i j, j < cols -> nth (i * cols + j) Ae' zero =
      if (i <? k) && (off <=? j) && (j <? off + n1) then nth (j - off) (ct_P1T ct (map (fun b => nth (i * cols + (off + b)) Ae zero) (seq 0 n1)) c 1) zero else nth (i * cols + j) Ae zero.
Proof.
  intros Hc k. induction k as [|k IH]; intros Ae off Ho HL.
  - exists Ae. split; [reflexivity|]. split; [reflexivity|]. intros i j _. reflexivity.
  - rewrite seq_S, ofold_app. destruct (IH Ae off Ho ltac:(nia)) as (A1 & E1 & L1 & V1). rewrite E1. cbn [obind ofold plus].
    destruct (on_span_some A1 (k * cols + off) n1 (fun s => ct_P1T ct s c 1)) as (A2 & E2); [nia|]. rewrite E2. cbn [obind]. exists A2. split; [reflexivity|].
    destruct (on_span_nth _ _ _ _ _ E2) as (L2 & V2); [rewrite size1, firstn_length, skipn_length; nia|]. split; [congruence|].
    intros i j Hj. rewrite V2. destruct (Nat.eq_dec i k) as [->|Nk].
    + rewrite (proj2 (Nat.ltb_lt k (S k))) by lia. cbn [andb].
      assert (Eq : (k * cols + off <=? k * cols + j) && (k * cols + j <? k * cols + off + n1) = (off <=? j) && (j <? off + n1)).
      { apply Bool.eq_iff_eq_true. rewrite !andb_true_iff, !Nat.leb_le, !Nat.ltb_lt. lia. }
      rewrite Eq. destruct ((off <=? j) && (j <? off + n1)) eqn:Eb.
      * f_equal; [lia|]. f_equal. rewrite part_map by nia. apply map_ext_in. intros b Hb. apply in_seq in Hb. rewrite <- Nat.add_assoc, V1 by lia. rewrite Nat.ltb_irrefl. reflexivity.
      * rewrite V1 by exact Hj. rewrite Nat.ltb_irrefl. reflexivity.
    + assert (Eq : (k * cols + off <=? i * cols + j) && (i * cols + j <? k * cols + off + n1) = false).
      { destruct (Nat.leb_spec (k * cols + off) (i * cols + j)) as [L|L]; [|reflexivity]. destruct (Nat.ltb_spec (i * cols + j) (k * cols + off + n1)) as [L'|L']; [|reflexivity]. exfalso. destruct (Nat.lt_ge_cases i k); nia. }
      rewrite Eq, V1 by exact Hj. replace (i <? S k) with (i <? k); [reflexivity|]. destruct (Nat.ltb_spec i k), (Nat.ltb_spec i (S k)); try reflexivity; lia.
Qed.

Lemma facet_mat_rel ca la cb lb t0 t1 co d00 d01 d10 d11 cda cdb pa pb :
  dofs_of (cd_rows (ct_dm0 ct)) (fst t0) = Some d00 -> dofs_of (cd_rows (ct_dm0 ct)) (snd t0) = Some d01 ->
  dofs_of (cd_rows (ct_dm1 ct)) (fst t1) = Some d10 -> dofs_of (cd_rows (ct_dm1 ct)) (snd t1) = Some d11 ->
  points (ct_xd ct) x ca = Some cda -> points (ct_xd ct) x cb = Some cdb -> perm_data (ct_perms ct) ca la = Some pa -> perm_data (ct_perms ct) cb lb = Some pb ->
  let part := mat_part zero (ct_P0 ct) (ct_P1T ct) n0 n1 (2 * n1) (kernel (repeat zero (2 * n0 * (2 * n1))) co constants (cda ++ cdb) [la; lb] [pa; pb]) in
  exists Ae, facet_tensor zero (ct_dm0 ct) (ct_dm1 ct) (ct_P0 ct) (ct_P1T ct) kernel constants (ct_xd ct) x (ct_perms ct) ((ca, la), (cb, lb)) co t0 t1 = Some Ae /\
    let at_ := fun i j a b => nth ((i * n0 + a) * (2 * n1) + (j * n1 + b)) Ae zero in
    Forall2 (mbeq bs0 bs1) [(d00, d10, at_ 0 0); (d00, d11, at_ 0 1); (d01, d10, at_ 1 0); (d01, d11, at_ 1 1)]
      [(d00, d10, part 0 0 (fst t0) (fst t1)); (d00, d11, part 0 n1 (fst t0) (snd t1)); (d01, d10, part n0 0 (snd t0) (fst t1)); (d01, d11, part n0 n1 (snd t0) (snd t1))].
Proof.
  intros E00 E01 E10 E11 Ea Eb Epa Epb part. unfold facet_tensor, coords. unfold points in Ea, Eb. rewrite Ea. cbn [obind]. rewrite Eb. cbn [obind]. unfold perm_of. unfold perm_data in Epa, Epb. rewrite Epa. cbn [obind]. rewrite Epb. cbn [obind].
  fold n0 n1. replace (cd_bs (ct_dm0 ct) * 2 * cd_width (ct_dm0 ct)) with (2 * n0) by (unfold n0; lia). replace (cd_bs (ct_dm1 ct) * 2 * cd_width (ct_dm1 ct)) with (2 * n1) by (unfold n1; lia).
  set (raw := kernel _ _ _ _ _ _) in *. assert (Lr : length raw = 2 * n0 * (2 * n1)) by apply raw_len. set (m := 2 * n1) in *.
  set (A1 := match fst t0 with Some c => ct_P0 ct raw c m | None => raw end).
  assert (L1 : length A1 = 2 * n0 * m) by (unfold A1; destruct (fst t0); [rewrite size0|]; exact Lr).
  set (col := fun i c j => ct_P0 ct (map (fun a' => nth ((i * n0 + a') * m + j) raw zero) (seq 0 n0)) c 1).
  assert (V1 : forall c a j, fst t0 = Some c -> a < n0 -> j < m -> nth (a * m + j) A1 zero = nth a (col 0 c j) zero).
  { intros c a j Ec Ha Hj. unfold A1. rewrite Ec. rewrite (act0 raw c m a j) by (try exact Hj; rewrite Lr; nia). rewrite (proj2 (Nat.ltb_lt _ _) Ha). reflexivity. }
  assert (V1' : forall a j, a < n0 -> j < m -> nth ((n0 + a) * m + j) A1 zero = nth ((n0 + a) * m + j) raw zero).
  { intros a j Ha Hj. unfold A1. destruct (fst t0) as [c|]; [|reflexivity]. rewrite (act0 raw c m (n0 + a) j) by (try exact Hj; rewrite Lr; nia). destruct (Nat.ltb_spec (n0 + a) n0); [lia|reflexivity]. }
  assert (S2 : exists A2, match snd t0 with Some c => on_span A1 (n0 * m) (n0 * m) (fun s => ct_P0 ct s c m) | None => Some A1 end = Some A2 /\ length A2 = 2 * n0 * m /\
    (forall c a j, fst t0 = Some c -> a < n0 -> j < m -> nth (a * m + j) A2 zero = nth a (col 0 c j) zero) /\
    (forall c a j, snd t0 = Some c -> a < n0 -> j < m -> nth ((n0 + a) * m + j) A2 zero = nth a (col 1 c j) zero)).
  { destruct (snd t0) as [c|] eqn:Et.
    - destruct (on_span_some A1 (n0 * m) (n0 * m) (fun s => ct_P0 ct s c m)) as (A2 & E); [nia|]. exists A2. split; [exact E|].
      destruct (on_span_nth _ _ _ _ _ E) as (L2 & V); [rewrite size0, firstn_length, skipn_length; nia|]. split; [congruence|]. split.
      + intros c' a j Ec Ha Hj. rewrite V. destruct (Nat.leb_spec (n0 * m) (a * m + j)); [nia|]. cbn [andb]. now apply V1.
      + intros c' a j Ec Ha Hj. injection Ec as <-. rewrite V. rewrite (proj2 (Nat.leb_le (n0 * m) ((n0 + a) * m + j))), (proj2 (Nat.ltb_lt ((n0 + a) * m + j) (n0 * m + n0 * m))) by nia. cbn [andb].
        replace ((n0 + a) * m + j - n0 * m) with (a * m + j) by nia. rewrite part_map by nia. rewrite (act0 _ c m a j) by (try exact Hj; rewrite map_length, seq_length; nia). rewrite (proj2 (Nat.ltb_lt _ _) Ha).
        f_equal. unfold col. f_equal. apply map_ext_in. intros i Hi. apply in_seq in Hi. rewrite nth_map_seq by nia. rewrite Nat.mul_1_l. rewrite <- V1' by lia. f_equal. nia.
    - exists A1. split; [reflexivity|]. split; [exact L1|]. split; [exact V1|]. intros c a j Ec. discriminate. }
  destruct S2 as (A2 & E2 & L2 & V20 & V21). rewrite E2. cbn [obind].
  set (A3 := match fst t1 with Some c => ct_P1T ct A2 c (2 * n0) | None => A2 end).
  assert (L3 : length A3 = 2 * n0 * m) by (unfold A3; destruct (fst t1); [rewrite size1|]; exact L2).
  assert (V30 : forall c i b, fst t1 = Some c -> i < 2 * n0 -> b < n1 -> nth (i * m + b) A3 zero = nth b (ct_P1T ct (map (fun b' => nth (i * m + b') A2 zero) (seq 0 n1)) c 1) zero).
  { intros c i b Ec Hi Hb. unfold A3. rewrite Ec. rewrite (act1 A2 c (2 * n0) m i b) by (try lia; unfold m; lia). rewrite (proj2 (Nat.ltb_lt _ _) Hb). reflexivity. }
  assert (V31 : forall i b, i < 2 * n0 -> b < n1 -> nth (i * m + (n1 + b)) A3 zero = nth (i * m + (n1 + b)) A2 zero).
  { intros i b Hi Hb. unfold A3. destruct (fst t1) as [c|]; [|reflexivity]. rewrite (act1 A2 c (2 * n0) m i (n1 + b)) by (try lia; unfold m; lia). destruct (Nat.ltb_spec (n1 + b) n1); [lia|reflexivity]. }
  assert (S4 : exists A4, match snd t1 with Some c => ofold (fun Ae row => on_span Ae (row * m + n1) n1 (fun s => ct_P1T ct s c 1)) (seq 0 (2 * n0)) A3 | None => Some A3 end = Some A4 /\
    (forall c i b, fst t1 = Some c -> i < 2 * n0 -> b < n1 -> nth (i * m + b) A4 zero = nth b (ct_P1T ct (map (fun b' => nth (i * m + b') A2 zero) (seq 0 n1)) c 1) zero) /\
    (forall c i b, snd t1 = Some c -> i < 2 * n0 -> b < n1 -> nth (i * m + (n1 + b)) A4 zero = nth b (ct_P1T ct (map (fun b' => nth (i * m + (n1 + b')) A2 zero) (seq 0 n1)) c 1) zero)).
  { destruct (snd t1) as [c|] eqn:Et.
    - destruct (row_loop c m ltac:(unfold m; lia) (2 * n0) A3 n1 ltac:(unfold m; lia) ltac:(rewrite L3; lia)) as (A4 & E4 & _ & V4). exists A4. split; [exact E4|]. split.
      + intros c' i b Ec Hi Hb. rewrite V4 by (unfold m; lia). destruct (Nat.leb_spec n1 b); [lia|]. rewrite andb_false_r. cbn [andb]. now apply V30.
      + intros c' i b Ec Hi Hb. injection Ec as <-. rewrite V4 by (unfold m; lia). rewrite (proj2 (Nat.ltb_lt _ _) Hi), (proj2 (Nat.leb_le n1 (n1 + b))), (proj2 (Nat.ltb_lt (n1 + b) (n1 + n1))) by lia. cbn [andb].
        f_equal; [lia|]. f_equal. apply map_ext_in. intros b' Hb'. apply in_seq in Hb'. apply V31; lia.
    - exists A3. split; [reflexivity|]. split; [exact V30|]. intros c i b Ec. discriminate. }
  destruct S4 as (A4 & E4 & V40 & V41). exists A4. split; [exact E4|]. cbv zeta. rewrite !Nat.mul_0_l, !Nat.mul_1_l. cbn [plus].
  constructor; [|constructor; [|constructor; [|constructor; [|constructor]]]]; (split; [reflexivity|]); cbn [fst snd]; intros a b Ha Hb.
  - destruct (dofs_len0 _ _ _ E00 Ha) as (c0 & Ec0 & Ha'). destruct (dofs_len1 _ _ _ E10 Hb) as (c1 & Ec1 & Hb'). unfold part, mat_part. rewrite Ec0, Ec1. rewrite (V40 c1 a b Ec1) by lia. f_equal. f_equal. apply map_ext_in. intros b' H. apply in_seq in H.
    rewrite (V20 c0 a b' Ec0) by (unfold m; lia). reflexivity.
  - destruct (dofs_len0 _ _ _ E00 Ha) as (c0 & Ec0 & Ha'). destruct (dofs_len1 _ _ _ E11 Hb) as (c1 & Ec1 & Hb'). unfold part, mat_part. rewrite Ec0, Ec1. rewrite (V41 c1 a b Ec1) by lia. f_equal. f_equal. apply map_ext_in. intros b' H. apply in_seq in H.
    rewrite (V20 c0 a (n1 + b') Ec0) by (unfold m; lia). reflexivity.
  - destruct (dofs_len0 _ _ _ E01 Ha) as (c0 & Ec0 & Ha'). destruct (dofs_len1 _ _ _ E10 Hb) as (c1 & Ec1 & Hb'). unfold part, mat_part. rewrite Ec0, Ec1. rewrite (V40 c1 (n0 + a) b Ec1) by lia. f_equal. f_equal. apply map_ext_in. intros b' H. apply in_seq in H.
    rewrite (V21 c0 a b' Ec0) by (unfold m; lia). unfold col. rewrite Nat.mul_1_l. reflexivity.
  - destruct (dofs_len0 _ _ _ E01 Ha) as (c0 & Ec0 & Ha'). destruct (dofs_len1 _ _ _ E11 Hb) as (c1 & Ec1 & Hb'). unfold part, mat_part. rewrite Ec0, Ec1. rewrite (V41 c1 (n0 + a) b Ec1) by lia. f_equal. f_equal. apply map_ext_in. intros b' H. apply in_seq in H.
    rewrite (V21 c0 a (n1 + b') Ec0) by (unfold m; lia). unfold col. rewrite Nat.mul_1_l. reflexivity.
Qed.
End Kernel.
End El.

Section Forms.
Context {T U : Type}.
Variables (zero : T) (bs0 bs1 : nat) (x : list U) (constants : list T).

Lemma cell_vb_rel ct ig flat cs bls : type_ok zero bs0 bs1 ct -> (forall co cst cd en p, keeps_size (fun l => ci_kernel ig l co cst cd en p)) ->
  cell_vblocks zero ct x constants ig flat cs = Some bls -> exists b, cell_vb zero ct x constants ig flat cs = Some b /\ Forall2 (vbeq bs0) b bls.
Proof.
  intros Hct Hk. unfold cell_vblocks, cell_vb. match goal with |- context [if ?c then _ else _] => destruct c; [discriminate|] end. apply over_items_rel. intros [[[c c0] z] co] r' _.
  destruct (nth_error _ c0) as [dofs|] eqn:Ed; [|discriminate]. cbn [obind]. destruct (points _ _ c) as [cd|] eqn:Ec; [|discriminate]. cbn [obind]. intros [= <-].
  destruct (elem_vec_rel zero bs0 ct x constants (ci_kernel ig) Hk c co [] [] c0 dofs cd Ec Ed) as (be & E & H). rewrite E. cbn [obind]. eexists. split; [reflexivity|exact H].
Qed.
Lemma ent_vb_rel ct perms ig flat cs bls : type_ok zero bs0 bs1 ct -> (forall co cst cd en p, keeps_size (fun l => ei_kernel ig l co cst cd en p)) ->
  ent_vblocks zero ct x constants perms ig flat cs = Some bls -> exists b, ent_vb zero ct x constants perms ig flat cs = Some b /\ Forall2 (vbeq bs0) b bls.
Proof.
  intros Hct Hk. unfold ent_vblocks, ent_vb. match goal with |- context [if ?c then _ else _] => destruct c; [discriminate|] end. apply over_items_rel. intros [[[[c le] c0] z] co] r' _.
  destruct (nth_error _ c0) as [dofs|] eqn:Ed; [|discriminate]. cbn [obind]. destruct (perm_data perms c le) as [perm|] eqn:Ep; [|discriminate]. cbn [obind]. destruct (points _ _ c) as [cd|] eqn:Ec; [|discriminate]. cbn [obind]. intros [= <-].
  destruct (elem_vec_rel zero bs0 ct x constants (ei_kernel ig) Hk c co [le] [perm] c0 dofs cd Ec Ed) as (be & E & H). unfold perm_data in Ep. unfold perm_of. rewrite Ep. cbn [obind]. rewrite E. cbn [obind]. eexists. split; [reflexivity|exact H].
Qed.
Lemma facet_vb_rel ct ig flat cs bls : type_ok zero bs0 bs1 ct -> (forall co cst cd en p, keeps_size (fun l => fi_kernel ig l co cst cd en p)) ->
  facet_vblocks zero ct x constants ig flat cs = Some bls -> exists b, facet_vb zero ct x constants ig flat cs = Some b /\ Forall2 (vbeq bs0) b bls.
Proof.
  intros Hct Hk. unfold facet_vblocks, facet_vb. match goal with |- context [if ?c then _ else _] => destruct c; [discriminate|] end. apply over_items_rel. intros [[[[[ca la] [cb lb]] t] z] co] r' _.
  destruct (dofs_of _ (fst t)) as [d0|] eqn:E0; [|discriminate]. cbn [obind]. destruct (dofs_of _ (snd t)) as [d1|] eqn:E1; [|discriminate]. cbn [obind].
  destruct (points _ _ ca) as [cda|] eqn:Ea; [|discriminate]. cbn [obind]. destruct (points _ _ cb) as [cdb|] eqn:Eb; [|discriminate]. cbn [obind].
  destruct (perm_data _ ca la) as [pa|] eqn:Epa; [|discriminate]. cbn [obind]. destruct (perm_data _ cb lb) as [pb|] eqn:Epb; [|discriminate]. cbn [obind]. intros [= <-].
  destruct (facet_vec_rel zero bs0 bs1 ct x constants Hct (fi_kernel ig) Hk ca la cb lb t co d0 d1 cda cdb pa pb E0 E1 Ea Eb Epa Epb) as (be & E & H).
  unfold dofs_of in E0, E1. unfold opt_dofs. rewrite E0. cbn [obind]. rewrite E1. cbn [obind]. rewrite E. cbn [obind]. eexists. split; [reflexivity|exact H].
Qed.
Lemma cell_mb_rel ct ig flat cs bls : type_ok zero bs0 bs1 ct -> (forall co cst cd en p, keeps_size (fun l => ci_kernel ig l co cst cd en p)) ->
  cell_mblocks zero ct x constants ig flat cs = Some bls -> exists b, cell_mb zero ct x constants ig flat cs = Some b /\ Forall2 (mbeq bs0 bs1) b bls.
Proof.
  intros Hct Hk. unfold cell_mblocks, cell_mb. match goal with |- context [if ?c then _ else _] => destruct c; [discriminate|] end. apply over_items_rel. intros [[[c c0] c1] co] r' _.
  destruct (nth_error _ c0) as [d0|] eqn:E0; [|discriminate]. cbn [obind]. destruct (nth_error _ c1) as [d1|] eqn:E1; [|discriminate]. cbn [obind]. destruct (points _ _ c) as [cd|] eqn:Ec; [|discriminate]. cbn [obind]. intros [= <-].
  destruct (elem_mat_rel zero bs0 bs1 ct x constants Hct (ci_kernel ig) Hk c co [] [] c0 c1 d0 d1 cd Ec E0 E1) as (be & E & H). rewrite E. cbn [obind]. eexists. split; [reflexivity|exact H].
Qed.
Lemma ent_mb_rel ct perms ig flat cs bls : type_ok zero bs0 bs1 ct -> (forall co cst cd en p, keeps_size (fun l => ei_kernel ig l co cst cd en p)) ->
  ent_mblocks zero ct x constants perms ig flat cs = Some bls -> exists b, ent_mb zero ct x constants perms ig flat cs = Some b /\ Forall2 (mbeq bs0 bs1) b bls.
Proof.
  intros Hct Hk. unfold ent_mblocks, ent_mb. match goal with |- context [if ?c then _ else _] => destruct c; [discriminate|] end. apply over_items_rel. intros [[[[c le] c0] c1] co] r' _.
  destruct (nth_error _ c0) as [d0|] eqn:E0; [|discriminate]. cbn [obind]. destruct (nth_error _ c1) as [d1|] eqn:E1; [|discriminate]. cbn [obind]. destruct (perm_data perms c le) as [perm|] eqn:Ep; [|discriminate]. cbn [obind]. destruct (points _ _ c) as [cd|] eqn:Ec; [|discriminate]. cbn [obind]. intros [= <-].
  destruct (elem_mat_rel zero bs0 bs1 ct x constants Hct (ei_kernel ig) Hk c co [le] [perm] c0 c1 d0 d1 cd Ec E0 E1) as (be & E & H). unfold perm_data in Ep. unfold perm_of. rewrite Ep. cbn [obind]. rewrite E. cbn [obind]. eexists. split; [reflexivity|exact H].
Qed.
Lemma facet_mb_rel ct ig flat cs bls : type_ok zero bs0 bs1 ct -> (forall co cst cd en p, keeps_size (fun l => fi_kernel ig l co cst cd en p)) ->
  facet_mblocks zero ct x constants ig flat cs = Some bls -> exists b, facet_mb zero ct x constants ig flat cs = Some b /\ Forall2 (mbeq bs0 bs1) b bls.
Proof.
  intros Hct Hk. unfold facet_mblocks, facet_mb. match goal with |- context [if ?c then _ else _] => destruct c; [discriminate|] end. apply over_items_rel. intros [[[[[ca la] [cb lb]] t0] t1] co] r' _.
  destruct (dofs_of _ (fst t0)) as [d00|] eqn:E00; [|discriminate]. cbn [obind]. destruct (dofs_of _ (snd t0)) as [d01|] eqn:E01; [|discriminate]. cbn [obind].
  destruct (dofs_of _ (fst t1)) as [d10|] eqn:E10; [|discriminate]. cbn [obind]. destruct (dofs_of _ (snd t1)) as [d11|] eqn:E11; [|discriminate]. cbn [obind].
  destruct (points _ _ ca) as [cda|] eqn:Ea; [|discriminate]. cbn [obind]. destruct (points _ _ cb) as [cdb|] eqn:Eb; [|discriminate]. cbn [obind].
  destruct (perm_data _ ca la) as [pa|] eqn:Epa; [|discriminate]. cbn [obind]. destruct (perm_data _ cb lb) as [pb|] eqn:Epb; [|discriminate]. cbn [obind]. intros [= <-].
  destruct (facet_mat_rel zero bs0 bs1 ct x constants Hct (fi_kernel ig) Hk ca la cb lb t0 t1 co d00 d01 d10 d11 cda cdb pa pb E00 E01 E10 E11 Ea Eb Epa Epb) as (be & E & H).
  unfold dofs_of in E00, E01, E10, E11. unfold opt_dofs. rewrite E00. cbn [obind]. rewrite E01. cbn [obind]. rewrite E10. cbn [obind]. rewrite E11. cbn [obind]. rewrite E. cbn [obind]. eexists. split; [reflexivity|exact H].
Qed.

Lemma ext_rel {B B'} (R : B -> B' -> Prop) (f : nat -> _ -> _ -> option (list B)) (g : nat -> _ -> _ -> option (list B')) (L : @form T U) (cf : @coefs T) bls :
  (forall k igs cfe r', In igs (fm_ext L) -> g k igs cfe = Some r' -> exists r, f k igs cfe = Some r /\ Forall2 R r r') ->
  over_ext g L cf = Some bls -> exists b, over_ext f L cf = Some b /\ Forall2 R b bls.
Proof.
  intros H E. unfold over_ext in *. destruct (omap _ _) as [m'|] eqn:Em; [|discriminate]. cbn [obind] in E. injection E as <-.
  destruct (omap_rel R (fun '(k, igs) => cfe <- nth_error (cf_ext cf) k ;; f k igs cfe) (fun '(k, igs) => cfe <- nth_error (cf_ext cf) k ;; g k igs cfe) (enum (fm_ext L))) with (m' := m') as (m & E & HF); [|exact Em|exists (concat m); rewrite E; split; [reflexivity|exact HF]].
  intros [k igs] r' Hin Er. destruct (nth_error (cf_ext cf) k) as [cfe|]; [|discriminate]. cbn [obind] in *. apply (H k igs cfe r'); [|exact Er]. apply in_enum_nth in Hin. eapply nth_error_In; eauto.
Qed.
Lemma entries_in {X} (l : list ((nat * nat) * X)) k e : In e (entries l k) -> In e l.
Proof. unfold entries. intro H. apply filter_In in H. tauto. Qed.
Lemma type_vb_rel L cf ti ct bls : type_ok zero bs0 bs1 ct -> kernels_ok L -> type_vblocks zero L x constants cf ti ct = Some bls ->
  exists b, type_vb zero L x constants cf ti ct = Some b /\ Forall2 (vbeq bs0) b bls.
Proof.
  intros Hct (Kc & Ki & Ke) E. unfold type_vblocks in E. destruct (over_integrals (cell_vblocks _ _ _ _) _ _) as [bc'|] eqn:Ec; [|discriminate]. cbn [obind] in E.
  destruct (over_integrals (facet_vblocks _ _ _ _) _ _) as [bi'|] eqn:Ei; [|discriminate]. cbn [obind] in E. destruct (over_ext _ _ _) as [be'|] eqn:Ee; [|discriminate]. cbn [obind] in E. injection E as <-. unfold type_vb.
  apply (over_igs_rel (vbeq bs0) (cell_vb zero ct x constants)) in Ec as (b1 & E1 & F1); [|intros e flat cs r' He; apply cell_vb_rel; [exact Hct|apply Kc; eapply entries_in; eauto]].
  apply (over_igs_rel (vbeq bs0) (facet_vb zero ct x constants)) in Ei as (b2 & E2 & F2); [|intros e flat cs r' He; apply facet_vb_rel; [exact Hct|apply Ki; eapply entries_in; eauto]].
  apply (ext_rel (vbeq bs0) (fun k igs cfe => over_igs (ent_vb zero ct x constants (ext_perms ct k)) (entries igs ti) cfe)) in Ee as (b3 & E3 & F3).
  - rewrite E1. cbn [obind]. rewrite E2. cbn [obind]. rewrite E3. cbn [obind]. eexists. split; [reflexivity|]. apply Forall2_app; [exact F1|]. now apply Forall2_app.
  - intros k igs cfe r' Hin. apply over_igs_rel. intros e flat cs r0 He. apply ent_vb_rel; [exact Hct|apply (Ke igs); [exact Hin|eapply entries_in; eauto]].
Qed.
Lemma type_mb_rel L cf ti ct bls : type_ok zero bs0 bs1 ct -> kernels_ok L -> type_mblocks zero L x constants cf ti ct = Some bls ->
  exists b, type_mb zero L x constants cf ti ct = Some b /\ Forall2 (mbeq bs0 bs1) b bls.
Proof.
  intros Hct (Kc & Ki & Ke) E. unfold type_mblocks in E. destruct (over_integrals (cell_mblocks _ _ _ _) _ _) as [bc'|] eqn:Ec; [|discriminate]. cbn [obind] in E.
  destruct (over_integrals (facet_mblocks _ _ _ _) _ _) as [bi'|] eqn:Ei; [|discriminate]. cbn [obind] in E. destruct (over_ext _ _ _) as [be'|] eqn:Ee; [|discriminate]. cbn [obind] in E. injection E as <-. unfold type_mb.
  apply (over_igs_rel (mbeq bs0 bs1) (cell_mb zero ct x constants)) in Ec as (b1 & E1 & F1); [|intros e flat cs r' He; apply cell_mb_rel; [exact Hct|apply Kc; eapply entries_in; eauto]].
  apply (over_igs_rel (mbeq bs0 bs1) (facet_mb zero ct x constants)) in Ei as (b2 & E2 & F2); [|intros e flat cs r' He; apply facet_mb_rel; [exact Hct|apply Ki; eapply entries_in; eauto]].
  apply (ext_rel (mbeq bs0 bs1) (fun k igs cfe => over_igs (ent_mb zero ct x constants (ext_perms ct k)) (entries igs ti) cfe)) in Ee as (b3 & E3 & F3).
  - rewrite E1. cbn [obind]. rewrite E2. cbn [obind]. rewrite E3. cbn [obind]. eexists. split; [reflexivity|]. apply Forall2_app; [exact F1|]. now apply Forall2_app.
  - intros k igs cfe r' Hin. apply over_igs_rel. intros e flat cs r0 He. apply ent_mb_rel; [exact Hct|apply (Ke igs); [exact Hin|eapply entries_in; eauto]].
Qed.
Lemma form_vb_rel L cf types bls : (forall ct, In ct types -> type_ok zero bs0 bs1 ct) -> kernels_ok L -> form_vblocks zero L types x constants cf = Some bls ->
  exists b, form_vb zero L types x constants cf = Some b /\ Forall2 (vbeq bs0) b bls.
Proof.
  intros Hct HK E. unfold form_vblocks in E. destruct (omap _ _) as [m'|] eqn:Em; [|discriminate]. cbn [obind] in E. injection E as <-. unfold form_vb.
  destruct (omap_rel (vbeq bs0) (fun '(ti, ct) => type_vb zero L x constants cf ti ct) (fun '(ti, ct) => type_vblocks zero L x constants cf ti ct) (enum types)) with (m' := m') as (m & E & HF); [|exact Em|exists (concat m); rewrite E; split; [reflexivity|exact HF]].
  intros [ti ct] r' Hin Er. apply type_vb_rel; [|exact HK|exact Er]. apply Hct. apply in_enum_nth in Hin. eapply nth_error_In; eauto.
Qed.
Lemma form_mb_rel L cf types bls : (forall ct, In ct types -> type_ok zero bs0 bs1 ct) -> kernels_ok L -> form_mblocks zero L types x constants cf = Some bls ->
  exists b, form_mb zero L types x constants cf = Some b /\ Forall2 (mbeq bs0 bs1) b bls.
Proof.
  intros Hct HK E. unfold form_mblocks in E. destruct (omap _ _) as [m'|] eqn:Em; [|discriminate]. cbn [obind] in E. injection E as <-. unfold form_mb.
  destruct (omap_rel (mbeq bs0 bs1) (fun '(ti, ct) => type_mb zero L x constants cf ti ct) (fun '(ti, ct) => type_mblocks zero L x constants cf ti ct) (enum types)) with (m' := m') as (m & E & HF); [|exact Em|exists (concat m); rewrite E; split; [reflexivity|exact HF]].
  intros [ti ct] r' Hin Er. apply type_mb_rel; [|exact HK|exact Er]. apply Hct. apply in_enum_nth in Hin. eapply nth_error_In; eauto.
Qed.

(** Related blocks have the same sums and dofs. *)
Variable add : T -> T -> T.
Lemma vbeq_sum b b' q : Forall2 (vbeq bs0) b b' -> vec_sum zero add bs0 b q = vec_sum zero add bs0 b' q.
Proof.
  induction 1 as [|bl bl' b b' (E1 & E2) _ IH]; [reflexivity|]. unfold vec_sum in *. cbn [map sum fold_right]. f_equal; [|exact IH]. unfold vshare. rewrite <- E1. apply tsum_ext. intros a Ha. now rewrite E2.
Qed.
Lemma mbeq_sum b b' I J : Forall2 (mbeq bs0 bs1) b b' -> mat_sum zero add bs0 bs1 b I J = mat_sum zero add bs0 bs1 b' I J.
Proof.
  induction 1 as [|[[r c] f] [[r' c'] f'] b b' (E1 & E2) _ IH]; [reflexivity|]. unfold mat_sum in *. cbn [map sum fold_right]. f_equal; [|exact IH]. cbn [fst snd] in *. injection E1 as <- <-. unfold mshare, bsum. apply tsum_ext. intros i Hi. apply tsum_ext. intros j Hj. now rewrite E2.
Qed.
Lemma vbeq_in b b' bl : Forall2 (vbeq (T := T) bs0) b b' -> In bl b -> exists bl', In bl' b' /\ fst bl = fst bl'.
Proof. induction 1 as [|y y' b b' (E1 & E2) _ IH]; intros []; [subst; exists y'; split; [now left|exact E1]|]. destruct (IH H) as (z & Hz & E). exists z. split; [now right|exact E]. Qed.
Lemma mbeq_in b b' bl : Forall2 (mbeq (T := T) bs0 bs1) b b' -> In bl b -> exists bl', In bl' b' /\ fst bl = fst bl'.
Proof. induction 1 as [|y y' b b' (E1 & E2) _ IH]; intros []; [subst; exists y'; split; [now left|exact E1]|]. destruct (IH H) as (z & Hz & E). exists z. split; [now right|exact E]. Qed.
Lemma dims_rel d0 d1 a b b' : Forall2 (mbeq (T := T) bs0 bs1) b b' -> in_dims bs0 bs1 d0 d1 a b' -> in_dims (U := U) bs0 bs1 d0 d1 a b.
Proof. intros F (H & Hi). split; [|exact Hi]. intros bl Hbl. destruct (mbeq_in _ _ _ F Hbl) as (bl' & Hb' & ->). exact (H bl' Hb'). Qed.
Lemma fits_rel (A : csr T) b b' : Forall2 (mbeq bs0 bs1) b b' -> fits A bs0 bs1 b' -> fits A bs0 bs1 b.
Proof. intros F (H1 & H2 & H). split; [exact H1|]. split; [exact H2|]. intros bl r k Hbl Hr Hk. destruct (mbeq_in _ _ _ F Hbl) as (bl' & Hb' & E). rewrite E in *. exact (H bl' r k Hb' Hr Hk). Qed.
Lemma blocks_rel a types cf bls : has_blocks zero bs0 bs1 a types x constants cf bls -> exists b, has_mb zero bs0 bs1 a types x constants cf b /\ Forall2 (mbeq bs0 bs1) b bls.
Proof.
  intros (H0 & H1 & Hct & HK & HF & E). destruct (form_mb_rel a cf types bls Hct HK E) as (b & Eb & F). exists b. split; [|exact F]. split; [exact H0|]. split; [exact H1|]. split; [intros ct Hin; exact (proj1 (Hct ct Hin))|]. split; [exact HK|]. split; [exact HF|exact Eb].
Qed.
End Forms.

Section Final.
Context {T U : Type}.
Variables (zero : T) (add : T -> T -> T).
Hypothesis r0l : forall a, add zero a = a.
Hypothesis rcomm : forall a b, add a b = add b a.
Hypothesis rassoc : forall a b c, add a (add b c) = add (add a b) c.

Lemma vector_ok bs bs1 (L : @form T U) types x constants cf bls b :
  (forall ct, In ct types -> type_ok zero bs bs1 ct) -> kernels_ok L -> form_ok L (length types) -> form_vblocks zero L types x constants cf = Some bls ->
  (forall bl d, In bl bls -> In d (fst bl) -> bs * d + bs <= length b) ->
  exists b', assemble_vector zero add L types x constants cf b = Some b' /\ length b' = length b /\ forall q, q < length b -> nth q b' zero = add (nth q b zero) (vec_sum zero add bs bls q).
Proof.
  intros Hct HK HF E Hr. destruct (form_vb_rel zero bs bs1 x constants L cf types bls Hct HK E) as (bm & Em & F).
  assert (Hr' : forall bl d, In bl bm -> In d (fst bl) -> bs * d + bs <= length b) by (intros bl d Hbl Hd; destruct (vbeq_in bs _ _ _ F Hbl) as (bl' & Hb' & Eb); rewrite Eb in Hd; exact (Hr bl' d Hb' Hd)).
  destruct (assemble_vector_ok zero add r0l rcomm rassoc (length b) x constants cf bs bs1 L types bm (fun ct Hin => proj1 (Hct ct Hin)) HK HF Em Hr' b eq_refl) as (b' & E' & L' & V).
  exists b'. split; [exact E'|]. split; [exact L'|]. intros q Hq. rewrite (V q Hq). f_equal. now apply vbeq_sum.
Qed.
Lemma bcs_matrix_ok bs0 bs1 (a : @form T U) types x constants cf bls V0 V1 dim0 dim1 bcs A :
  has_blocks zero bs0 bs1 a types x constants cf bls -> in_dims bs0 bs1 dim0 dim1 a bls -> fits A bs0 bs1 bls ->
  (forall b d, In b (on V0 bcs) -> In d (bc_dofs0 b) -> d < dim0) -> (forall b d, In b (on V1 bcs) -> In d (bc_dofs0 b) -> d < dim1) ->
  exists A', assemble_matrix_bcs zero (fun A rows cols v => mat_add add bs0 bs1 A v rows cols) V0 V1 dim0 dim1 a types x constants cf bcs A = Some A' /\
    csr_ok A' /\ same_pattern A A' /\
    forall I J, dense zero A' I J = add (dense zero A I J) (if constrained (on V0 bcs) I || constrained (on V1 bcs) J then zero else mat_sum zero add bs0 bs1 bls I J).
Proof.
  intros HB HD HF H0 H1. destruct (blocks_rel zero bs0 bs1 x constants a types cf bls HB) as (bm & HM & F).
  destruct (assemble_bcs_ok zero add r0l rcomm rassoc bs0 bs1 a types x constants cf bm V0 V1 dim0 dim1 bcs A HM (dims_rel bs0 bs1 _ _ _ _ _ F HD) (fits_rel bs0 bs1 _ _ _ F HF) H0 H1) as (A' & E & C & P & D).
  exists A'. split; [exact E|]. split; [exact C|]. split; [exact P|]. intros I J. rewrite D. f_equal. destruct (_ || _); [reflexivity|]. now apply mbeq_sum.
Qed.
Lemma scalar_ok (M : @form T U) types x constants cf vs :
  functional_ok zero add M (length types) -> form_values zero M types x constants cf = Some vs -> assemble_scalar zero add M types x constants cf = Some (sum zero add vs).
Proof. exact (assemble_scalar_ok (U := U) zero add r0l rcomm rassoc M types x constants cf vs). Qed.
End Final.

Section Systems.
Context {T U : Type}.
Variables (zero one : T) (add mul sub : T -> T -> T) (opp : T -> T).
Hypothesis Rth : ring_theory zero one add mul sub opp eq.
Add Ring Rr : Rth.
Variable eqb : T -> T -> bool.
Hypothesis eqb_ok : forall a b, eqb a b = true <-> a = b.
Lemma lifting_ok n (a : list (option (@lform T U))) (bcs1 : list (list (bc T))) (x0 : list (list T)) alpha blss b :
  length bcs1 = length a -> (x0 = [] \/ length x0 = length a) ->
  (forall j f bcs, nth_error a j = Some (Some f) -> nth_error bcs1 j = Some bcs -> bcs <> [] -> lift_ok zero n f (nth j blss []) bcs (nth j x0 [])) -> length b = n ->
  exists b', apply_lifting zero one mul sub eqb a bcs1 x0 alpha b = Some b' /\ length b' = n /\
    forall q, q < n -> nth q b' zero = sub (nth q b zero) (tsum zero add (length a) (fun j =>
      match nth j a None with
      | Some f => tsum zero add (lf_crange f) (fun J => mul (mat_sum zero add (lf_bs0 f) (lf_bs1 f) (nth j blss []) q J) (increment zero mul sub (nth j bcs1 []) (Some (nth j x0 [])) alpha J))
      | None => zero
      end)).
Proof.
  intros Hl Hx Hok Hb.
  assert (HM : exists bm : list (list mblock), forall j f bcs, nth_error a j = Some (Some f) -> nth_error bcs1 j = Some bcs -> bcs <> [] ->
      lift_mb zero n f (nth j bm []) bcs (nth j x0 []) /\ Forall2 (mbeq (lf_bs0 f) (lf_bs1 f)) (nth j bm []) (nth j blss [])).
  { assert (G : forall k, exists bm : list (list mblock), length bm = k /\ forall j f bcs, j < k -> nth_error a j = Some (Some f) -> nth_error bcs1 j = Some bcs -> bcs <> [] ->
        lift_mb zero n f (nth j bm []) bcs (nth j x0 []) /\ Forall2 (mbeq (lf_bs0 f) (lf_bs1 f)) (nth j bm []) (nth j blss [])).
    { induction k as [|k (bm & Lk & IH)]; [exists []; split; [reflexivity|]; intros; lia|].
      assert (S0 : exists bl : list mblock, forall f bcs, nth_error a k = Some (Some f) -> nth_error bcs1 k = Some bcs -> bcs <> [] ->
          lift_mb zero n f bl bcs (nth k x0 []) /\ Forall2 (mbeq (lf_bs0 f) (lf_bs1 f)) bl (nth k blss [])).
      { destruct (nth_error a k) as [[f|]|] eqn:Ea; try (exists []; intros; discriminate). destruct (nth_error bcs1 k) as [[|b0 bcs]|] eqn:Eb; try (exists []; intros f' bcs' _ E' N'; congruence).
        destruct (Hok k f (b0 :: bcs) Ea Eb ltac:(discriminate)) as (HB & HD & Hb' & Hx'). destruct (blocks_rel zero _ _ _ _ _ _ _ _ HB) as (bl & HM & F). exists bl. intros f' bcs' Ef Eb' _. injection Ef as <-. injection Eb' as <-.
        split; [|exact F]. split; [exact HM|]. split; [exact (dims_rel _ _ _ _ _ _ _ F HD)|]. split; [exact Hb'|exact Hx']. }
      destruct S0 as (bl & Hbl). exists (bm ++ [bl]). split; [rewrite app_length; cbn; lia|]. intros j f bcs Hj. destruct (Nat.eq_dec j k) as [->|Nj].
      - rewrite app_nth2 by lia. replace (k - length bm) with 0 by lia. exact (Hbl f bcs).
      - rewrite app_nth1 by lia. apply IH. lia. }
    destruct (G (length a)) as (bm & _ & H). exists bm. intros j f bcs Ea. apply H; [eapply nth_error_bound; eauto|exact Ea]. }
  destruct HM as (bm & HM).
  destruct (apply_lifting_ok (U := U) zero one add mul sub opp Rth eqb eqb_ok n a bcs1 x0 alpha bm b Hl Hx) as (b' & E & L & V); [intros j f bcs Ea Eb N0; exact (proj1 (HM j f bcs Ea Eb N0))|exact Hb|].
  exists b'. split; [exact E|]. split; [exact L|]. intros q Hq. rewrite (V q Hq). f_equal. apply tsum_ext. intros j Hj. destruct (nth j a None) as [f|] eqn:Ea; [|reflexivity]. unfold lift_term.
  destruct (nth j bcs1 []) as [|b0 bcs] eqn:Eb.
  - apply tsum_ext. intros J _. unfold increment, prescribed. cbn [fold_left]. ring.
  - apply tsum_ext. intros J _. f_equal. apply mbeq_sum. refine (proj2 (HM j f (b0 :: bcs) _ _ _)); [|rewrite <- Eb; apply nth_error_nth'; lia|discriminate].
    rewrite <- Ea. apply nth_error_nth'. exact Hj.
Qed.
Lemma system_spec_ok n bs (a : @form T U) types x constants cf bls V (bcsV : list (sid * bc T)) A0 b0 x0 alpha :
  let bcs := map snd bcsV in
  let lf := mkLf a types x constants cf bs bs n in
  let add_fn := fun A rows cols v => mat_add add bs bs A v rows cols in
  let set_fn := fun A rows cols v => mat_set 1 1 A v rows cols in
  has_blocks zero bs bs a types x constants cf bls -> in_dims bs bs n n a bls -> fits A0 bs bs bls ->
  (forall p, In p bcsV -> contains V (fst p) = true) -> bcs_ok bcs n -> (forall b, In b bcs -> bc_num_owned b = length (bc_dofs0 b)) ->
  (forall d, constrained bcs d = true -> in_pattern A0 d d) ->
  (forall I J, dense zero A0 I J = zero) -> length b0 = n -> long0 x0 n ->
  exists AU A1 A2 b1 b2,
    assemble_matrix_bcs zero add_fn V V n n a types x constants cf [] A0 = Some AU /\
    assemble_matrix_bcs zero add_fn V V n n a types x constants cf bcsV A0 = Some A1 /\
    set_diagonal_bcs set_fn V bcsV one A1 = Some A2 /\
    apply_lifting zero one mul sub eqb [Some lf] [bcs] (match x0 with Some l => [l] | None => [] end) alpha b0 = Some b1 /\
    set_bcs zero mul sub eqb bcs x0 alpha b1 = Some b2 /\ length b2 = n /\
    forall y : nat -> T, (forall I, I < n -> tsum zero add n (fun J => mul (dense zero A2 I J) (y J)) = nth I b2 zero) <->
      (forall I g, prescribed bcs I = Some g -> y I = mul alpha (sub g (at0 zero x0 I))) /\
      (forall I, I < n -> prescribed bcs I = None -> tsum zero add n (fun J => mul (dense zero AU I J) (y J)) = nth I b0 zero).
Proof.
  intros bcs lf add_fn set_fn HB HD HF H1 H2 H3 H4 H5 H6 H7. destruct (blocks_rel zero bs bs x constants a types cf bls HB) as (bm & HM & F).
  exact (system_ok (U := U) zero one add mul sub opp Rth eqb eqb_ok n bs a types x constants cf bm V bcsV A0 b0 x0 alpha HM (dims_rel bs bs _ _ _ _ _ F HD) (fits_rel bs bs _ _ _ F HF) H1 H2 H3 H4 H5 H6 H7).
Qed.
End Systems.
