(** A distributed matrix that is created for a form and assembled. *)
From Coq Require Import Ring.
From Verif Require Import Base BaseProofs Algo AlgoProofs Nbx World IndexMap IndexMapSpec IndexMapProofs VectorOps VectorSpec Sparsity SparsitySpec SparsityProofs
  MatrixCSR MatrixSpec MatrixProofs MatrixDense MatrixPar MatrixParSpec MatrixParProofs PatternMats DirichletBC Assemble AssembleSpec AssembleBC AssembleBcSpec
  AsmSums AsmVector AsmMatrix AsmCsr AsmElement FormPattern FormPatternSpec FormPatternProofs FormPatternBlocks.
Open Scope nat_scope.

Lemma digits bs x k y l : k < bs -> l < bs -> (bs * x + k =? bs * y + l) = (x =? y) && (k =? l).
Proof.
  intros Hk Hl. destruct (Nat.eqb_spec (bs * x + k) (bs * y + l)) as [E|N].
  - destruct (Nat.div_mod_unique bs x y k l Hk Hl E) as (-> & ->). rewrite !Nat.eqb_refl. reflexivity.
  - destruct (Nat.eqb_spec x y) as [->|]; [|reflexivity]. destruct (Nat.eqb_spec k l) as [->|]; [contradiction|reflexivity].
Qed.

Section Shares.
Context {T : Type}.
Variables (zero : T) (add : T -> T -> T).
Hypothesis r0l : forall a, add zero a = a.
Variables (P : nat) (maps : nat -> imap) (q : nat).
Hypothesis Hok : maps_ok P maps.
Hypothesis Hq : q < P.

(** A global dof among the dofs of a block. *)
Lemma target_global bs dofs G k a : (forall d, In d dofs -> exists g, local_to_global (maps q) d = Some g) -> k < bs -> a < bs * length dofs ->
  (target bs (map (to_global (maps q)) dofs) a =? bs * G + k) =
  match index_in G (global_indices (maps q)) with Some i => target bs dofs a =? bs * i + k | None => false end.
Proof.
  intros Hd Hk Ha. destruct (split_block bs (length dofs) a Ha) as (i & j & Hj & Hi & ->). rewrite !target_block by exact Hj. rewrite digits by assumption.
  destruct (nth_error_lt _ _ Hi) as (d & Ed). rewrite (nth_error_nth _ _ 0 (map_nth_error (to_global (maps q)) _ _ Ed)), (nth_error_nth _ _ 0 Ed).
  destruct (Hd d (nth_error_In _ _ Ed)) as (g & Eg). unfold to_global. rewrite Eg.
  destruct (index_in G (global_indices (maps q))) as [l|] eqn:El.
  - rewrite digits by assumption. f_equal. apply (gidx P maps q G l Hok Hq) in El. destruct (Nat.eqb_spec g G) as [->|N].
    + symmetry. apply Nat.eqb_eq. eapply (l2g_inj P maps q); eauto.
    + symmetry. apply Nat.eqb_neq. intros ->. congruence.
  - destruct (Nat.eqb_spec g G) as [->|N]; [|reflexivity]. exfalso. exact (gidx_none P maps q G Hok Hq El d Eg).
Qed.
End Shares.

Section GShare.
Context {T : Type}.
Variables (zero : T) (add : T -> T -> T).
Hypothesis r0l : forall a, add zero a = a.
Variables (P : nat) (maps0 maps1 : nat -> imap) (q bs0 bs1 : nat).
Hypothesis Hok0 : maps_ok P maps0.
Hypothesis Hok1 : maps_ok P maps1.
Hypothesis Hq : q < P.
Lemma share_global (bl : @mblock T) G g k0 k1 : k0 < bs0 -> k1 < bs1 ->
  (forall r, In r (fst (fst bl)) -> exists g, local_to_global (maps0 q) r = Some g) -> (forall c, In c (snd (fst bl)) -> exists g, local_to_global (maps1 q) c = Some g) ->
  mshare zero add bs0 bs1 (global_block (maps0 q) (maps1 q) bl) (bs0 * G + k0) (bs1 * g + k1) =
  match index_in G (global_indices (maps0 q)), index_in g (global_indices (maps1 q)) with
  | Some i, Some c => mshare zero add bs0 bs1 bl (bs0 * i + k0) (bs1 * c + k1)
  | _, _ => zero
  end.
Proof.
  destruct bl as [[rows cols] f]. cbn [fst snd global_block]. intros H0 H1 Hr Hc. unfold mshare, bsum. rewrite !map_length.
  destruct (index_in G (global_indices (maps0 q))) as [i|] eqn:Ei.
  - destruct (index_in g (global_indices (maps1 q))) as [c|] eqn:Ec.
    + apply tsum_ext. intros a Ha. apply tsum_ext. intros b Hb. rewrite (target_global P maps0 q Hok0 Hq bs0 rows G k0 a Hr H0 Ha), Ei, (target_global P maps1 q Hok1 Hq bs1 cols g k1 b Hc H1 Hb), Ec. reflexivity.
    + apply (tsum_zero zero add r0l). intros a Ha. apply (tsum_zero zero add r0l). intros b Hb. rewrite (target_global P maps1 q Hok1 Hq bs1 cols g k1 b Hc H1 Hb), Ec, Bool.andb_false_r. reflexivity.
  - apply (tsum_zero zero add r0l). intros a Ha. apply (tsum_zero zero add r0l). intros b Hb. rewrite (target_global P maps0 q Hok0 Hq bs0 rows G k0 a Hr H0 Ha), Ei. reflexivity.
Qed.
Lemma sum_global (bls : list (@mblock T)) G g k0 k1 : k0 < bs0 -> k1 < bs1 ->
  (forall bl, In bl bls -> (forall r, In r (fst (fst bl)) -> exists g, local_to_global (maps0 q) r = Some g) /\ (forall c, In c (snd (fst bl)) -> exists g, local_to_global (maps1 q) c = Some g)) ->
  mat_sum zero add bs0 bs1 (map (global_block (maps0 q) (maps1 q)) bls) (bs0 * G + k0) (bs1 * g + k1) =
  match index_in G (global_indices (maps0 q)), index_in g (global_indices (maps1 q)) with
  | Some i, Some c => mat_sum zero add bs0 bs1 bls (bs0 * i + k0) (bs1 * c + k1)
  | _, _ => zero
  end.
Proof.
  intros H0 H1 Hl. unfold mat_sum. rewrite map_map.
  assert (E : AssembleSpec.sum zero add (map (fun bl => mshare zero add bs0 bs1 (global_block (maps0 q) (maps1 q) bl) (bs0 * G + k0) (bs1 * g + k1)) bls)
     = AssembleSpec.sum zero add (map (fun bl => match index_in G (global_indices (maps0 q)), index_in g (global_indices (maps1 q)) with
  | Some i, Some c => mshare zero add bs0 bs1 bl (bs0 * i + k0) (bs1 * c + k1)
  | _, _ => zero
  end) bls)).
  { apply sum_ext. intros bl Hb. destruct (Hl bl Hb) as (A & B). now apply share_global. }
  rewrite E. destruct (index_in G _) as [i|]; [destruct (index_in g _) as [c|]|]; [reflexivity|apply (sum_zero zero add r0l); reflexivity|apply (sum_zero zero add r0l); reflexivity].
Qed.
End GShare.

Section Par.
Context {T U : Type}.
Variables (zero one : T) (add mul sub : T -> T -> T) (opp : T -> T).
Hypothesis Rth : ring_theory zero one add mul sub opp eq.
Add Ring Rp : Rth.
Variables (P : nat) (nbx : (nat -> list nat) -> nat -> list nat) (maps0 maps1 : nat -> imap) (bs0 bs1 : nat).
Hypothesis HP : 0 < P.
Hypothesis Hnbx : nbx_oracle P nbx.
Hypothesis Hok0 : maps_ok P maps0.
Hypothesis Hok1 : maps_ok P maps1.
Hypothesis Hbs0 : 0 < bs0.
Hypothesis Hbs1 : 0 < bs1.
Variables (a : nat -> @form T U) (types : nat -> list (@ctype T)).
Hypothesis Hform : forall q, q < P -> form_ok (a q) (length (types q)).
Hypothesis Hcells : forall q, q < P -> cells_exist (a q) (types q).
Hypothesis Hlocal : forall q, q < P -> dofs_local (types q) (maps0 q) (maps1 q).

Definition pats (q : nat) : pattern := match create_sparsity_pattern 2 (a q) (types q) with Some p => p | None => pt_empty end.
Lemma pats_spec q : q < P -> create_sparsity_pattern 2 (a q) (types q) = Some (pats q) /\ pt_final (pats q) = None /\ forall r c, In (r, c) (pt_cache (pats q)) <-> couples (a q) (types q) r c.
Proof. intro Hq. destruct (created (a q) (types q) (Hform q Hq) (Hcells q Hq)) as (p & E & F & I). unfold pats. rewrite E. auto. Qed.
Lemma in_cell_in (dm : celldofs) c d : in_cell dm c d -> exists row, In row (cd_rows dm) /\ In d row.
Proof. intros (row & E & H). exists row. split; [eapply nth_error_In; eauto|exact H]. Qed.
Lemma in_sides_in (dm : celldofs) t d : in_sides dm t d -> exists row, In row (cd_rows dm) /\ In d row.
Proof. intros (c & _ & H). now apply in_cell_in in H. Qed.
Lemma couples_local q r c : q < P -> couples (a q) (types q) r c -> r < size_local (maps0 q) + num_ghosts (maps0 q) /\ c < size_local (maps1 q) + num_ghosts (maps1 q).
Proof.
  intros Hq H. assert (K : exists ct, In ct (types q) /\ (exists row, In row (cd_rows (ct_dm0 ct)) /\ In r row) /\ (exists row, In row (cd_rows (ct_dm1 ct)) /\ In c row)).
  { destruct H as [i ti ct ig c0 c1 Ht Hi Htog K0 K1|i ti ct ig c0 c1 Ht Hi Htog K0 K1|igs i ti ct ig c0 c1 Ht Hg Hi Htog K0 K1]; exists ct; (split; [eapply nth_error_In; eauto|]).
    - split; eapply in_cell_in; eauto.
    - split; eapply in_sides_in; eauto.
    - split; eapply in_cell_in; eauto. }
  destruct K as (ct & Hct & (row & Hrow & Hr) & (col & Hcol & Hc)). destruct (Hlocal q Hq ct Hct) as (L0 & L1). split; [now apply (L0 row)|now apply (L1 col)].
Qed.
Lemma pats_ok : patterns_ok P maps0 maps1 pats.
Proof. intros q Hq. destruct (pats_spec q Hq) as (_ & F & I). split; [exact F|]. intros i c H. apply I in H. now apply couples_local. Qed.

(** The matrices made from the finalised pattern contain all couples. *)
Lemma matrices : exists newp newm (mats : nat -> csr T) offs,
  (forall q, q < P -> sp_finalize P nbx maps0 maps1 pats q = Some (newp q, newm q)) /\ maps_ok P newm /\
  (forall q, q < P -> im_lo (newm q) = im_lo (maps1 q) /\ im_hi (newm q) = im_hi (maps1 q)) /\
  (forall q c, q < P -> c < size_local (maps1 q) + num_ghosts (maps1 q) -> local_to_global (newm q) c = local_to_global (maps1 q) c) /\
  (forall q, q < P -> exists f rows, pt_final (newp q) = Some f /\ csr_compact zero bs0 bs1 (sp_edges f) (sp_offsets f) (sp_offdiag f) = (mats q, offs q) /\
     sp_edges f = concat rows /\ sp_offsets f = psums (map (@length nat) rows) /\ Forall (StronglySorted lt) rows /\ length (sp_offdiag f) = length rows /\ length rows = size_local (maps0 q) + num_ghosts (maps0 q)) /\
  (forall q, q < P -> csr_ok (mats q) /\ mt_bs0 (mats q) = bs0 /\ mt_bs1 (mats q) = bs1 /\ length (mt_rp (mats q)) = S (size_local (maps0 q) + num_ghosts (maps0 q)) /\ forall I J, dense zero (mats q) I J = zero) /\
  (forall q r c, q < P -> couples (a q) (types q) r c -> exists l, slice_at (mt_cols (mats q)) (mt_rp (mats q)) r = Some l /\ In c l).
Proof.
  destruct (finalize_ok P nbx maps0 maps1 pats HP Hnbx Hok0 Hok1 pats_ok) as (newp & newm & Hfin & Hnm & Hall).
  set (built := fun q => match pt_final (newp q) with Some f => csr_compact zero bs0 bs1 (sp_edges f) (sp_offsets f) (sp_offdiag f) | None => (mkCSR 1 1 [] [] [], []) end).
  exists newp, newm, (fun q => fst (built q)), (fun q => snd (built q)).
  assert (Hl2g : forall r c, r < P -> c < size_local (maps1 r) + num_ghosts (maps1 r) -> local_to_global (newm r) c = local_to_global (maps1 r) c).
  { intros r c Hr Hc. destruct (Hall r Hr) as (A & B & (ext & exto & Eg & _) & _).
    unfold local_to_global, size_local. rewrite A, B, Eg. destruct (c <? _) eqn:L; [reflexivity|]. apply nth_error_app1. apply Nat.ltb_ge in L. unfold size_local, num_ghosts in Hc. lia. }
  assert (Hof : forall q, q < P -> of_pattern zero bs0 bs1 (fst (built q)) (snd (built q)) (newp q)).
  { intros q Hq. destruct (Hall q Hq) as (_ & _ & _ & f & Ef & _). exists f. split; [exact Ef|]. unfold built. rewrite Ef. cbn [csr_compact fst snd]. auto 6. }
  destruct (pattern_mats zero P nbx maps0 maps1 pats newp newm bs0 bs1 (fun q => fst (built q)) (fun q => snd (built q)) HP Hnbx Hok0 Hok1 pats_ok Hfin Hbs0 Hbs1 Hof) as (_ & Hmats & _).
  split; [exact Hfin|]. split; [exact Hnm|]. split; [intros q Hq; destruct (Hall q Hq) as (A & B & _); auto|]. split; [exact Hl2g|]. split; [|split].
  - intros q Hq. destruct (Hall q Hq) as (_ & _ & _ & f & Ef & _ & _ & L1 & L2 & (rows & Ee & Eo) & Hs). exists f, rows. split; [exact Ef|]. split; [unfold built; rewrite Ef; destruct (csr_compact _ _ _ _ _ _); reflexivity|].
    split; [exact Ee|]. split; [exact Eo|]. rewrite Eo, psums_length, map_length in L1. injection L1 as L1. split; [|split; [lia|exact L1]].
    apply Forall_forall. intros row Hin. apply In_nth_error in Hin as (i & Hi). pose proof (nth_error_bound _ _ _ Hi) as Lt.
    destruct (proj1 Hs i) as (row' & d & Es & Hss & _); [lia|]. rewrite Ee, Eo, (slice_row rows i Lt) in Es. injection Es as <-. unfold R in Hss. now rewrite (nth_error_nth _ _ [] Hi) in Hss.
  - intros q Hq. destruct (mk_csr _ _ _ _ _ _ Hmats q Hq) as (C & E0 & E1). split; [exact C|]. split; [exact E0|]. split; [exact E1|]. split; [exact (mk_rows _ _ _ _ _ _ Hmats q Hq)|].
    intros I J. unfold built. destruct (Hall q Hq) as (_ & _ & _ & f & Ef & _). rewrite Ef. cbn [csr_compact fst]. apply dense_repeat.
  - intros q r c Hq Hc. destruct (couples_local q r c Hq Hc) as (Lr & Lc). destruct (pats_spec q Hq) as (_ & _ & I). destruct (Hall q Hq) as (_ & _ & _ & f & Ef & _ & _ & _ & _ & _ & Hs).
    destruct (proj1 Hs r Lr) as (row & d & Es & _ & Hin & _). exists row. unfold built. rewrite Ef. cbn [csr_compact fst mt_cols mt_rp]. split; [exact Es|]. apply Hin.
    apply I in Hc. destruct (Nat.ltb_spec r (size_local (maps0 q))) as [L|L]; [|exact Hc].
    destruct (proj2 (l2g_some (maps1 q) (mo_range _ _ Hok1 q Hq) c) Lc) as (g & Eg). exists g, q. split; [rewrite Hl2g by assumption; exact Eg|]. split; [exact Hq|]. exists r, c. split; [exact Hc|]. split; [|exact Eg].
    unfold local_to_global. destruct (Nat.ltb_spec r (size_local (maps0 q))); [reflexivity|lia].
Qed.

(** What is in a row of the finalised pattern. *)
Lemma rows_exact : exists newp newm,
  (forall q, q < P -> sp_finalize P nbx maps0 maps1 pats q = Some (newp q, newm q)) /\
  forall q i, q < P -> i < size_local (maps0 q) + num_ghosts (maps0 q) -> exists f row,
    pt_final (newp q) = Some f /\ slice_at (sp_edges f) (sp_offsets f) i = Some row /\ StronglySorted lt row /\
    (i < size_local (maps0 q) -> forall g, (exists c, In c row /\ local_to_global (newm q) c = Some g) <-> couples_globally P maps0 maps1 a types (im_lo (maps0 q) + i) g) /\
    (size_local (maps0 q) <= i -> forall c, In c row <-> couples (a q) (types q) i c).
Proof.
  destruct (finalize_ok P nbx maps0 maps1 pats HP Hnbx Hok0 Hok1 pats_ok) as (newp & newm & Hfin & Hnm & Hall). exists newp, newm. split; [exact Hfin|].
  intros q i Hq Hi. destruct (Hall q Hq) as (_ & _ & _ & f & Ef & _ & _ & _ & _ & _ & Hs & Hx). destruct (Hs i Hi) as (row & d & Es & Hss & Hin & _). exists f, row. split; [exact Ef|]. split; [exact Es|]. split; [exact Hss|].
  assert (Hins : forall p G g, p < P -> inserted_on maps0 maps1 pats p G g <-> exists i j, couples (a p) (types p) i j /\ local_to_global (maps0 p) i = Some G /\ local_to_global (maps1 p) j = Some g).
  { intros p G g Hp. destruct (pats_spec p Hp) as (_ & _ & I). split; intros (u & v & H & K); exists u, v; (split; [now apply I|exact K]). }
  split.
  - intros L g. apply Nat.ltb_lt in L as L'. rewrite L' in Hin. split.
    + intros (c & Hc & Ec). apply Hin in Hc as (g' & p & Eg & Hp & H). rewrite Ec in Eg. injection Eg as <-. apply (Hins p _ _ Hp) in H as (u & v & H). exists p, u, v. auto.
    + intros (p & u & v & Hp & H). assert (K : inserted_on maps0 maps1 pats p (im_lo (maps0 q) + i) g) by (apply (Hins p _ _ Hp); eauto).
      destruct (Hx i g p L Hp K) as (c & Ec). exists c. split; [|exact Ec]. apply Hin. exists g, p. auto.
  - intros L c. apply Nat.ltb_ge in L as L'. rewrite L' in Hin. rewrite Hin. apply (pats_spec q Hq).
Qed.

Variables (x : nat -> list U) (constants : nat -> list T) (cf : nat -> @coefs T) (bls : nat -> list (@mblock T)).
Hypothesis Hblocks : forall q, q < P -> has_blocks zero bs0 bs1 (a q) (types q) (x q) (constants q) (cf q) (bls q).
Lemma block_local q bl : q < P -> In bl (bls q) -> (forall r, In r (fst (fst bl)) -> r < size_local (maps0 q) + num_ghosts (maps0 q)) /\ (forall c, In c (snd (fst bl)) -> c < size_local (maps1 q) + num_ghosts (maps1 q)) /\
  forall r c, In r (fst (fst bl)) -> In c (snd (fst bl)) -> couples (a q) (types q) r c.
Proof.
  intros Hq Hb. destruct (Hblocks q Hq) as (_ & _ & _ & _ & _ & E). destruct (blocks_in zero (a q) (types q) _ _ _ _ bl E Hb) as (A & B & C). split; [|split; [|exact C]].
  - intros r Hr. destruct (A r Hr) as (ct & row & Hct & Hrow & Hd). now apply (proj1 (Hlocal q Hq ct Hct) row).
  - intros c Hc. destruct (B c Hc) as (ct & row & Hct & Hrow & Hd). now apply (proj2 (Hlocal q Hq ct Hct) row).
Qed.
Lemma block_div b n k : k < b -> (b * n + k) / b = n.
Proof. intro H. symmetry. apply (Nat.div_unique _ b n k); [exact H|reflexivity]. Qed.

Lemma form_fits q (A : csr T) : q < P -> csr_ok A -> mt_bs0 A = bs0 -> mt_bs1 A = bs1 -> length (mt_rp A) = S (size_local (maps0 q) + num_ghosts (maps0 q)) ->
  (forall r c, couples (a q) (types q) r c -> exists l, slice_at (mt_cols A) (mt_rp A) r = Some l /\ In c l) -> fits A bs0 bs1 (bls q).
Proof.
  intros Hq HA E0 E1 EL Hc. split; [exact HA|]. split; [left; auto|]. intros bl r k Hbl Hr Hk. destruct (block_local q bl Hq Hbl) as (B0 & B1 & B2). unfold in_pattern. rewrite E0, E1, block_div by exact Hk. split; [specialize (B0 r Hr); lia|].
  intros c l Hcc Hll. rewrite block_div by exact Hll. apply Hc. now apply B2.
Qed.
(** [fits] does not depend on how the blocks are stored. *)
Lemma expanded_fits q (A B : csr T) bl : fits A bs0 bs1 bl -> mt_bs0 A = bs0 -> csr_ok B -> mt_bs0 B = 1 -> mt_bs1 B = 1 -> length (mt_rp A) = S q -> length (mt_rp B) = S (q * bs0) ->
  (forall I J, in_pattern B I J <-> in_pattern A I J) -> fits B bs0 bs1 bl.
Proof.
  intros (_ & _ & HF) EA HB E0 E1 LA LB Hp. split; [exact HB|]. split; [right; left; auto|]. intros b r k Hb Hr Hk. destruct (HF b r k Hb Hr Hk) as (Lr & Hin). rewrite EA, block_div in Lr by exact Hk. rewrite E0, Nat.div_1_r. split; [rewrite LB; rewrite LA in Lr; nia|].
  intros c l Hc Hl. apply Hp. now apply Hin.
Qed.

(** Both kinds of matrices fit. *)
Lemma created_fits : exists newp newm,
  (forall q, q < P -> create_sparsity_pattern 2 (a q) (types q) = Some (pats q)) /\
  (forall q, q < P -> sp_finalize P nbx maps0 maps1 pats q = Some (newp q, newm q)) /\
  forall q, q < P -> exists f A offs B offs', pt_final (newp q) = Some f /\
    csr_compact zero bs0 bs1 (sp_edges f) (sp_offsets f) (sp_offdiag f) = (A, offs) /\ fits A bs0 bs1 (bls q) /\
    csr_expanded zero bs0 bs1 (sp_edges f) (sp_offsets f) (sp_offdiag f) = Some (B, offs') /\ fits B bs0 bs1 (bls q).
Proof.
  destruct matrices as (newp & newm & mats & offs & Hfin & Hnm & Hrng & Hl2g & Hbuilt & Hcsr & Hcoup). exists newp, newm. split; [intros q Hq; apply (pats_spec q Hq)|]. split; [exact Hfin|].
  intros q Hq. destruct (Hbuilt q Hq) as (f & rows & Ef & Eb & Ee & Eo & Hs & Ld & Lr). destruct (Hcsr q Hq) as (C & E0 & E1 & EL & _).
  destruct (expanded_statement zero bs0 bs1 rows (sp_offdiag f) Hbs0 Hbs1 Hs Ld) as (B & offs' & EB & CB & B0 & B1 & LB & Hp & _). cbv zeta in Hp.
  exists f, (mats q), (offs q), B, offs'. split; [exact Ef|]. split; [exact Eb|].
  assert (HF : fits (mats q) bs0 bs1 (bls q)) by (apply (form_fits q (mats q) Hq C E0 E1 EL); intros r c; now apply Hcoup).
  split; [exact HF|]. rewrite Ee, Eo. split; [exact EB|]. rewrite Ee, Eo in Eb. apply (expanded_fits (length rows) (mats q) B (bls q) HF E0 CB B0 B1).
  - rewrite EL, Lr. reflexivity.
  - exact LB.
  - intros I J. rewrite Hp, Eb. reflexivity.
Qed.

Hypothesis Hnarrow : narrow_columns P maps1.
Lemma assembled V0 V1 dim0 dim1 : exists newp newm (mats mats1 mats2 : nat -> csr T) offs,
  (forall q, q < P -> create_sparsity_pattern 2 (a q) (types q) = Some (pats q)) /\
  (forall q, q < P -> sp_finalize P nbx maps0 maps1 pats q = Some (newp q, newm q)) /\
  (forall q, q < P -> exists f, pt_final (newp q) = Some f /\ csr_compact zero bs0 bs1 (sp_edges f) (sp_offsets f) (sp_offdiag f) = (mats q, offs q)) /\
  (forall q, q < P -> assemble_matrix_bcs zero (fun A rows cols v => mat_add add bs0 bs1 A v rows cols) V0 V1 dim0 dim1 (a q) (types q) (x q) (constants q) (cf q) [] (mats q) = Some (mats1 q)) /\
  (forall q, q < P -> scatter_rev zero add P maps0 newm mats1 q = Some (mats2 q)) /\
  forall q G g k0 k1, q < P -> owns (maps0 q) G -> k0 < bs0 -> k1 < bs1 ->
    entry zero maps0 newm bs0 bs1 mats2 q G g k0 k1 = mat_sum zero add bs0 bs1 (all_blocks P maps0 maps1 bls) (bs0 * G + k0) (bs1 * g + k1).
Proof.
  assert (r0l : forall t, add zero t = t) by (intro; ring). assert (rc : forall s t, add s t = add t s) by (intros; ring). assert (ra : forall s t u, add s (add t u) = add (add s t) u) by (intros; ring).
  destruct matrices as (newp & newm & mats & offs & Hfin & Hnm & Hrng & Hl2g & Hbuilt & Hcsr & Hcoup).
  set (asm := fun q => assemble_matrix_bcs zero (fun A rows cols v => mat_add add bs0 bs1 A v rows cols) V0 V1 dim0 dim1 (a q) (types q) (x q) (constants q) (cf q) [] (mats q)).
  set (mats1 := fun q => match asm q with Some A => A | None => mats q end).
  assert (H1 : forall q, q < P -> asm q = Some (mats1 q) /\ csr_ok (mats1 q) /\ same_pattern (mats q) (mats1 q) /\ forall I J, dense zero (mats1 q) I J = mat_sum zero add bs0 bs1 (bls q) I J).
  { intros q Hq. destruct (Hcsr q Hq) as (C & E0 & E1 & EL & ED).
    pose (d0 := bs0 * (size_local (maps0 q) + num_ghosts (maps0 q)) + bs0). pose (d1 := bs1 * (size_local (maps1 q) + num_ghosts (maps1 q)) + bs1).
    destruct (bcs_matrix_ok zero add r0l rc ra bs0 bs1 (a q) (types q) (x q) (constants q) (cf q) (bls q) V0 V1 d0 d1 [] (mats q) (Hblocks q Hq)) as (A' & EA & CA & PA & DA).
    - split; [|intros _; unfold d0, d1; nia]. intros bl Hb. destruct (block_local q bl Hq Hb) as (B0 & B1 & _). split; [intros r Hr; specialize (B0 r Hr)|intros c Hc; specialize (B1 c Hc)]; unfold d0, d1; nia.
    - apply (form_fits q (mats q) Hq C E0 E1 EL). intros r c. now apply Hcoup.
    - intros b d [].
    - intros b d [].
    - change (asm q = Some A') in EA. unfold mats1. rewrite EA. split; [reflexivity|]. split; [exact CA|]. split; [exact PA|]. intros I J. rewrite DA, ED, r0l. reflexivity. }
  assert (Hof1 : forall q, q < P -> of_pattern zero bs0 bs1 (mats1 q) (offs q) (newp q)).
  { intros q Hq. destruct (Hbuilt q Hq) as (f & rows & Ef & Eb & _). exists f. split; [exact Ef|]. rewrite Eb. destruct (H1 q Hq) as (_ & (_ & _ & _ & L1) & (S0 & S1 & S2 & S3) & _). destruct (Hcsr q Hq) as ((_ & _ & _ & L) & _).
    split; [exact S0|]. split; [exact S1|]. split; [exact S2|]. split; [exact S3|]. split; [|reflexivity]. rewrite L1, L, S0, S1, S2. reflexivity. }
  destruct (pattern_mats zero P nbx maps0 maps1 pats newp newm bs0 bs1 mats1 offs HP Hnbx Hok0 Hok1 pats_ok Hfin Hbs0 Hbs1 Hof1) as (_ & Hmats & _).
  assert (Hnar : narrow_columns P newm) by (intros q Hq; destruct (Hrng q Hq) as (_ & ->); now apply Hnarrow).
  destruct (scatter_rev_statement zero one add mul sub opp Rth P maps0 newm bs0 bs1 mats1 Hok0 Hnm Hnar Hmats) as (mats2 & Hsc & Hent & _).
  exists newp, newm, mats, mats1, mats2, offs. split; [intros q Hq; apply (pats_spec q Hq)|]. split; [exact Hfin|]. split; [intros q Hq; destruct (Hbuilt q Hq) as (f & rows & Ef & Eb & _); eauto|]. split; [intros q Hq; apply (H1 q Hq)|]. split; [intros q Hq; apply (Hsc q Hq)|].
  intros q G g k0 k1 Hq HG H0 Hk1. rewrite (Hent q G g k0 k1 Hq HG H0 Hk1). unfold all_blocks. unfold mat_sum. rewrite concat_map, (sum_concat zero add r0l ra), !map_map.
  unfold total, VectorOps.tsum. change (fold_right add zero ?l) with (AssembleSpec.sum zero add l). apply sum_ext. intros p Hp. apply in_seq in Hp.
  assert (Hp' : p < P) by lia.
  assert (Eg : map (global_block (maps0 p) (maps1 p)) (bls p) = map (global_block (maps0 p) (newm p)) (bls p)).
  { apply map_ext_in. intros [[rows cols] f] Hb. unfold global_block. f_equal. f_equal. apply map_ext_in. intros c Hc. unfold to_global. destruct (block_local p _ Hp' Hb) as (_ & B1 & _). rewrite (Hl2g p c Hp' (B1 c Hc)). reflexivity. }
  rewrite Eg. change (AssembleSpec.sum zero add (map (fun bl => mshare zero add bs0 bs1 bl (bs0 * G + k0) (bs1 * g + k1)) (map (global_block (maps0 p) (newm p)) (bls p)))) with
    (mat_sum zero add bs0 bs1 (map (global_block (maps0 p) (newm p)) (bls p)) (bs0 * G + k0) (bs1 * g + k1)).
  rewrite (sum_global zero add r0l P maps0 newm p bs0 bs1 Hok0 Hnm Hp' (bls p) G g k0 k1 H0 Hk1).
  - unfold entry. destruct (index_in G _) as [i|]; [|reflexivity]. destruct (index_in g _) as [c|]; [|reflexivity]. destruct (H1 p Hp') as (_ & _ & _ & D). rewrite D. rewrite (Nat.mul_comm i), (Nat.mul_comm c). reflexivity.
  - intros bl Hb. destruct (block_local p bl Hp' Hb) as (B0 & B1 & _). split.
    + intros r Hr. apply (l2g_some (maps0 p) (mo_range _ _ Hok0 p Hp')). now apply B0.
    + intros c Hc. rewrite (Hl2g p c Hp' (B1 c Hc)). apply (l2g_some (maps1 p) (mo_range _ _ Hok1 p Hp')). now apply B1.
Qed.
End Par.
