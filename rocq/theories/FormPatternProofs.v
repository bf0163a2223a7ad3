(** Proofs about the sparsity pattern of a form. *)
From Verif Require Import Base BaseProofs Algo MatrixCSR Assemble AssembleSpec AsmVector Sparsity FormPattern FormPatternSpec.
Open Scope nat_scope.

(** A function that adds the entries [R] to a pattern. *)
Definition grows (f : pattern -> option pattern) (R : nat -> nat -> Prop) : Prop :=
  forall p, pt_final p = None -> exists p', f p = Some p' /\ pt_final p' = None /\
    forall r c, In (r, c) (pt_cache p') <-> In (r, c) (pt_cache p) \/ R r c.
Lemma grows_iff f R R' : (forall r c, R r c <-> R' r c) -> grows f R -> grows f R'.
Proof. intros H G p Hp. destruct (G p Hp) as (p' & E & F & I). exists p'. split; [exact E|]. split; [exact F|]. intros r c. rewrite I, H. reflexivity. Qed.
Lemma grows_ext f g R : (forall p, f p = g p) -> grows f R -> grows g R.
Proof. intros H G p Hp. rewrite <- H. now apply G. Qed.
Lemma grows_id : grows Some (fun _ _ => False).
Proof. intros p Hp. exists p. split; [reflexivity|]. split; [exact Hp|]. tauto. Qed.
Lemma grows_bind f g R Q : grows f R -> grows g Q -> grows (fun p => p' <- f p ;; g p') (fun r c => R r c \/ Q r c).
Proof.
  intros F G p Hp. destruct (F p Hp) as (p1 & E1 & F1 & I1). destruct (G p1 F1) as (p2 & E2 & F2 & I2). exists p2. rewrite E1. cbn [obind].
  split; [exact E2|]. split; [exact F2|]. intros r c. rewrite I2, I1. tauto.
Qed.
Lemma grows_ofold {X} (f : pattern -> X -> option pattern) (R : X -> nat -> nat -> Prop) l :
  (forall x, In x l -> grows (fun p => f p x) (R x)) -> grows (ofold f l) (fun r c => exists x, In x l /\ R x r c).
Proof.
  induction l as [|x l IH]; intro H.
  - apply (grows_iff _ (fun _ _ => False)); [|exact grows_id]. intros r c. split; [contradiction|]. intros (x & [] & _).
  - apply (grows_iff _ (fun r c => R x r c \/ exists y, In y l /\ R y r c)).
    + intros r c. split; [intros [K|(y & Hy & K)]; [exists x|exists y]; (split; [|exact K]); [now left|now right]|]. intros (y & [<-|Hy] & K); [now left|right; eauto].
    + apply (grows_bind (fun p => f p x) (ofold f l)); [apply H; now left|apply IH; intros y Hy; apply H; now right].
Qed.
Lemma grows_block rows cols : grows (fun p => sp_insert_block p rows cols) (fun r c => In r rows /\ In c cols).
Proof.
  intros p Hp. unfold sp_insert_block. rewrite Hp. eexists. split; [reflexivity|]. split; [reflexivity|]. intros r c. cbn [pt_cache]. rewrite in_app_iff, in_concat. apply or_iff_compat_l. split.
  - intros (l & Hl & Hi). apply in_map_iff in Hl as (r' & <- & Hr). apply in_map_iff in Hi as (c' & E & Hc). injection E as -> ->. auto.
  - intros (Hr & Hc). exists (map (pair r) cols). split; [apply (in_map (fun row => map (pair row) cols)); exact Hr|now apply in_map].
Qed.

Lemma in_combine_together {A B} (l : list A) (m : list B) u v : In (u, v) (combine l m) <-> together l m u v.
Proof.
  revert m. induction l as [|x l IH]; intros [|y m]; cbn [combine In]; try (split; [contradiction|]; intros ([|k] & H1 & H2); discriminate).
  rewrite IH. split.
  - intros [E|(k & H1 & H2)]; [injection E as -> ->; exists 0; auto|exists (S k); auto].
  - intros ([|k] & H1 & H2); [left; cbn in H1, H2; congruence|right; exists k; auto].
Qed.
Lemma together_in {A B} (l : list A) (m : list B) u v : together l m u v -> In u l /\ In v m.
Proof. intros (k & H1 & H2). split; eapply nth_error_In; eassumption. Qed.

Lemma cells_grow dm0 dm1 cells0 cells1 : length cells0 = length cells1 ->
  (forall c, In c cells0 -> c < length (cd_rows dm0)) -> (forall c, In c cells1 -> c < length (cd_rows dm1)) ->
  grows (sb_cells dm0 dm1 cells0 cells1) (fun r c => exists c0 c1, together cells0 cells1 c0 c1 /\ in_cell dm0 c0 r /\ in_cell dm1 c1 c).
Proof.
  intros L H0 H1. set (step := fun p '(c0, c1) => d0 <- nth_error (cd_rows dm0) c0 ;; d1 <- nth_error (cd_rows dm1) c1 ;; sp_insert_block p d0 d1).
  apply (grows_ext (ofold step (combine cells0 cells1))); [intro p; unfold sb_cells; rewrite L, Nat.eqb_refl; reflexivity|].
  apply (grows_iff _ (fun r c => exists x, In x (combine cells0 cells1) /\ in_cell dm0 (fst x) r /\ in_cell dm1 (snd x) c)).
  - intros r c. split.
    + intros ((c0 & c1) & Hx & K). apply in_combine_together in Hx. exists c0, c1. auto.
    + intros (c0 & c1 & Hx & K). exists (c0, c1). apply in_combine_together in Hx. auto.
  - apply grows_ofold. intros (c0, c1) Hx. apply in_combine_together, together_in in Hx as (K0 & K1). cbn [step fst snd].
    destruct (nth_error_lt _ _ (H0 c0 K0)) as (d0 & E0). destruct (nth_error_lt _ _ (H1 c1 K1)) as (d1 & E1).
    apply (grows_ext (fun p => sp_insert_block p d0 d1)); [intro p; rewrite E0, E1; reflexivity|].
    apply (grows_iff _ (fun r c => In r d0 /\ In c d1)); [|apply grows_block]. intros r c. unfold in_cell. rewrite E0, E1. split.
    + intros (Hr & Hc). split; eexists; eauto.
    + intros ((row & Er & Hr) & (col & Ec & Hc)). injection Er as <-. injection Ec as <-. auto.
Qed.

Lemma opt_dofs_some (dm : celldofs) o : (forall c, o = Some c -> c < length (cd_rows dm)) ->
  exists ds, opt_dofs (cd_rows dm) o = Some ds /\ forall d, In d ds <-> exists c, o = Some c /\ in_cell dm c d.
Proof.
  intro H. destruct o as [c|]; cbn [opt_dofs].
  - destruct (nth_error_lt _ _ (H c eq_refl)) as (ds & E). exists ds. split; [exact E|]. intro d. split.
    + intro Hd. exists c. split; [reflexivity|]. exists ds. auto.
    + intros (c' & Ec & row & Er & Hd). injection Ec as <-. rewrite E in Er. injection Er as <-. exact Hd.
  - exists []. split; [reflexivity|]. intro d. split; [contradiction|]. intros (c & Ec & _). discriminate.
Qed.
Lemma sides_some (dm : celldofs) t : side_ok dm t -> exists d0 d1, opt_dofs (cd_rows dm) (fst t) = Some d0 /\ opt_dofs (cd_rows dm) (snd t) = Some d1 /\
  forall d, in_sides dm t d <-> In d d0 \/ In d d1.
Proof.
  intro H. destruct (opt_dofs_some dm (fst t)) as (d0 & E0 & I0); [intros c Hc; apply H; now left|]. destruct (opt_dofs_some dm (snd t)) as (d1 & E1 & I1); [intros c Hc; apply H; now right|].
  exists d0, d1. split; [exact E0|]. split; [exact E1|]. intro d. rewrite I0, I1. split.
  - intros (c & [Hc|Hc] & K); [left|right]; eauto.
  - intros [(c & Hc & K)|(c & Hc & K)]; exists c; auto.
Qed.
Lemma facets_grow dm0 dm1 cells0 cells1 : length cells0 = length cells1 ->
  (forall t, In t cells0 -> side_ok dm0 t) -> (forall t, In t cells1 -> side_ok dm1 t) ->
  grows (sb_facets dm0 dm1 cells0 cells1) (fun r c => exists t0 t1, together cells0 cells1 t0 t1 /\ in_sides dm0 t0 r /\ in_sides dm1 t1 c).
Proof.
  intros L H0 H1. set (step := fun p '(t0, t1) =>
    d00 <- opt_dofs (cd_rows dm0) (fst t0) ;; d01 <- opt_dofs (cd_rows dm0) (snd t0) ;;
    d10 <- opt_dofs (cd_rows dm1) (fst t1) ;; d11 <- opt_dofs (cd_rows dm1) (snd t1) ;;
    p <- sp_insert_block p d00 d10 ;; p <- sp_insert_block p d00 d11 ;;
    p <- sp_insert_block p d01 d10 ;; sp_insert_block p d01 d11).
  apply (grows_ext (ofold step (combine cells0 cells1))); [intro p; unfold sb_facets; rewrite L, Nat.eqb_refl; reflexivity|].
  apply (grows_iff _ (fun r c => exists x, In x (combine cells0 cells1) /\ in_sides dm0 (fst x) r /\ in_sides dm1 (snd x) c)).
  - intros r c. split.
    + intros ((c0 & c1) & Hx & K). apply in_combine_together in Hx. exists c0, c1. auto.
    + intros (c0 & c1 & Hx & K). exists (c0, c1). apply in_combine_together in Hx. auto.
  - apply grows_ofold. intros (t0, t1) Hx. apply in_combine_together, together_in in Hx as (K0 & K1). cbn [fst snd].
    destruct (sides_some dm0 t0 (H0 t0 K0)) as (d00 & d01 & E00 & E01 & I0). destruct (sides_some dm1 t1 (H1 t1 K1)) as (d10 & d11 & E10 & E11 & I1).
    apply (grows_ext (fun p => p <- sp_insert_block p d00 d10 ;; p <- sp_insert_block p d00 d11 ;; p <- sp_insert_block p d01 d10 ;; sp_insert_block p d01 d11)).
    { intro p. unfold step. rewrite E00, E01, E10, E11. reflexivity. }
    apply (grows_iff _ (fun r c => (In r d00 /\ In c d10) \/ ((In r d00 /\ In c d11) \/ ((In r d01 /\ In c d10) \/ (In r d01 /\ In c d11))))).
    + intros r c. rewrite I0, I1. tauto.
    + apply (grows_bind (fun p => sp_insert_block p d00 d10)); [apply grows_block|].
      apply (grows_bind (fun p => sp_insert_block p d00 d11)); [apply grows_block|].
      apply (grows_bind (fun p => sp_insert_block p d01 d10)); apply grows_block.
Qed.

(** A loop over the integrals of a type. *)
Lemma integrals_grow {X} (body : pattern -> X -> option pattern) (R : X -> nat -> nat -> Prop) (l : list ((nat * nat) * X)) k :
  consecutive l k -> (forall i ig, In ((i, k), ig) l -> grows (fun p => body p ig) (R ig)) ->
  grows (fun p => ofold (fun p i => ig <- get_integral l i k ;; body p ig) (seq 0 (num_integrals l k)) p) (fun r c => exists i ig, In ((i, k), ig) l /\ R ig r c).
Proof.
  intros Hc H. apply (grows_ext (ofold (fun p e => body p (snd e)) (entries l k))).
  { intro p. symmetry. apply (integral_loop (fun p ig _ => body p ig) l k p Hc). }
  assert (He : forall e, In e (entries l k) <-> exists i ig, e = ((i, k), ig) /\ In ((i, k), ig) l).
  { intros ((i, k'), ig). unfold entries. rewrite filter_In. cbn [fst snd]. split.
    - intros (Hi & E). apply Nat.eqb_eq in E as ->. eauto.
    - intros (i' & ig' & E & Hi). injection E as -> -> ->. split; [exact Hi|]. apply Nat.eqb_refl. }
  apply (grows_iff _ (fun r c => exists e, In e (entries l k) /\ R (snd e) r c)).
  - intros r c. split.
    + intros (e & H1 & H2). apply He in H1 as (i & ig & -> & H1). eauto.
    + intros (i & ig & H1 & H2). exists ((i, k), ig). split; [|exact H2]. apply He. eauto.
  - apply (grows_ofold (fun p e => body p (snd e)) (fun e => R (snd e))). intros e H1. apply He in H1 as (i & ig & -> & H1). cbn [snd]. now apply (H i).
Qed.

Section Build.
Context {T U : Type}.
Variables (a : @form T U) (types : list (@ctype T)).
Hypothesis Hform : form_ok a (length types).
Hypothesis Hcells : cells_exist a types.

Definition typed (ti : nat) (ct : @ctype T) (r c : nat) : Prop :=
  (exists i ig, In ((i, ti), ig) (fm_cell a) /\ exists c0 c1, together (ci_cells0 ig) (ci_cells1 ig) c0 c1 /\ in_cell (ct_dm0 ct) c0 r /\ in_cell (ct_dm1 ct) c1 c) \/
  ((exists i ig, In ((i, ti), ig) (fm_int a) /\ exists t0 t1, together (fi_cells0 ig) (fi_cells1 ig) t0 t1 /\ in_sides (ct_dm0 ct) t0 r /\ in_sides (ct_dm1 ct) t1 c) \/
   (exists igs, In igs (fm_ext a) /\ exists i ig, In ((i, ti), ig) igs /\ exists c0 c1, together (ei_cells0 ig) (ei_cells1 ig) c0 c1 /\ in_cell (ct_dm0 ct) c0 r /\ in_cell (ct_dm1 ct) c1 c)).
Lemma couples_typed r c : couples a types r c <-> exists ti ct, nth_error types ti = Some ct /\ typed ti ct r c.
Proof.
  split.
  - intros [i ti ct ig c0 c1 Ht Hi Htog K0 K1|i ti ct ig c0 c1 Ht Hi Htog K0 K1|igs i ti ct ig c0 c1 Ht Hg Hi Htog K0 K1]; exists ti, ct; (split; [exact Ht|]).
    + left. exists i, ig. split; [exact Hi|]. exists c0, c1. auto.
    + right. left. exists i, ig. split; [exact Hi|]. exists c0, c1. auto.
    + right. right. exists igs. split; [exact Hg|]. exists i, ig. split; [exact Hi|]. exists c0, c1. auto.
  - intros (ti & ct & Ht & [(i & ig & Hi & c0 & c1 & Htog & K0 & K1)|[(i & ig & Hi & c0 & c1 & Htog & K0 & K1)|(igs & Hg & i & ig & Hi & c0 & c1 & Htog & K0 & K1)]]).
    + eapply by_cell; eauto.
    + eapply by_facet; eauto.
    + eapply by_entity; eauto.
Qed.

(** Other types than cells only with one cell type. *)
Lemma single ti ct : nth_error types ti = Some ct -> ti = 0 \/ (fm_int a = [] /\ forall igs, In igs (fm_ext a) -> igs = []).
Proof.
  intro H. apply nth_error_bound in H. destruct ti as [|ti]; [now left|]. right. apply Hform. lia.
Qed.
Lemma build_grows : grows (build_sparsity_pattern 2 a types) (couples a types).
Proof.
  unfold build_sparsity_pattern. cbn [Nat.eqb negb].
  apply (grows_iff _ (fun r c => exists x, In x (enum types) /\ typed (fst x) (snd x) r c)).
  - intros r c. rewrite couples_typed. split.
    + intros ((ti, ct) & Hx & K). exists ti, ct. split; [|exact K]. unfold enum in Hx. apply in_combine_together in Hx as (k & H1 & H2). pose proof (nth_error_bound _ _ _ H2) as Lt. rewrite nth_error_seq in H1 by exact Lt. injection H1 as <-. exact H2.
    + intros (ti & ct & Ht & K). exists (ti, ct). split; [|exact K]. unfold enum. apply in_combine_together. exists ti. split; [|exact Ht]. rewrite nth_error_seq by (eapply nth_error_bound; eauto). reflexivity.
  - apply grows_ofold. intros (ti, ct) Hx. cbn [fst snd].
    assert (Ht : nth_error types ti = Some ct). { unfold enum in Hx. apply in_combine_together in Hx as (k & H1 & H2). pose proof (nth_error_bound _ _ _ H2) as Lt. rewrite nth_error_seq in H1 by exact Lt. injection H1 as <-. exact H2. }
    destruct (Hcells ti ct Ht) as (C1 & C2 & C3). destruct Hform as (F1 & F2 & F3 & _).
    apply (grows_bind (fun p => ofold (fun p i => ig <- get_integral (fm_cell a) i ti ;; sb_cells (ct_dm0 ct) (ct_dm1 ct) (ci_cells0 ig) (ci_cells1 ig) p) (seq 0 (num_integrals (fm_cell a) ti)) p)).
    { apply (integrals_grow (fun p ig => sb_cells (ct_dm0 ct) (ct_dm1 ct) (ci_cells0 ig) (ci_cells1 ig) p)
        (fun ig r c => exists c0 c1, together (ci_cells0 ig) (ci_cells1 ig) c0 c1 /\ in_cell (ct_dm0 ct) c0 r /\ in_cell (ct_dm1 ct) c1 c)).
      - apply (F1 ti). eapply nth_error_bound; eauto.
      - intros i ig Hi. destruct (C1 i ig Hi) as (D0 & D1 & D2). now apply cells_grow. }
    apply (grows_bind (fun p => ofold (fun p i => ig <- get_integral (fm_int a) i 0 ;; sb_facets (ct_dm0 ct) (ct_dm1 ct) (fi_cells0 ig) (fi_cells1 ig) p) (seq 0 (num_integrals (fm_int a) ti)) p)).
    { destruct (single ti ct Ht) as [->|(Ei & _)].
      - apply (integrals_grow (fun p ig => sb_facets (ct_dm0 ct) (ct_dm1 ct) (fi_cells0 ig) (fi_cells1 ig) p)
          (fun ig r c => exists t0 t1, together (fi_cells0 ig) (fi_cells1 ig) t0 t1 /\ in_sides (ct_dm0 ct) t0 r /\ in_sides (ct_dm1 ct) t1 c)); [exact F2|].
        intros i ig Hi. destruct (C2 i ig Hi) as (D0 & D1 & D2). now apply facets_grow.
      - rewrite Ei. apply (grows_iff _ (fun _ _ => False)); [intros r c; split; [contradiction|intros (i & ig & [] & _)]|exact grows_id]. }
    apply (grows_ofold _ (fun igs r c => exists i ig, In ((i, ti), ig) igs /\ exists c0 c1, together (ei_cells0 ig) (ei_cells1 ig) c0 c1 /\ in_cell (ct_dm0 ct) c0 r /\ in_cell (ct_dm1 ct) c1 c)).
    intros igs Hg. destruct (single ti ct Ht) as [->|(_ & Ee)].
    + apply (integrals_grow (fun p ig => sb_cells (ct_dm0 ct) (ct_dm1 ct) (ei_cells0 ig) (ei_cells1 ig) p)
          (fun ig r c => exists c0 c1, together (ei_cells0 ig) (ei_cells1 ig) c0 c1 /\ in_cell (ct_dm0 ct) c0 r /\ in_cell (ct_dm1 ct) c1 c)); [now apply F3|].
      intros i ig Hi. destruct (C3 igs i ig Hg Hi) as (D0 & D1 & D2). now apply cells_grow.
    + rewrite (Ee igs Hg). apply (grows_iff _ (fun _ _ => False)); [intros r c; split; [contradiction|intros (i & ig & [] & _)]|exact grows_id].
Qed.
Lemma created : exists p, create_sparsity_pattern 2 a types = Some p /\ pt_final p = None /\ forall r c, In (r, c) (pt_cache p) <-> couples a types r c.
Proof. destruct (build_grows pt_empty eq_refl) as (p & E & F & I). exists p. split; [exact E|]. split; [exact F|]. intros r c. rewrite I. cbn [pt_empty pt_cache In]. tauto. Qed.
End Build.
