(** Loops over items and integrals; assembly of vectors. *)
From Verif Require Import Base BaseProofs Algo MatrixCSR MatrixProofs Assemble AssembleSpec AsmBlocks AsmSums.
Open Scope nat_scope.

Lemma ofold_zip {St A B} (f : St -> A -> option St) (g : St -> B -> option St) l1 : forall l2 s, length l1 = length l2 ->
  (forall i a b s, nth_error l1 i = Some a -> nth_error l2 i = Some b -> f s a = g s b) -> ofold f l1 s = ofold g l2 s.
Proof.
  induction l1 as [|a l1 IH]; intros [|b l2] s Hl H; try discriminate; [reflexivity|]. cbn [ofold]. rewrite (H 0 a b s eq_refl eq_refl). destruct (g s b) as [s'|]; [|reflexivity]. cbn [obind]. apply IH; [cbn in Hl; lia|]. intros i. apply (H (S i)).
Qed.
Lemma nth_error_combine2 {A B} (l1 : list A) (l2 : list B) i a b : nth_error (combine l1 l2) i = Some (a, b) <-> nth_error l1 i = Some a /\ nth_error l2 i = Some b.
Proof. revert l2 i. induction l1 as [|x l1 IH]; intros [|y l2] [|i]; cbn; try (split; [discriminate|intros [H1 H2]; discriminate]); [|apply IH]. split; [now intros [= -> ->]|now intros [[= ->] [= ->]]]. Qed.
Lemma enum_len {A} (l : list A) : length (enum l) = length l.
Proof. unfold enum. rewrite combine_length, seq_length. lia. Qed.
Lemma enum_at {A} (l : list A) i j a : nth_error (enum l) i = Some (j, a) -> j = i /\ nth_error l i = Some a.
Proof. unfold enum. intro H. apply nth_error_combine2 in H as (H1 & H2). split; [|exact H2]. pose proof (nth_error_bound _ _ _ H1) as Hb. rewrite seq_length in Hb. rewrite nth_error_seq in H1 by exact Hb. injection H1 as <-. reflexivity. Qed.

Section Items.
Context {T : Type}.
Lemma coeff_rows_at (flat : list T) cs n i co : length flat = n * cs -> nth_error (coeff_rows flat cs n) i = Some co -> coeff_row flat cs i = Some co.
Proof.
  intros Hl H. unfold coeff_rows in H. rewrite nth_error_map in H. destruct (nth_error (seq 0 n) i) as [j|] eqn:E; [|discriminate]. cbn in H. injection H as <-. pose proof (nth_error_bound _ _ _ E) as Hb. rewrite seq_length in Hb. rewrite nth_error_seq in E by exact Hb. injection E as <-. cbn [Nat.add].
  unfold coeff_row, slice. assert (i * cs + cs <= length flat) by (rewrite Hl; nia). rewrite (proj2 (Nat.leb_le _ _)), (proj2 (Nat.leb_le (i * cs + cs) _)) by lia. cbn [andb]. do 2 f_equal. lia.
Qed.
Lemma coeff_rows_len (flat : list T) cs n : length (coeff_rows flat cs n) = n.
Proof. unfold coeff_rows. now rewrite map_length, seq_length. Qed.
Lemma items_len {E A B} (ents : list E) (a0 : list A) (a1 : list B) (flat : list T) cs : length a0 = length ents -> length a1 = length ents -> length (items ents a0 a1 flat cs) = length ents.
Proof. intros H0 H1. unfold items. rewrite !combine_length, coeff_rows_len. lia. Qed.
Lemma items_at {E A B} (ents : list E) (a0 : list A) (a1 : list B) (flat : list T) cs i e a b co : length flat = length ents * cs ->
  nth_error (items ents a0 a1 flat cs) i = Some (e, a, b, co) -> nth_error ents i = Some e /\ nth_error a0 i = Some a /\ nth_error a1 i = Some b /\ coeff_row flat cs i = Some co.
Proof.
  intros Hl H. unfold items in H. apply nth_error_combine2 in H as (H & Hc). apply nth_error_combine2 in H as (H & Hb). apply nth_error_combine2 in H as (He & Ha). pose proof (coeff_rows_at _ _ _ _ _ Hl Hc). auto.
Qed.
Lemma find_consec {X} (f : X -> nat) (g : X -> bool) l : forall s i, map f l = seq s (length l) -> (forall e, In e l -> g e = true) -> s <= i -> find (fun e => (f e =? i) && g e) l = nth_error l (i - s).
Proof.
  induction l as [|e l IH]; intros s i H Hg Hi; cbn [find]; [now rewrite (proj2 (nth_error_None _ _)) by (cbn; lia)|]. cbn [map length seq] in H. injection H as He H. rewrite He, (Hg e) by now left. destruct (Nat.eqb_spec s i) as [->|N].
  - rewrite Nat.sub_diag. reflexivity.
  - cbn [andb]. rewrite (IH (S s) i H) by (try lia; intros; apply Hg; now right). replace (i - s) with (S (i - S s)) by lia. reflexivity.
Qed.
Lemma find_filter {X} (p q : X -> bool) l : (forall e, p e = true -> q e = true) -> find p (filter q l) = find p l.
Proof. intro H. induction l as [|e l IH]; [reflexivity|]. cbn [filter find]. destruct (q e) eqn:Eq; cbn [find]; [now rewrite IH|]. destruct (p e) eqn:Ep; [rewrite (H e Ep) in Eq; discriminate|exact IH]. Qed.
Lemma countb_len {X} (p : X -> bool) l : countb p l = length (filter p l).
Proof. induction l as [|e l IH]; [reflexivity|]. cbn [countb filter]. rewrite IH. destruct (p e); reflexivity. Qed.
Lemma integral_at {X} (l : list ((nat * nat) * X)) k i e : consecutive l k -> nth_error (entries l k) i = Some e -> fst (fst e) = i /\ get_integral l i k = Some (snd e).
Proof.
  intros Hc He. split.
  - pose proof (f_equal (fun m => nth_error m i) Hc) as H. cbn beta in H. rewrite nth_error_map, He in H. cbn in H. rewrite nth_error_seq in H by (eapply nth_error_bound; eauto). injection H as ->. reflexivity.
  - unfold get_integral. rewrite <- (find_filter _ (fun e => snd (fst e) =? k)) by (intros x Hx; apply andb_prop in Hx; tauto). fold (entries l k).
    rewrite (find_consec (fun e => fst (fst e)) (fun e => snd (fst e) =? k) (entries l k) 0 i Hc); [|intros x Hx; apply filter_In in Hx; tauto|lia]. rewrite Nat.sub_0_r, He. reflexivity.
Qed.
(** A loop over the integrals is a loop over the entries of the map. *)
Lemma integral_loop {St X} (body : St -> X -> nat -> option St) l k s : consecutive l k ->
  ofold (fun s i => ig <- get_integral l i k ;; body s ig i) (seq 0 (num_integrals l k)) s = ofold (fun s e => body s (snd e) (fst (fst e))) (entries l k) s.
Proof.
  intro Hc. apply ofold_zip; [rewrite seq_length; apply countb_len|]. intros i j e s' Hj He. assert (j = i) as ->.
  { pose proof (nth_error_bound _ _ _ Hj) as Hb. rewrite seq_length in Hb. rewrite nth_error_seq in Hj by exact Hb. injection Hj as <-. reflexivity. }
  destruct (integral_at l k i e Hc He) as (E1 & E2). rewrite E2, E1. reflexivity.
Qed.
End Items.

Section AddLoops.
Context {T St Q : Type}.
Variables (zero : T) (add : T -> T -> T).
Hypothesis add_0_l : forall a, add zero a = a.
Hypothesis add_comm : forall a b, add a b = add b a.
Hypothesis add_assoc : forall a b c, add a (add b c) = add (add a b) c.
Variables (Inv : St -> Prop) (view : St -> Q -> T) (D : Q -> Prop).
Notation adds := (adds add Inv view D).
Context {B : Type}.
Variable share : B -> Q -> T.
Definition shares (bls : list B) (q : Q) : T := sum zero add (map (fun b => share b q) bls).
Lemma shares_app a b q : shares (a ++ b) q = add (shares a q) (shares b q).
Proof. unfold shares. rewrite map_app. now apply sum_app. Qed.
(** Every element of the loop adds its blocks. *)
Lemma adds_omap {A} (f : St -> A -> option St) (g : A -> option (list B)) l bls : omap g l = Some bls ->
  (forall a bl, In a l -> g a = Some bl -> incl bl (concat bls) -> adds (fun s => f s a) (shares bl)) -> adds (ofold f l) (shares (concat bls)).
Proof.
  revert bls. induction l as [|a l IH]; intros bls E H; cbn [omap] in E.
  - injection E as <-. cbn [ofold]. exact (adds_id zero add add_0_l add_comm _ _ _).
  - destruct (g a) as [bl|] eqn:Ea; [|discriminate]. cbn [obind] in E. destruct (omap g l) as [bls'|] eqn:El; [|discriminate]. cbn [obind] in E. injection E as <-. cbn [ofold concat].
    apply (adds_eq add Inv view D (fun s => s' <- f s a ;; ofold f l s') _ (fun q => add (shares bl q) (shares (concat bls') q))).
    + apply (adds_seq _ add_assoc); [apply H; [now left|exact Ea|cbn [concat]; intros x Hx; apply in_or_app; now left]|]. apply IH; [reflexivity|]. intros a' bl' Ha' E' Hi. apply H; [now right|exact E'|]. cbn [concat]. intros x Hx. apply in_or_app. right. now apply Hi.
    + intros s _. reflexivity.
    + intros q _. apply shares_app.
Qed.
Lemma adds_over {A} (f : St -> A -> option St) (g : A -> option (list B)) l bls : over_items g l = Some bls ->
  (forall a bl, In a l -> g a = Some bl -> incl bl bls -> adds (fun s => f s a) (shares bl)) -> adds (ofold f l) (shares bls).
Proof. unfold over_items. intros E H. destruct (omap g l) as [m|] eqn:Em; [|discriminate]. cbn [obind] in E. injection E as <-. apply (adds_omap f g l m Em). exact H. Qed.
Lemma adds_integrals {X} (body : St -> X -> list T -> nat -> option St) (blocks : X -> list T -> nat -> option (list B)) l k cf bls : consecutive l k ->
  over_igs blocks (entries l k) cf = Some bls ->
  (forall e flat cs bl, In e (entries l k) -> blocks (snd e) flat cs = Some bl -> incl bl bls -> adds (fun s => body s (snd e) flat cs) (shares bl)) ->
  adds (ofold (fun s i => ig <- get_integral l i k ;; '(flat, cs) <- get_coeffs cf i ;; body s ig flat cs) (seq 0 (num_integrals l k))) (shares bls).
Proof.
  unfold over_igs. intros Hc E H. destruct (omap _ _) as [m|] eqn:Em; [|discriminate]. cbn [obind] in E. injection E as <-.
  eapply (adds_eq add Inv view D _ _ _ _ (adds_omap (fun s e => '(flat, cs) <- get_coeffs cf (fst (fst e)) ;; body s (snd e) flat cs) _ _ _ Em _)).
  - intros s _. apply (integral_loop (fun s ig i => '(flat, cs) <- get_coeffs cf i ;; body s ig flat cs) l k s Hc).
  - reflexivity.
  Unshelve.
  intros e bl He Eb Hi. cbv beta in Eb |- *. destruct (get_coeffs cf (fst (fst e))) as [[flat cs]|]; [|discriminate]. cbn [obind fst snd] in *. now apply H.
Qed.
End AddLoops.

Lemma in_enum_nth {A} (l : list A) i a : In (i, a) (enum l) -> nth_error l i = Some a.
Proof. apply in_enum. Qed.
Lemma slice_len {A} (l : list A) a b m : slice l a b = Some m -> length m = b - a.
Proof. unfold slice. destruct (Nat.leb_spec a b); [|discriminate]. destruct (Nat.leb_spec b (length l)); [|discriminate]. cbn [andb]. intros [= <-]. rewrite firstn_length, skipn_length. lia. Qed.
Lemma on_span_len {T} (l : list T) off n f l' : keeps_size f -> on_span l off n f = Some l' -> length l' = length l.
Proof.
  intros Hf. unfold on_span. destruct (slice l off (off + n)) as [s|] eqn:E; [|discriminate]. cbn [obind]. intros [= <-]. pose proof (slice_len _ _ _ _ E) as Es. unfold slice in E. destruct (Nat.leb_spec off (off + n)); [|discriminate]. destruct (Nat.leb_spec (off + n) (length l)); [|discriminate]. rewrite !app_length, firstn_length, skipn_length, Hf, Es. lia.
Qed.

Section VecAsm.
Context {T U : Type}.
Variables (zero : T) (add : T -> T -> T).
Hypothesis add_0_l : forall a, add zero a = a.
Hypothesis add_comm : forall a b, add a b = add b a.
Hypothesis add_assoc : forall a b c, add a (add b c) = add (add a b) c.
Variable n : nat.
Notation vadds := (vadds zero add n).

Lemma add_block_ok bs be off dofs : bs * off + bs * length dofs <= length be -> (forall d, In d dofs -> bs * d + bs <= n) ->
  vadds (add_block add bs be off dofs) (vshare zero add bs (dofs, fun a => nth (bs * off + a) be zero)).
Proof.
  intros Hl Hd. unfold add_block.
  eapply (adds_eq add _ _ _ (ofold (fun b p => ofold (fun b k => v <- nth_error be (bs * (fst p + off) + k) ;; apply_op add b (bs * snd p + k) v) (seq 0 bs) b) (enum dofs)) _
    (fun q => sum zero add (map (fun p => (fun i d => tsum zero add bs (fun k => if bs * d + k =? q then nth (bs * (i + off) + k) be zero else zero)) (fst p) (snd p)) (enum dofs)))).
  - apply (adds_ofold zero add add_0_l add_comm add_assoc). intros [i d] Hin. cbn [fst snd]. apply in_enum_nth in Hin. pose proof (nth_error_bound _ _ _ Hin) as Hb. apply nth_error_In in Hin.
    unfold tsum. apply (adds_ofold zero add add_0_l add_comm add_assoc _ _ _ _ (fun k q => if bs * d + k =? q then nth (bs * (i + off) + k) be zero else zero)). intros k Hk. apply in_seq in Hk.
    assert (Hi : bs * (i + off) + k < length be) by nia. rewrite (nth_error_nth' be zero Hi). cbn [obind]. apply (vadds_op zero add add_0_l add_comm n add); [reflexivity|]. specialize (Hd d Hin). lia.
  - intros b _. apply ofold_ext. intros s [i d] _. reflexivity.
  - intros q _. unfold vshare. cbn [fst snd]. rewrite (tsum_mul zero add add_0_l add_comm add_assoc).
    rewrite (sum_enum zero add dofs 0 (fun i d => tsum zero add bs (fun k => if bs * d + k =? q then nth (bs * (i + off) + k) be zero else zero))).
    apply tsum_ext. intros i Hi. apply tsum_ext. intros k Hk. rewrite target_block by exact Hk. replace (bs * off + (bs * i + k)) with (bs * (i + off) + k) by lia. reflexivity.
Qed.

Section OneType.
Variables (ct : @ctype T) (x : list U) (constants : list T) (bs bs1 : nat).
Hypothesis Hct : type_sizes bs bs1 ct.
Notation dm := (ct_dm0 ct).
Notation w := (cd_width (ct_dm0 ct)).
Notation rows := (cd_rows (ct_dm0 ct)).
Notation in_range bls := (forall bl d, In bl bls -> In d (fst bl) -> bs * d + bs <= n).
Notation vshares := (shares zero add (vshare zero add bs)).

Lemma vshares_one bl q : vshares [bl] q = vshare zero add bs bl q.
Proof. unfold shares. cbn. now apply (add_0_r zero add). Qed.
Lemma elem_vector_len m kernel co ents prm c c0 be : (forall co cst cd en p, keeps_size (fun l => kernel l co cst cd en p)) -> elem_vector (U := U) zero m (ct_P0 ct) kernel constants (ct_xd ct) x c co ents prm c0 = Some be -> length be = m.
Proof.
  intros Hk. unfold elem_vector. destruct (coords (ct_xd ct) x c) as [cd|]; [|discriminate]. cbn [obind]. intros [= <-]. destruct Hct as (_ & _ & _ & _ & HP & _). rewrite HP, Hk. apply repeat_length.
Qed.
Lemma vec_cells_ok ig flat cs bls : (forall co cst cd en p, keeps_size (fun l => ci_kernel ig l co cst cd en p)) -> cell_vb zero ct x constants ig flat cs = Some bls -> in_range bls ->
  vadds (vec_cells zero add bs w rows (ct_P0 ct) (ct_xd ct) x (ci_kernel ig) constants flat cs (ci_cells ig) (ci_cells0 ig)) (vshares bls).
Proof.
  intros Hk E Hr. unfold cell_vb in E. destruct (Nat.eqb_spec (length (ci_cells ig) * cs) (length flat)) as [Hf|]; [|discriminate]. destruct (Nat.eqb_spec (length (ci_cells0 ig)) (length (ci_cells ig))) as [Hl|]; [|discriminate]. cbn [negb orb] in E.
  destruct Hct as (Ebs & _ & Hw & _ & HP & _). rewrite Ebs in E.
  unshelve eapply (adds_eq add _ _ _ _ _ _ _ (adds_over zero add add_0_l add_comm add_assoc _ _ _ (vshare zero add bs)
    (fun b '(c, c0, _, co) => be <- elem_vector zero (bs * w) (ct_P0 ct) (ci_kernel ig) constants (ct_xd ct) x c co [] [] c0 ;; dofs <- nth_error rows c0 ;; add_block add bs be 0 dofs b) _ _ _ E _)).
  - intros [[[c c0] c1] co] bl _ Eb Hi. cbv beta iota in Eb. destruct (nth_error rows c0) as [dofs|] eqn:Ed; [|discriminate]. cbn [obind] in Eb. destruct (elem_vector _ _ _ _ _ _ _ _ _ _ _ _) as [be|] eqn:Ee; [|discriminate]. cbn [obind] in Eb. injection Eb as <-.
    eapply adds_eq; [apply (add_block_ok bs be 0 dofs)| |].
    + rewrite (elem_vector_len _ _ _ _ _ _ _ _ Hk Ee), (Hw dofs) by (eapply nth_error_In; eauto). lia.
    + intros d Hd. eapply Hr; [apply Hi; now left|exact Hd].
    + intros s _. reflexivity.
    + intros q _. rewrite vshares_one, Nat.mul_0_r. reflexivity.
  - intros b _. unfold vec_cells. apply ofold_zip; [now rewrite enum_len, items_len|]. intros i [j c] [[[c' c0] c1] co] s Hi Hit. apply enum_at in Hi as (-> & Hi). apply items_at in Hit as (H1 & H2 & _ & H3); [|lia]. rewrite Hi in H1. injection H1 as ->. rewrite H2. cbn [obind]. rewrite H3. reflexivity.
  - reflexivity.
Qed.
Lemma vec_entities_ok perms ig flat cs bls : (forall co cst cd en p, keeps_size (fun l => ei_kernel ig l co cst cd en p)) -> ent_vb zero ct x constants perms ig flat cs = Some bls -> in_range bls ->
  vadds (vec_entities zero add bs w rows (ct_P0 ct) (ct_xd ct) x (ei_kernel ig) constants flat cs perms (ei_ents ig) (ei_cells0 ig)) (vshares bls).
Proof.
  intros Hk E Hr. unfold ent_vb in E. destruct (Nat.eqb_spec (length (ei_ents ig) * cs) (length flat)) as [Hf|]; [|discriminate]. destruct (Nat.eqb_spec (length (ei_cells0 ig)) (length (ei_ents ig))) as [Hl|]; [|discriminate]. cbn [negb orb] in E.
  destruct Hct as (Ebs & _ & Hw & _ & HP & _). rewrite Ebs in E.
  unshelve eapply (adds_eq add _ _ _ _ _ _ _ (adds_over zero add add_0_l add_comm add_assoc _ _ _ (vshare zero add bs)
    (fun b '((c, le), c0, _, co) => perm <- perm_of perms c le ;; be <- elem_vector zero (bs * w) (ct_P0 ct) (ei_kernel ig) constants (ct_xd ct) x c co [le] [perm] c0 ;; dofs <- nth_error rows c0 ;; add_block add bs be 0 dofs b) _ _ _ E _)).
  - intros [[[[c le] c0] c1] co] bl _ Eb Hi. cbv beta iota in Eb. destruct (nth_error rows c0) as [dofs|] eqn:Ed; [|discriminate]. cbn [obind] in Eb. destruct (perm_of perms c le) as [perm|]; [|discriminate]. cbn [obind] in Eb. destruct (elem_vector _ _ _ _ _ _ _ _ _ _ _ _) as [be|] eqn:Ee; [|discriminate]. cbn [obind] in Eb. injection Eb as <-.
    eapply adds_eq; [apply (add_block_ok bs be 0 dofs)| |].
    + rewrite (elem_vector_len _ _ _ _ _ _ _ _ Hk Ee), (Hw dofs) by (eapply nth_error_In; eauto). lia.
    + intros d Hd. eapply Hr; [apply Hi; now left|exact Hd].
    + intros s _. cbn [obind]. rewrite Ee. reflexivity.
    + intros q _. rewrite vshares_one, Nat.mul_0_r. reflexivity.
  - intros b _. unfold vec_entities. apply ofold_zip; [now rewrite enum_len, items_len|]. intros i [j [c le]] [[[[c' le'] c0] c1] co] s Hi Hit. apply enum_at in Hi as (-> & Hi). apply items_at in Hit as (H1 & H2 & _ & H3); [|lia]. rewrite Hi in H1. injection H1 as -> ->. rewrite H2. cbn [obind]. rewrite H3. reflexivity.
  - reflexivity.
Qed.
Lemma opt_dofs_len c dofs : opt_dofs rows c = Some dofs -> length dofs <= w.
Proof. destruct Hct as (_ & _ & Hw & _). destruct c as [c|]; cbn; [|intros [= <-]; cbn; lia]. intro H. rewrite (Hw dofs) by (eapply nth_error_In; eauto). lia. Qed.
Lemma facet_vector_len kernel co f t be : (forall co cst cd en p, keeps_size (fun l => kernel l co cst cd en p)) -> facet_vector (U := U) zero bs w (ct_P0 ct) kernel constants (ct_xd ct) x (ct_perms ct) f co t = Some be -> length be = bs * 2 * w.
Proof.
  intros Hk. unfold facet_vector. destruct Hct as (_ & _ & _ & _ & HP & _). destruct f as [[ca la] [cb lb]].
  destruct (coords _ _ ca) as [cda|]; [|discriminate]. cbn [obind]. destruct (coords _ _ cb) as [cdb|]; [|discriminate]. cbn [obind]. destruct (perm_of _ ca la) as [pa|]; [|discriminate]. cbn [obind]. destruct (perm_of _ cb lb) as [pb|]; [|discriminate]. cbn [obind].
  set (be0 := kernel _ _ _ _ _ _). assert (H0 : length be0 = bs * 2 * w) by (unfold be0; rewrite Hk; apply repeat_length). cbv zeta. set (be1 := match fst t with Some c => _ | None => _ end).
  assert (H1 : length be1 = bs * 2 * w) by (unfold be1; destruct (fst t); [now rewrite HP|exact H0]). destruct (snd t) as [c|]; intro E; [rewrite (on_span_len _ _ _ _ _ (HP c 1) E); exact H1|]. injection E as <-. exact H1.
Qed.
Lemma vec_facets_ok ig flat cs bls : (forall co cst cd en p, keeps_size (fun l => fi_kernel ig l co cst cd en p)) -> facet_vb zero ct x constants ig flat cs = Some bls -> in_range bls ->
  vadds (vec_facets zero add bs w rows (ct_P0 ct) (ct_xd ct) x (fi_kernel ig) constants flat cs (ct_perms ct) (fi_facets ig) (fi_cells0 ig)) (vshares bls).
Proof.
  intros Hk E Hr. unfold facet_vb in E. destruct (Nat.eqb_spec (length (fi_facets ig) * (2 * cs)) (length flat)) as [Hf|]; [|discriminate]. destruct (Nat.eqb_spec (length (fi_cells0 ig)) (length (fi_facets ig))) as [Hl|]; [|discriminate]. cbn [negb orb] in E.
  pose proof Hct as (Ebs & _ & Hw & _ & HP & _). rewrite Ebs in E.
  unshelve eapply (adds_eq add _ _ _ _ _ _ _ (adds_over zero add add_0_l add_comm add_assoc _ _ _ (vshare zero add bs)
    (fun b '(f, t, _, co) => d0 <- opt_dofs rows (fst t) ;; d1 <- opt_dofs rows (snd t) ;; be <- facet_vector zero bs w (ct_P0 ct) (fi_kernel ig) constants (ct_xd ct) x (ct_perms ct) f co t ;; b <- add_block add bs be 0 d0 b ;; add_block add bs be w d1 b) _ _ _ E _)).
  - intros [[[f t] c1] co] bl _ Eb Hi. cbv beta iota in Eb. destruct (opt_dofs rows (fst t)) as [d0|] eqn:E0; [|discriminate]. cbn [obind] in Eb. destruct (opt_dofs rows (snd t)) as [d1|] eqn:E1; [|discriminate]. cbn [obind] in Eb. destruct (facet_vector _ _ _ _ _ _ _ _ _ _ _ _) as [be|] eqn:Ee; [|discriminate]. cbn [obind] in Eb. injection Eb as <-.
    pose proof (facet_vector_len _ _ _ _ _ Hk Ee) as Hb. pose proof (opt_dofs_len _ _ E0) as L0. pose proof (opt_dofs_len _ _ E1) as L1.
    eapply adds_eq; [apply (adds_seq add add_assoc); [apply (add_block_ok bs be 0 d0)|apply (add_block_ok bs be w d1)]| |].
    + nia.
    + intros d Hd. eapply Hr; [apply Hi; now left|exact Hd].
    + nia.
    + intros d Hd. eapply Hr; [apply Hi; right; now left|exact Hd].
    + intros s _. reflexivity.
    + intros q _. unfold shares. cbn [map]. rewrite !sum_cons. cbn [sum fold_right]. rewrite (add_0_r zero add add_0_l add_comm), Nat.mul_0_r. reflexivity.
  - intros b _. unfold vec_facets. apply ofold_zip; [now rewrite enum_len, items_len|]. intros i [j f] [[[f' t] c1] co] s Hi Hit. apply enum_at in Hi as (-> & Hi). apply items_at in Hit as (H1 & H2 & _ & H3); [|lia]. rewrite Hi in H1. injection H1 as ->. rewrite H2. cbn [obind]. rewrite H3. reflexivity.
  - reflexivity.
Qed.
End OneType.
Lemma by_bs_eq {X} bs (f : nat -> X) : by_bs bs f = f bs.
Proof. unfold by_bs. destruct (Nat.eqb_spec bs 1) as [->|]; [reflexivity|]. destruct (Nat.eqb_spec bs 3) as [->|]; reflexivity. Qed.
Section Top.
Variables (x : list U) (constants : list T) (cf : @coefs T) (bs bs1 : nat).
Notation vshares := (shares zero add (vshare zero add bs)).
Notation in_range bls := (forall bl d, In bl bls -> In d (fst bl) -> bs * d + bs <= n).
Lemma entries_in {X} (l : list ((nat * nat) * X)) k e : In e (entries l k) -> In e l.
Proof. intro H. apply filter_In in H. tauto. Qed.
Notation VC ct ig flat cs b := (vec_cells zero add bs (cd_width (ct_dm0 ct)) (cd_rows (ct_dm0 ct)) (ct_P0 ct) (ct_xd ct) x (ci_kernel ig) constants flat cs (ci_cells ig) (ci_cells0 ig) b).
Notation VF ct ig flat cs b := (vec_facets zero add bs (cd_width (ct_dm0 ct)) (cd_rows (ct_dm0 ct)) (ct_P0 ct) (ct_xd ct) x (fi_kernel ig) constants flat cs (ct_perms ct) (fi_facets ig) (fi_cells0 ig) b).
Notation VE ct k ig flat cs b := (vec_entities zero add bs (cd_width (ct_dm0 ct)) (cd_rows (ct_dm0 ct)) (ct_P0 ct) (ct_xd ct) x (ei_kernel ig) constants flat cs (if k =? 0 then ct_perms ct else []) (ei_ents ig) (ei_cells0 ig) b).
Notation LC l ct ti m b := (ofold (fun b i => ig <- get_integral l i ti ;; '(flat, cs) <- get_coeffs (cf_cell cf) i ;; if negb (length (ci_cells ig) * cs =? length flat) then None else VC ct ig flat cs b) (seq 0 m) b).
Notation LF l ct m b := (ofold (fun b i => ig <- get_integral l i 0 ;; '(flat, cs) <- get_coeffs (cf_int cf) i ;; if negb (length (fi_facets ig) * 2 * cs =? length flat) then None else VF ct ig flat cs b) (seq 0 m) b).
Notation LE l cfe ct k m b := (ofold (fun b i => ig <- get_integral l i 0 ;; '(flat, cs) <- get_coeffs cfe i ;; if negb (length (ei_ents ig) * cs =? length flat) then None else VE ct k ig flat cs b) (seq 0 m) b).
Lemma cells_loop_ok l ti ct bls : type_sizes bs bs1 ct -> (forall e, In e l -> forall co cst cd en p, keeps_size (fun v => ci_kernel (snd e) v co cst cd en p)) -> consecutive l ti ->
  over_igs (cell_vb zero ct x constants) (entries l ti) (cf_cell cf) = Some bls -> in_range bls -> vadds (fun b => LC l ct ti (num_integrals l ti) b) (vshares bls).
Proof.
  intros Hct Hk Hc E Hr. apply (adds_integrals zero add add_0_l add_comm add_assoc _ _ _ (vshare zero add bs) (fun b ig flat cs => if negb (length (ci_cells ig) * cs =? length flat) then None else VC ct ig flat cs b) _ _ _ _ _ Hc E).
  intros e flat cs bl He Eb Hi. assert (Hl : length (ci_cells (snd e)) * cs = length flat) by (unfold cell_vb in Eb; destruct (Nat.eqb_spec (length (ci_cells (snd e)) * cs) (length flat)) as [Q|]; [exact Q|discriminate]).
  rewrite (proj2 (Nat.eqb_eq _ _) Hl). cbn [negb]. apply (vec_cells_ok ct x constants bs bs1 Hct (snd e) flat cs bl); [apply Hk; eapply entries_in; eauto|exact Eb|]. intros b d Hb. apply Hr. now apply Hi.
Qed.
Lemma facets_loop_ok l ct bls : type_sizes bs bs1 ct -> (forall e, In e l -> forall co cst cd en p, keeps_size (fun v => fi_kernel (snd e) v co cst cd en p)) -> consecutive l 0 ->
  over_igs (facet_vb zero ct x constants) (entries l 0) (cf_int cf) = Some bls -> in_range bls -> vadds (fun b => LF l ct (num_integrals l 0) b) (vshares bls).
Proof.
  intros Hct Hk Hc E Hr. apply (adds_integrals zero add add_0_l add_comm add_assoc _ _ _ (vshare zero add bs) (fun b ig flat cs => if negb (length (fi_facets ig) * 2 * cs =? length flat) then None else VF ct ig flat cs b) _ _ _ _ _ Hc E).
  intros e flat cs bl He Eb Hi. assert (Hl : length (fi_facets (snd e)) * 2 * cs = length flat) by (unfold facet_vb in Eb; destruct (Nat.eqb_spec (length (fi_facets (snd e)) * (2 * cs)) (length flat)) as [Q|]; [lia|discriminate]).
  rewrite (proj2 (Nat.eqb_eq _ _) Hl). cbn [negb]. apply (vec_facets_ok ct x constants bs bs1 Hct (snd e) flat cs bl); [apply Hk; eapply entries_in; eauto|exact Eb|]. intros b d Hb. apply Hr. now apply Hi.
Qed.
Lemma ents_loop_ok l cfe k ct bls : type_sizes bs bs1 ct -> (forall e, In e l -> forall co cst cd en p, keeps_size (fun v => ei_kernel (snd e) v co cst cd en p)) -> consecutive l 0 ->
  over_igs (ent_vb zero ct x constants (ext_perms ct k)) (entries l 0) cfe = Some bls -> in_range bls -> vadds (fun b => LE l cfe ct k (num_integrals l 0) b) (vshares bls).
Proof.
  intros Hct Hk Hc E Hr. apply (adds_integrals zero add add_0_l add_comm add_assoc _ _ _ (vshare zero add bs) (fun b ig flat cs => if negb (length (ei_ents ig) * cs =? length flat) then None else VE ct k ig flat cs b) _ _ _ _ _ Hc E).
  intros e flat cs bl He Eb Hi. assert (Hl : length (ei_ents (snd e)) * cs = length flat) by (unfold ent_vb in Eb; destruct (Nat.eqb_spec (length (ei_ents (snd e)) * cs) (length flat)) as [Q|]; [exact Q|discriminate]).
  rewrite (proj2 (Nat.eqb_eq _ _) Hl). cbn [negb]. apply (vec_entities_ok ct x constants bs bs1 Hct (ext_perms ct k) (snd e) flat cs bl); [apply Hk; eapply entries_in; eauto|exact Eb|]. intros b d Hb. apply Hr. now apply Hi.
Qed.
Lemma entries_nil {X} k : entries (@nil ((nat * nat) * X)) k = [].
Proof. reflexivity. Qed.
Lemma ext_loop_ok L ct ti nt bls : type_sizes bs bs1 ct -> kernels_ok L -> form_ok L nt -> ti < nt ->
  over_ext (fun k igs cfe => over_igs (ent_vb zero ct x constants (ext_perms ct k)) (entries igs ti) cfe) L cf = Some bls -> in_range bls ->
  vadds (fun b => ofold (fun b '(k, igs) => cfe <- nth_error (cf_ext cf) k ;; LE igs cfe ct k (num_integrals igs 0) b) (enum (fm_ext L)) b) (vshares bls).
Proof.
  intros Hct (_ & _ & Ke) (_ & _ & Fe & Fm) Ht E Hr. unfold over_ext in E. destruct (omap _ _) as [m|] eqn:Em; [|discriminate]. cbn [obind] in E. injection E as <-.
  apply (adds_omap zero add add_0_l add_comm add_assoc _ _ _ (vshare zero add bs) _ _ _ _ Em). intros [k igs] bl Hin Eb Hi. cbv beta iota in Eb |- *.
  destruct (nth_error (cf_ext cf) k) as [cfe|]; [|discriminate]. cbn [obind] in Eb |- *. apply in_enum_nth, nth_error_In in Hin.
  apply ents_loop_ok; [exact Hct|intros e He; now apply (Ke igs)|now apply Fe| |intros b d Hb; apply Hr; now apply Hi].
  destruct ti as [|ti]; [exact Eb|]. destruct Fm as (_ & Fm); [lia|]. rewrite (Fm igs Hin) in Eb |- *. exact Eb.
Qed.
Lemma shares_app3 a b c q : vshares (a ++ b ++ c) q = add (vshares a q) (add (vshares b q) (vshares c q)).
Proof. rewrite !(shares_app zero add add_0_l add_assoc). reflexivity. Qed.
Lemma type_vec_ok L ti ct nt bls : type_sizes bs bs1 ct -> kernels_ok L -> form_ok L nt -> ti < nt -> type_vb zero L x constants cf ti ct = Some bls -> in_range bls ->
  vadds (fun b => b <- LC (fm_cell L) ct ti (num_integrals (fm_cell L) 0) b ;; b <- LF (fm_int L) ct (num_integrals (fm_int L) 0) b ;;
    ofold (fun b '(k, igs) => cfe <- nth_error (cf_ext cf) k ;; LE igs cfe ct k (num_integrals igs 0) b) (enum (fm_ext L)) b) (vshares bls).
Proof.
  intros Hct HK HF Ht E Hr. pose proof HK as (Kc & Ki & _). pose proof HF as (Fc & Fi & _ & Fm). unfold type_vb in E.
  destruct (over_igs _ (entries (fm_cell L) ti) _) as [bc|] eqn:Ec; [|discriminate]. cbn [obind] in E.
  destruct (over_igs _ (entries (fm_int L) ti) _) as [bi|] eqn:Ei; [|discriminate]. cbn [obind] in E.
  destruct (over_ext _ L cf) as [be|] eqn:Ee; [|discriminate]. cbn [obind] in E. injection E as <-.
  assert (Hrc : in_range bc) by (intros bl d Hb; apply Hr; apply in_or_app; now left).
  assert (Hri : in_range bi) by (intros bl d Hb; apply Hr; apply in_or_app; right; apply in_or_app; now left).
  assert (Hre : in_range be) by (intros bl d Hb; apply Hr; apply in_or_app; right; apply in_or_app; now right).
  destruct (Fc ti Ht) as (Cc & Cn).
  pose proof (cells_loop_ok _ _ _ _ Hct Kc Cc Ec Hrc) as A1. assert (A2 : vadds (fun b => LF (fm_int L) ct (num_integrals (fm_int L) 0) b) (vshares bi)).
  { apply facets_loop_ok; [exact Hct|exact Ki|exact Fi| |exact Hri]. destruct ti as [|ti]; [exact Ei|]. destruct Fm as (Fm & _); [lia|]. rewrite Fm in Ei |- *. exact Ei. }
  pose proof (ext_loop_ok L ct ti nt be Hct HK HF Ht Ee Hre) as A3.
  apply (adds_eq add _ _ _ _ _ _ _ (adds_seq add add_assoc _ _ _ _ _ _ _ A1 (adds_seq add add_assoc _ _ _ _ _ _ _ A2 A3))).
  - intros b _. unfold num_integrals at 1. rewrite (countb_len (fun e => snd (fst e) =? 0) (fm_cell L)). fold (entries (fm_cell L) 0). rewrite <- Cn. unfold entries. rewrite <- countb_len. reflexivity.
  - intros q _. apply shares_app3.
Qed.
Lemma assemble_vector_ok L types bls : (forall ct, In ct types -> type_sizes bs bs1 ct) -> kernels_ok L -> form_ok L (length types) -> form_vb zero L types x constants cf = Some bls -> in_range bls ->
  vadds (assemble_vector zero add L types x constants cf) (vec_sum zero add bs bls).
Proof.
  intros Hct HK HF E Hr. unfold form_vb in E. destruct (omap _ _) as [m|] eqn:Em; [|discriminate]. cbn [obind] in E. injection E as <-.
  unfold assemble_vector. apply (adds_omap zero add add_0_l add_comm add_assoc _ _ _ (vshare zero add bs) _ _ _ _ Em). intros [ti ct] bl Hin Eb Hi. cbv beta iota in Eb |- *.
  apply in_enum_nth in Hin. pose proof (nth_error_bound _ _ _ Hin) as Hlt. apply nth_error_In in Hin. specialize (Hct ct Hin).
  assert (Hr' : in_range bl) by (intros b d Hb; apply Hr; now apply Hi).
  apply (adds_eq add _ _ _ _ _ _ _ (type_vec_ok L ti ct _ bl Hct HK HF Hlt Eb Hr')); [|reflexivity].
  destruct Hct as (Ebs & _). intros b _. cbv zeta. rewrite Ebs. unfold by_bs. destruct (Nat.eqb_spec bs 1) as [E1|]; [rewrite E1; reflexivity|]. destruct (Nat.eqb_spec bs 3) as [E3|]; [rewrite E3; reflexivity|]. reflexivity.
Qed.
End Top.
End VecAsm.
