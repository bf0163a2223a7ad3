(** Functionals, and independence of the order of the entities. *)
From Verif Require Import Base BaseProofs Algo MatrixCSR MatrixProofs Assemble AssembleSpec AsmBlocks AsmSums AsmVector.
Open Scope nat_scope.

Section Scalar.
Context {T U : Type}.
Variables (zero : T) (add : T -> T -> T).
Hypothesis add_0_l : forall a, add zero a = a.
Hypothesis add_comm : forall a b, add a b = add b a.
Hypothesis add_assoc : forall a b c, add a (add b c) = add (add a b) c.
Notation sadds := (adds add (fun _ : T => True) (fun v (_ : unit) => v) (fun _ => True)).
Notation sshares := (shares zero add (fun (v : T) (_ : unit) => v)).
Lemma sshares_sum vs : sshares vs tt = sum zero add vs.
Proof. unfold shares. now rewrite map_id. Qed.
Lemma sshares_one v : forall q, sshares [v] q = v.
Proof. intros q. unfold shares. cbn [map]. rewrite sum_cons. now apply add_0_r. Qed.
(** Starting from zero and adding the result. *)
Lemma sadds_nested F h : sadds F h -> sadds (fun v => w <- F zero ;; Some (add v w)) h.
Proof. intros H v _. destruct (H zero I) as (w & E & _ & V). rewrite E. cbn [obind]. exists (add v w). split; [reflexivity|]. split; [exact I|]. intros q _. rewrite (V q I), add_0_l. reflexivity. Qed.
Section OneType.
Variables (ct : @ctype T) (x : list U) (constants : list T).
Lemma kernel_adds kernel co cd en p w : adds_val zero add kernel -> kernel1 kernel zero co constants cd en p = Some w ->
  sadds (fun v => kernel1 (U := U) kernel v co constants cd en p) (sshares [w]).
Proof. intros HK E v _. exists (add v w). rewrite HK, E. split; [reflexivity|]. split; [exact I|]. intros q _. now rewrite sshares_one. Qed.
Lemma sca_cells_ok ig flat cs vs : adds_val zero add (ci_kernel ig) -> cell_vals zero ct x constants ig flat cs = Some vs ->
  sadds (fun v => if negb (length (ci_cells ig) * cs =? length flat) then None else w <- sca_cells zero (ct_xd ct) x (ci_kernel ig) constants flat cs (ci_cells ig) ;; Some (add v w)) (sshares vs).
Proof.
  intros HK E. unfold cell_vals in E. destruct (Nat.eqb_spec (length (ci_cells ig) * cs) (length flat)) as [Hf|]; [|discriminate]. cbn [negb] in E |- *.
  unfold sca_cells. apply sadds_nested.
  unshelve eapply (adds_eq add _ _ _ _ _ _ _ (adds_over zero add add_0_l add_comm add_assoc _ _ _ (fun v _ => v) (fun v '(c, _, _, co) => cd <- coords (ct_xd ct) x c ;; kernel1 (ci_kernel ig) v co constants cd [] []) _ _ _ E _)).
  - intros [[[c c0] c1] co] bl _ Eb _. cbv beta iota in Eb |- *. destruct (coords (ct_xd ct) x c) as [cd|]; [|discriminate]. cbn [obind] in Eb |- *. destruct (kernel1 _ _ _ _ _ _ _) as [w|] eqn:Ew; [|discriminate]. cbn [obind] in Eb. injection Eb as <-. now apply kernel_adds.
  - intros v _. apply ofold_zip; [now rewrite enum_len, items_len|]. intros i [j c] [[[c' c0] c1] co] s Hi Hit. apply enum_at in Hi as (-> & Hi). apply items_at in Hit as (H1 & _ & _ & H3); [|lia]. rewrite Hi in H1. injection H1 as ->. rewrite H3. destruct (coords _ _ c'); reflexivity.
  - reflexivity.
Qed.
Lemma sca_entities_ok perms ig flat cs vs : adds_val zero add (ei_kernel ig) -> ent_vals zero ct x constants perms ig flat cs = Some vs ->
  sadds (fun v => if negb (length (ei_ents ig) * cs =? length flat) then None else w <- sca_entities zero (ct_xd ct) x (ei_kernel ig) constants flat cs perms (ei_ents ig) ;; Some (add v w)) (sshares vs).
Proof.
  intros HK E. unfold ent_vals in E. destruct (Nat.eqb_spec (length (ei_ents ig) * cs) (length flat)) as [Hf|]; [|discriminate]. cbn [negb] in E |- *.
  unfold sca_entities. apply sadds_nested.
  unshelve eapply (adds_eq add _ _ _ _ _ _ _ (adds_over zero add add_0_l add_comm add_assoc _ _ _ (fun v _ => v) (fun v '((c, le), _, _, co) => cd <- coords (ct_xd ct) x c ;; perm <- perm_of perms c le ;; kernel1 (ei_kernel ig) v co constants cd [le] [perm]) _ _ _ E _)).
  - intros [[[[c le] c0] c1] co] bl _ Eb _. cbv beta iota in Eb |- *. destruct (coords (ct_xd ct) x c) as [cd|]; [|discriminate]. cbn [obind] in Eb |- *. destruct (perm_of perms c le) as [p|]; [|discriminate]. cbn [obind] in Eb |- *. destruct (kernel1 _ _ _ _ _ _ _) as [w|] eqn:Ew; [|discriminate]. cbn [obind] in Eb. injection Eb as <-. now apply kernel_adds.
  - intros v _. apply ofold_zip; [now rewrite enum_len, items_len|]. intros i [j [c le]] [[[[c' le'] c0] c1] co] s Hi Hit. apply enum_at in Hi as (-> & Hi). apply items_at in Hit as (H1 & _ & _ & H3); [|lia]. rewrite Hi in H1. injection H1 as -> ->. rewrite H3. destruct (coords _ _ c'); [|reflexivity]. cbn [obind]. destruct (perm_of perms c' le'); reflexivity.
  - reflexivity.
Qed.
Lemma sca_facets_ok ig flat cs vs : adds_val zero add (fi_kernel ig) -> facet_vals zero ct x constants ig flat cs = Some vs ->
  sadds (fun v => if negb (length (fi_facets ig) * 2 * cs =? length flat) then None else w <- sca_facets zero (ct_xd ct) x (fi_kernel ig) constants flat cs (ct_perms ct) (fi_facets ig) ;; Some (add v w)) (sshares vs).
Proof.
  intros HK E. unfold facet_vals in E. rewrite <- Nat.mul_assoc. destruct (Nat.eqb_spec (length (fi_facets ig) * (2 * cs)) (length flat)) as [Hf|]; [|discriminate]. cbn [negb] in E |- *.
  unfold sca_facets. apply sadds_nested.
  unshelve eapply (adds_eq add _ _ _ _ _ _ _ (adds_over zero add add_0_l add_comm add_assoc _ _ _ (fun v _ => v) (fun v '(((ca, la), (cb, lb)), _, _, co) => cda <- coords (ct_xd ct) x ca ;; cdb <- coords (ct_xd ct) x cb ;; pa <- perm_of (ct_perms ct) ca la ;; pb <- perm_of (ct_perms ct) cb lb ;; kernel1 (fi_kernel ig) v co constants (cda ++ cdb) [la; lb] [pa; pb]) _ _ _ E _)).
  - intros [[[[[ca la] [cb lb]] c0] c1] co] bl _ Eb _. cbv beta iota in Eb |- *. destruct (coords (ct_xd ct) x ca) as [cda|]; [|discriminate]. cbn [obind] in Eb |- *. destruct (coords (ct_xd ct) x cb) as [cdb|]; [|discriminate]. cbn [obind] in Eb |- *. destruct (perm_of _ ca la) as [pa|]; [|discriminate]. cbn [obind] in Eb |- *. destruct (perm_of _ cb lb) as [pb|]; [|discriminate]. cbn [obind] in Eb |- *.
    destruct (kernel1 _ _ _ _ _ _ _) as [w|] eqn:Ew; [|discriminate]. cbn [obind] in Eb. injection Eb as <-. now apply kernel_adds.
  - intros v _. apply ofold_zip; [now rewrite enum_len, items_len|]. intros i [j [[ca la] [cb lb]]] [[[[[ca' la'] [cb' lb']] c0] c1] co] s Hi Hit. apply enum_at in Hi as (-> & Hi). apply items_at in Hit as (H1 & _ & _ & H3); [|lia]. rewrite Hi in H1. injection H1 as -> -> -> ->. rewrite H3.
    destruct (coords _ _ ca'); [|reflexivity]. cbn [obind]. destruct (coords _ _ cb'); [|reflexivity]. cbn [obind]. destruct (perm_of _ ca' la'); [|reflexivity]. cbn [obind]. destruct (perm_of _ cb' lb'); reflexivity.
  - reflexivity.
Qed.
End OneType.
Lemma assemble_scalar_ok (M : @form T U) types x constants cf vs : func_ok zero add M (length types) -> form_vals zero M types x constants cf = Some vs ->
  assemble_scalar zero add M types x constants cf = Some (sum zero add vs).
Proof.
  intros (HC & K1 & K2 & K3) E. unfold form_vals in E. destruct (omap _ _) as [m|] eqn:Em; [|discriminate]. cbn [obind] in E. injection E as <-.
  assert (H : sadds (ofold (fun val '(ti, ct) =>
    v <- ofold (fun v i =>
           ig <- get_integral (fm_cell M) i ti ;; '(flat, cs) <- get_coeffs (cf_cell cf) i ;;
           if negb (length (ci_cells ig) * cs =? length flat) then None else
           w <- sca_cells zero (ct_xd ct) x (ci_kernel ig) constants flat cs (ci_cells ig) ;; Some (add v w))
         (seq 0 (num_integrals (fm_cell M) ti)) zero ;;
    v <- ofold (fun v i =>
           ig <- get_integral (fm_int M) i ti ;; '(flat, cs) <- get_coeffs (cf_int cf) i ;;
           if negb (length (fi_facets ig) * 2 * cs =? length flat) then None else
           w <- sca_facets zero (ct_xd ct) x (fi_kernel ig) constants flat cs (ct_perms ct) (fi_facets ig) ;; Some (add v w))
         (seq 0 (num_integrals (fm_int M) ti)) v ;;
    v <- ofold (fun v '(k, igs) =>
      cfe <- nth_error (cf_ext cf) k ;;
      ofold (fun v i =>
           ig <- get_integral igs i ti ;; '(flat, cs) <- get_coeffs cfe i ;;
           if negb (length (ei_ents ig) * cs =? length flat) then None else
           w <- sca_entities zero (ct_xd ct) x (ei_kernel ig) constants flat cs (if k =? 0 then ct_perms ct else []) (ei_ents ig) ;; Some (add v w))
         (seq 0 (num_integrals igs ti)) v) (enum (fm_ext M)) v ;;
    Some (add val v)) (enum types)) (sshares (concat m))).
  2:{ destruct (H zero I) as (v & Ev & _ & V). unfold assemble_scalar. rewrite Ev. f_equal. specialize (V tt I). rewrite sshares_sum, add_0_l in V. exact V. }
  apply (adds_omap zero add add_0_l add_comm add_assoc _ _ _ (fun v _ => v) _ _ _ _ Em). intros [ti ct] bl Hin Eb _. cbv beta iota in Eb |- *.
  apply in_enum_nth in Hin. pose proof (nth_error_bound _ _ _ Hin) as Hlt. destruct (HC ti Hlt) as (C1 & C2 & C3). clear Hin Em.
  unfold type_vals in Eb. destruct (over_igs (cell_vals zero ct x constants) _ _) as [bc|] eqn:E1; [|discriminate]. cbn [obind] in Eb. destruct (over_igs (facet_vals zero ct x constants) _ _) as [bi|] eqn:E2; [|discriminate]. cbn [obind] in Eb. destruct (over_ext _ _ _) as [be|] eqn:E3; [|discriminate]. cbn [obind] in Eb. injection Eb as <-.
  assert (A1 : sadds (fun v => ofold (fun v i =>
           ig <- get_integral (fm_cell M) i ti ;; '(flat, cs) <- get_coeffs (cf_cell cf) i ;;
           if negb (length (ci_cells ig) * cs =? length flat) then None else
           w <- sca_cells zero (ct_xd ct) x (ci_kernel ig) constants flat cs (ci_cells ig) ;; Some (add v w))
         (seq 0 (num_integrals (fm_cell M) ti)) v) (sshares bc)).
  { apply (adds_integrals zero add add_0_l add_comm add_assoc _ _ _ (fun v _ => v) (fun v ig flat cs => if negb (length (ci_cells ig) * cs =? length flat) then None else w <- sca_cells zero (ct_xd ct) x (ci_kernel ig) constants flat cs (ci_cells ig) ;; Some (add v w)) _ _ _ _ _ C1 E1).
    intros e flat cs bl He Eb _. apply sca_cells_ok; [apply K1; now apply filter_In in He|exact Eb]. }
  assert (A2 : sadds (fun v => ofold (fun v i =>
           ig <- get_integral (fm_int M) i ti ;; '(flat, cs) <- get_coeffs (cf_int cf) i ;;
           if negb (length (fi_facets ig) * 2 * cs =? length flat) then None else
           w <- sca_facets zero (ct_xd ct) x (fi_kernel ig) constants flat cs (ct_perms ct) (fi_facets ig) ;; Some (add v w))
         (seq 0 (num_integrals (fm_int M) ti)) v) (sshares bi)).
  { apply (adds_integrals zero add add_0_l add_comm add_assoc _ _ _ (fun v _ => v) (fun v ig flat cs => if negb (length (fi_facets ig) * 2 * cs =? length flat) then None else w <- sca_facets zero (ct_xd ct) x (fi_kernel ig) constants flat cs (ct_perms ct) (fi_facets ig) ;; Some (add v w)) _ _ _ _ _ C2 E2).
    intros e flat cs bl He Eb _. apply sca_facets_ok; [apply K2; now apply filter_In in He|exact Eb]. }
  assert (A3 : sadds (fun v => ofold (fun v '(k, igs) =>
      cfe <- nth_error (cf_ext cf) k ;;
      ofold (fun v i =>
           ig <- get_integral igs i ti ;; '(flat, cs) <- get_coeffs cfe i ;;
           if negb (length (ei_ents ig) * cs =? length flat) then None else
           w <- sca_entities zero (ct_xd ct) x (ei_kernel ig) constants flat cs (if k =? 0 then ct_perms ct else []) (ei_ents ig) ;; Some (add v w))
         (seq 0 (num_integrals igs ti)) v) (enum (fm_ext M)) v) (sshares be)).
  { unfold over_ext in E3. destruct (omap _ _) as [m3|] eqn:Em; [|discriminate]. cbn [obind] in E3. injection E3 as <-.
    apply (adds_omap zero add add_0_l add_comm add_assoc _ _ _ (fun v _ => v) _ _ _ _ Em). intros [k igs] bl Hin Eb _. cbv beta iota in Eb |- *. destruct (nth_error (cf_ext cf) k) as [cfe|]; [|discriminate]. cbn [obind] in Eb |- *. apply in_enum_nth, nth_error_In in Hin.
    apply (adds_integrals zero add add_0_l add_comm add_assoc _ _ _ (fun v _ => v) (fun v ig flat cs => if negb (length (ei_ents ig) * cs =? length flat) then None else w <- sca_entities zero (ct_xd ct) x (ei_kernel ig) constants flat cs (if k =? 0 then ct_perms ct else []) (ei_ents ig) ;; Some (add v w)) _ _ _ _ _ (C3 igs Hin) Eb).
    intros e flat cs bl' He Eb' _. apply (sca_entities_ok ct x constants (ext_perms ct k)); [apply (K3 igs); [exact Hin|now apply filter_In in He]|exact Eb']. }
  pose proof (adds_seq _ add_assoc _ _ _ _ _ _ _ A1 (adds_seq _ add_assoc _ _ _ _ _ _ _ A2 A3)) as A. apply sadds_nested in A.
  apply (adds_eq add _ _ _ _ _ _ _ A).
  - intros v _. cbv beta. destruct (ofold _ _ zero) as [v1|]; [|reflexivity]. cbn [obind]. destruct (ofold _ _ v1) as [v2|]; reflexivity.
  - intros q _. rewrite !(shares_app zero add add_0_l add_assoc). reflexivity.
Qed.
End Scalar.

(** ** Order *)
Section Order.
Context {T : Type}.
Lemma omap_perm {A B} (f : A -> option B) l l' m : Permutation l l' -> omap f l = Some m -> exists m', omap f l' = Some m' /\ Permutation m m'.
Proof.
  intro P. revert m. induction P as [|a l l' P IH|a b l|l l' l'' P1 IH1 P2 IH2]; intros m E.
  - exists m. auto.
  - cbn [omap] in *. destruct (f a) as [y|]; [|discriminate]. cbn [obind] in *. destruct (omap f l) as [n|]; [|discriminate]. cbn [obind] in E. injection E as <-. destruct (IH n eq_refl) as (n' & -> & Hp). exists (y :: n'). split; [reflexivity|now constructor].
  - cbn [omap] in *. destruct (f b) as [y|]; [|discriminate]. cbn [obind] in *. destruct (f a) as [z|]; [|discriminate]. cbn [obind] in *. destruct (omap f l) as [n|]; [|discriminate]. cbn [obind] in E |- *. injection E as <-. exists (z :: y :: n). split; [reflexivity|constructor].
  - destruct (IH1 m E) as (m1 & E1 & Hp1). destruct (IH2 m1 E1) as (m2 & E2 & Hp2). exists m2. split; [exact E2|now transitivity m1].
Qed.
Lemma concat_perm {A} (l l' : list (list A)) : Permutation l l' -> Permutation (concat l) (concat l').
Proof. induction 1 as [|a l l' P IH|a b l|l l' l'' P1 IH1 P2 IH2]; cbn [concat]; [constructor|now apply Permutation_app_head|rewrite !app_assoc; apply Permutation_app_tail, Permutation_app_comm|now transitivity (concat l')]. Qed.
Lemma over_items_perm {I B} (blocks : I -> option (list B)) l l' bls : Permutation l l' -> over_items blocks l = Some bls -> exists bls', over_items blocks l' = Some bls' /\ Permutation bls bls'.
Proof.
  unfold over_items. intros P E. destruct (omap blocks l) as [m|] eqn:Em; [|discriminate]. cbn [obind] in E. injection E as <-. destruct (omap_perm _ _ _ _ P Em) as (m' & -> & Hp). exists (concat m'). split; [reflexivity|]. now apply concat_perm.
Qed.
End Order.
