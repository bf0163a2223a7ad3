(** C59: the integrals of a form run over exactly the entities with their id.
    [attach_cells], [attach_interior] and [attach_exterior] are the parts of [create_form]
    for the integral types; [attached] (FormSpec) says what [Form] then returns. *)
From Coq Require Import Sorting.Sorted.
From Verif Require Import Base Algo Tags MatrixCSR Assemble FormData FormSpec FormProofs.
Open Scope nat_scope.

(** Cell integrals: every cell type, any number of default integrals. *)
Theorem C59_cells : forall K (kernel : nat -> nat -> K) M ids nforms sd,
  nforms <= length (ms_cells M) -> (forall l, sd = Some l -> sd_ok l) ->
  exists igs, attach_cells kernel M ids nforms sd = Some igs /\ attached kernel ids nforms sd (fun fi _ => covers (owned_cell M fi) eq) igs.
Proof. exact @cells_attached. Qed.
Print Assumptions C59_cells.

(** Interior facets, one cell type and at most one default integral.  A facet whose second
    cell is on another process only is an exception. *)
Theorem C59_interior_partial : forall K (kernel : nat -> nat -> K) M ids sd,
  fmesh_ok M -> (forall l, sd = Some l -> sd_ok l) ->
  ((forall f, ~ split_facet M f) -> defaults ids (length ids) <= 1 ->
     exists igs, attach_interior kernel M ids 1 sd = Some igs /\
       attached kernel ids 1 sd (fun _ _ => covers (owned_interior M) (interior_of (ms_facets M))) igs) /\
  ((exists f, split_facet M f) -> In (-1)%Z ids -> attach_interior kernel M ids 1 sd = None).
Proof.
  intros K kernel M ids sd HM HS. split; [intros Hs H1; exact (interior_once kernel M ids sd HM HS Hs H1)|].
  intros Hs Hi. exact (interior_split kernel M ids 1 sd HM Hs Hi Nat.lt_0_1).
Qed.
Print Assumptions C59_interior_partial.

(** Exterior facets, vertices and ridges, one cell type and at most one default integral *)
Theorem C59_exterior_partial : forall K (kernel : nat -> nat -> K) M t ids sd,
  fmesh_ok M -> (forall l, sd = Some l -> sd_ok l) -> defaults ids (length ids) <= 1 ->
  exists igs, attach_exterior kernel M t ids 1 sd = Some igs /\ attached kernel ids 1 sd (fun _ _ => covers (owned_entity M t) (entity_of (ext_tab M t))) igs.
Proof. exact @exterior_once. Qed.
Print Assumptions C59_exterior_partial.

(** In general a default integral repeats the entities as many times as there are default
    integrals up to it, over all forms. *)
Theorem C59_repeated_defaults : forall K (kernel : nat -> nat -> K) M ids nforms,
  fmesh_ok M ->
  (forall sd, (forall l, sd = Some l -> sd_ok l) -> (forall f, ~ split_facet M f) ->
     exists d igs, covers (owned_interior M) (interior_of (ms_facets M)) d /\
       attach_interior kernel M ids nforms sd = Some igs /\ attached kernel ids nforms sd (copies ids d) igs) /\
  (forall t sd, (forall l, sd = Some l -> sd_ok l) ->
     exists d igs, covers (owned_entity M t) (entity_of (ext_tab M t)) d /\
       attach_exterior kernel M t ids nforms sd = Some igs /\ attached kernel ids nforms sd (copies ids d) igs).
Proof.
  intros K kernel M ids nforms HM. split.
  - intros sd HS Hs. exact (interior_attached kernel M ids nforms sd HM HS Hs).
  - intros t sd HS. exact (exterior_attached kernel M t ids nforms sd HM HS).
Qed.
Print Assumptions C59_repeated_defaults.

(** [compute_integration_domains]: of a sorted list of entities, the owned ones (for
    interior facets those with two cells), each once; Python also drops facets that are not
    on the exterior. *)
Theorem C59_integration_domains : forall M es, fmesh_ok M -> StronglySorted lt es ->
  (forall n, covers (fun c => In c es /\ c < n) eq (domains_cell n es)) /\
  ((forall f, In f es -> f < et_all (ms_facets M)) ->
     ((forall f, In f es -> ~ split_facet M f) -> exists l, domains_interior M es = Some l /\ covers (fun f => In f es /\ owned_interior M f) (interior_of (ms_facets M)) l) /\
     ((exists f, In f es /\ split_facet M f) -> domains_interior M es = None)) /\
  (forall t, (forall e, In e es -> e < et_all (ext_tab M t) /\ cells_of (ext_tab M t) e <> []) ->
     exists l, domains_exterior M t es = Some l /\ covers (fun e => In e es /\ e < et_owned (ext_tab M t)) (entity_of (ext_tab M t)) l) /\
  (exists l, py_exterior M es = Some l /\ covers (fun f => In f es /\ owned_exterior M f) (entity_of (ms_facets M)) l).
Proof.
  intros M es HM Hs. split; [intros n; exact (domains_cell_ok n es Hs)|]. split; [intros Hb; exact (domains_interior_ok M es HM Hs Hb)|].
  split; [intros t Hb; exact (domains_exterior_ok M t es HM Hs Hb)|exact (py_exterior_ok M es HM)].
Qed.
Print Assumptions C59_integration_domains.

(** Arguments on another mesh: the cell of the argument is the cell, or for a mesh of facets
    the facet, that the entity map relates to the entity of the integral. *)
Theorem C59_argument_cells : forall codim c_to_f m inverse pairs es,
  codim <= 1 -> NoDup m -> Forall2 (entity_at codim c_to_f) pairs es -> (inverse = false -> forall e, In e es -> e < length m) ->
  exists cs, arg_facets codim c_to_f m inverse pairs = Some cs /\ Forall2 (same_cell m inverse) es cs.
Proof. exact arg_facets_ok. Qed.
Print Assumptions C59_argument_cells.

(** Two triangles with a common facet 2 *)
Definition ex_facets : etab := mkEt 5 5 [[0]; [0]; [0; 1]; [1]; [1]] [[0; 1; 2]; [3; 2; 4]].
Definition ex_vertices : etab := mkEt 4 4 [[0]; [0; 1]; [0; 1]; [1]] [[0; 1; 2]; [1; 2; 3]].
Definition ex_mesh : fmesh := mkFm [2] ex_facets [] ex_vertices ex_vertices.
Lemma ex_etab_ok M : et_owned M <= et_all M -> length (et_cells M) = et_all M ->
  (forallb (fun e => forallb (fun c => match nth_error (et_of_cell M) c with Some row => mem e row | None => false end) (cells_of M e)) (seq 0 (et_all M)) = true) -> etab_ok M.
Proof.
  intros H1 H2 H3. split; [exact H1|exact H2|]. intros e c Hc. rewrite forallb_forall in H3.
  assert (He : In e (seq 0 (et_all M))).
  { apply in_seq. destruct (Nat.lt_ge_cases e (et_all M)) as [L|L]; [lia|]. unfold cells_of in Hc. rewrite nth_overflow in Hc by lia. destruct Hc. }
  specialize (H3 e He). rewrite forallb_forall in H3. specialize (H3 c Hc). destruct (nth_error (et_of_cell M) c) as [row|]; [|discriminate].
  exists row. split; [reflexivity|]. unfold mem in H3. apply existsb_exists in H3 as (x & Hx & E). apply Nat.eqb_eq in E. now subst.
Qed.
Lemma ex_mesh_ok : fmesh_ok ex_mesh.
Proof.
  split; [apply ex_etab_ok; cbn; [lia|reflexivity|reflexivity]|apply ex_etab_ok; cbn; [lia|reflexivity|reflexivity]|apply ex_etab_ok; cbn; [lia|reflexivity|reflexivity]|intros f []|constructor|].
  intros t e Ht He. destruct t; [congruence| |]; cbn in He; (do 4 (destruct e as [|e]; [discriminate|])); lia.
Qed.
Example C59_example :
  (forall f, ~ split_facet ex_mesh f) /\
  attach_interior (fun fi i => (fi, i)) ex_mesh [(-1)%Z; 3%Z; 5%Z] 1 (Some [(3%Z, [])]) = Some [((0, 0), ((0, 0), [((0, 2), (1, 1))])); ((1, 0), ((0, 1), []))] /\
  attach_exterior (fun fi i => (fi, i)) ex_mesh ExteriorFacet [(-1)%Z] 1 None = Some [((0, 0), ((0, 0), [(0, 0); (0, 1); (1, 0); (1, 2)]))] /\
  py_exterior ex_mesh [1; 2; 4] = Some [(0, 1); (1, 2)].
Proof. split; [intros f (_ & _ & [])|]. repeat split; vm_compute; reflexivity. Qed.

(** C59 fails for a form with two default exterior facet integrals (two kernels over the same
    domain, which [Form] documents): the second is executed twice on every facet. *)
Theorem C59_second_default_refuted : exists igs l,
  fmesh_ok ex_mesh /\ attach_exterior (fun fi i => (fi, i)) ex_mesh ExteriorFacet [(-1)%Z; (-1)%Z] 1 None = Some igs /\
  get_integral igs 1 0 = Some ((0, 1), l) /\ l = [(0, 0); (0, 1); (1, 0); (1, 2); (0, 0); (0, 1); (1, 0); (1, 2)] /\
  ~ covers (owned_entity ex_mesh ExteriorFacet) (entity_of (ext_tab ex_mesh ExteriorFacet)) l.
Proof.
  eexists. eexists. split; [exact ex_mesh_ok|]. split; [vm_compute; reflexivity|]. split; [vm_compute; reflexivity|]. split; [reflexivity|].
  intros (es & Hnd & Hin & HF). assert (HL : forall (R : nat -> nat * nat -> Prop) a b, Forall2 R a b -> length a = length b) by (clear; induction 1; cbn; congruence). apply HL in HF. cbn [length] in HF.
  assert (length es <= length (seq 0 5)); [|rewrite seq_length, HF in *; lia].
  apply NoDup_incl_length; [exact Hnd|]. intros e He. apply Hin in He as (He & _). apply in_seq. cbn in He. lia.
Qed.
Print Assumptions C59_second_default_refuted.
