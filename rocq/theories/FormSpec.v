(** Specification of the entities of the integrals of a form. *)
From Verif Require Import Base Algo Tags MatrixCSR Assemble FormData.
Open Scope nat_scope.

Definition cells_of (M : etab) (e : nat) : list nat := nth e (et_cells M) [].
(** The tables of a mesh: every cell of an entity has the entity in its row. *)
Record etab_ok (M : etab) : Prop :=
  { eo_owned : et_owned M <= et_all M;
    eo_len : length (et_cells M) = et_all M;
    eo_row : forall e c, In c (cells_of M e) -> exists row, nth_error (et_of_cell M) c = Some row /\ In e row }.
(** Entity [e] is number [snd p] of the cell [fst p]. *)
Definition is_local (M : etab) (e : nat) (p : nat * nat) : Prop :=
  exists row, nth_error (et_of_cell M) (fst p) = Some row /\ nth_error row (snd p) = Some e.
(** The data of an interior facet: both cells with the number of the facet in them. *)
Definition interior_of (M : etab) (f : nat) (t : (nat * nat) * (nat * nat)) : Prop :=
  cells_of M f = [fst (fst t); fst (snd t)] /\ is_local M f (fst t) /\ is_local M f (snd t).
(** The data of another entity: a cell with the number of the entity in it. *)
Definition entity_of (M : etab) (e : nat) (p : nat * nat) : Prop := In (fst p) (cells_of M e) /\ is_local M e p.
(** The list has the data of exactly the entities that satisfy [P], each once. *)
Definition covers {E} (P : nat -> Prop) (R : nat -> E -> Prop) (l : list E) : Prop :=
  exists es, NoDup es /\ (forall e, In e es <-> P e) /\ Forall2 R es l.

(** The facets and entities that a default integral is over. *)
Definition owned_cell (M : fmesh) (fi c : nat) : Prop := exists n, nth_error (ms_cells M) fi = Some n /\ c < n.
Definition owned_interior (M : fmesh) (f : nat) : Prop := f < et_owned (ms_facets M) /\ length (cells_of (ms_facets M) f) = 2.
Definition owned_exterior (M : fmesh) (f : nat) : Prop :=
  f < et_owned (ms_facets M) /\ length (cells_of (ms_facets M) f) = 1 /\ ~ In f (ms_interprocess M).
Definition owned_entity (M : fmesh) (t : ext_type) (e : nat) : Prop :=
  match t with ExteriorFacet => owned_exterior M e | _ => e < et_owned (ext_tab M t) end.
(** An owned facet whose second cell is on another process *)
Definition split_facet (M : fmesh) (f : nat) : Prop :=
  f < et_owned (ms_facets M) /\ length (cells_of (ms_facets M) f) <> 2 /\ In f (ms_interprocess M).

Record fmesh_ok (M : fmesh) : Prop :=
  { mo_facets : etab_ok (ms_facets M); mo_vertices : etab_ok (ms_vertices M); mo_ridges : etab_ok (ms_ridges M);
    mo_ip : forall f, In f (ms_interprocess M) -> f < et_all (ms_facets M);
    mo_ip_sorted : Sorted.StronglySorted lt (ms_interprocess M);
    mo_ent : forall t e, t <> ExteriorFacet -> e < et_owned (ext_tab M t) -> cells_of (ext_tab M t) e <> [] }.

(** Subdomain data: pairs of id and entities with increasing ids. *)
Definition sd_ok {E} (sd : list (Z * E)) : Prop := Sorted.StronglySorted Z.lt (map fst sd).
Definition data_of {E} (sd : option (list (Z * E))) (id : Z) (es : E) : Prop := exists l, sd = Some l /\ In (id, es) l.

(** Number of default integrals among the first [n] *)
Definition defaults (ids : list Z) (n : nat) : nat := countb (fun id => (id =? -1)%Z) (firstn n ids).

(** The integrals of a form after the loops: [D fi i] holds of the entities of a default
    integral; another integral has the entities given for its id, or is missing. *)
Definition attached {K E} (kernel : nat -> nat -> K) (ids : list Z) (nforms : nat) (sd : option (list (Z * list E)))
    (D : nat -> nat -> list E -> Prop) (igs : list ((nat * nat) * (K * list E))) : Prop :=
  (forall fi i id, fi < nforms -> nth_error ids i = Some id ->
     (id = (-1)%Z -> exists l, get_integral igs i fi = Some (kernel fi i, l) /\ D fi i l) /\
     (id <> (-1)%Z -> forall k es, get_integral igs i fi = Some (k, es) <-> k = kernel fi i /\ data_of sd id es)) /\
  (forall fi i, nforms <= fi \/ length ids <= i -> get_integral igs i fi = None) /\
  (** with data for all ids the loops of the assemblers run over all integrals *)
  ((forall id, In id ids -> id = (-1)%Z \/ exists es, data_of sd id es) -> forall fi, fi < nforms -> num_integrals igs fi = length ids) /\
  (** an id without data before an integral with data: the loops run into a missing
      integral, which is an exception *)
  (forall fi i j id id', fi < nforms -> i < j -> nth_error ids i = Some id -> id <> (-1)%Z -> (forall es, ~ data_of sd id es) ->
     nth_error ids j = Some id' -> (id' = (-1)%Z \/ exists es, data_of sd id' es) ->
     exists i0, i0 < num_integrals igs fi /\ get_integral igs i0 fi = None).

(** The cell of the mesh of an argument that belongs to an entity of the integration mesh:
    [m] is the list of the entity map, from sub-mesh to mesh. *)
Definition same_cell (m : list nat) (inverse : bool) (e : nat) (c : option nat) : Prop :=
  if inverse then match c with Some c => nth_error m c = Some e | None => ~ In e m end
  else exists c', c = Some c' /\ nth_error m e = Some c'.

(** The list [d], as many times as there are default integrals up to integral [i] of form [fi] *)
Definition copies {E} (ids : list Z) (d : list E) (fi i : nat) (l : list E) : Prop := l = concat (repeat d (fi * defaults ids (length ids) + defaults ids (S i))).
(** The entity of the integration mesh that is a cell of the argument's mesh *)
Definition entity_at (codim : nat) (c_to_f : list (list nat)) (p : nat * nat) (e : nat) : Prop :=
  match codim with 0 => e = fst p | _ => exists row, nth_error c_to_f (fst p) = Some row /\ nth_error row (snd p) = Some e end.
