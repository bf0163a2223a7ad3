(** Model of the selection of the entities of the integrals of a form:
    [create_form_factory] (cpp/dolfinx/fem/utils.h:527-820), [compute_integration_domains]
    (cpp/dolfinx/fem/utils.cpp:153-275), [exterior_facet_indices]
    (cpp/dolfinx/mesh/utils.cpp:61-100), the entities of the arguments in the constructor of
    [Form] (cpp/dolfinx/fem/Form.h:205-302) and [get_integration_domains]
    (python/dolfinx/fem/forms.py:144-217).
    Simplifications: flattened arrays of tuples are lists of tuples; the checks of element
    hashes, the lists of coefficients and the flag for permutations are left out; one map of
    integrals per integral type. *)
From Verif Require Import Base Algo Tags MatrixCSR Assemble.
Open Scope nat_scope.

(** Entities of one dimension: number of owned and of all ones, their cells
    ([connectivity(dim, tdim)]), the entities of a cell ([connectivity(tdim, dim)]). *)
Record etab := mkEt { et_owned : nat; et_all : nat; et_cells : list (list nat); et_of_cell : list (list nat) }.

(** The local index of entity [e] in [cell]: utils.h:83-90, 115-121.  The assertions are
    failures. *)
Definition pair_of (M : etab) (e cell : nat) : option (nat * nat) :=
  row <- nth_error (et_of_cell M) cell ;; i <- index_in e row ;; Some (cell, i).
(** utils.h:73-94 with [num_cells = 2] *)
Definition facet_pairs (M : etab) (f : nat) (cells : list nat) : option ((nat * nat) * (nat * nat)) :=
  match cells with [a; b] => pa <- pair_of M f a ;; pb <- pair_of M f b ;; Some (pa, pb) | _ => None end.
(** utils.h:103-122 *)
Definition entity_pair (M : etab) (e : nat) (cells : list nat) : option (nat * nat) :=
  match cells with c :: _ => pair_of M e c | [] => None end.

(** [std::ranges::set_difference] of sorted ranges *)
Fixpoint set_difference (a : list nat) : list nat -> list nat :=
  match a with
  | [] => fun _ => []
  | x :: a' => fix inner (b : list nat) : list nat :=
      match b with
      | [] => x :: a'
      | y :: b' => if x <? y then x :: set_difference a' b else if y <? x then inner b' else set_difference a' b'
      end
  end.
(** mesh/utils.cpp:61-89 *)
Definition exterior_facet_indices (F : etab) (interprocess : list nat) : option (list nat) :=
  fs <- ofold (fun l f => cs <- nth_error (et_cells F) f ;; Some (if length cs =? 1 then l ++ [f] else l)) (seq 0 (et_owned F)) [] ;;
  Some (set_difference fs interprocess).

(** The indicator for interprocess facets: utils.h:621-634, utils.cpp:227-236 *)
Definition ip_marker (F : etab) (interprocess : list nat) : option (list bool) :=
  ofold (fun m f => upd m f true) interprocess (repeat false (et_all F)).
(** The loop over facets: utils.h:665-681, utils.cpp:237-253.  [acc] is the array that the
    loop appends to. *)
Definition interior_loop (F : etab) (marker : list bool) (fs : list nat) (acc : list ((nat * nat) * (nat * nat))) : option (list ((nat * nat) * (nat * nat))) :=
  ofold (fun acc f =>
    cs <- nth_error (et_cells F) f ;;
    if length cs =? 2 then p <- facet_pairs F f cs ;; Some (acc ++ [p])
    else m <- nth_error marker f ;; if (m : bool) then None else Some acc) fs acc.
(** The loop over entities: utils.h:790-797, utils.cpp:261-266 *)
Definition entity_loop (M : etab) (es : list nat) (acc : list (nat * nat)) : option (list (nat * nat)) :=
  ofold (fun acc e => cs <- nth_error (et_cells M) e ;; p <- entity_pair M e cs ;; Some (acc ++ [p])) es acc.

(** [lower_bound] of an id in the subdomain data and the comparison: utils.h:591-594 *)
Definition lookup_id {E} (sd : list (Z * E)) (id : Z) : option E :=
  match nth_error sd (prefix_len (fun p => (fst p <? id)%Z) sd) with
  | Some (k, e) => if (k =? id)%Z then Some e else None
  | None => None
  end.

(** The loops over the forms (one per cell type) and over the integrals of one type.
    [default form_idx acc] gives the new value of the array of default entities, which
    outlives the iteration; the integral data are a copy of it.  [sd]: the subdomain data,
    [None] if the map has no entry for the integral type. *)
Definition attach {K E} (kernel : nat -> nat -> K) (ids : list Z) (nforms : nat) (default : nat -> list E -> option (list E)) (sd : option (list (Z * list E)))
  : option (list ((nat * nat) * (K * list E))) :=
  r <- ofold (fun '(acc, igs) fi =>
         ofold (fun '(acc, igs) '(i, id) =>
           if (id =? -1)%Z then acc <- default fi acc ;; Some (acc, igs ++ [((i, fi), (kernel fi i, acc))])
           else match sd with
                | Some sd => match lookup_id sd id with Some es => Some (acc, igs ++ [((i, fi), (kernel fi i, es))]) | None => Some (acc, igs) end
                | None => Some (acc, igs)
                end) (enum ids) (acc, igs)) (seq 0 nforms) ([], []) ;;
  Some (snd r).

(** What of the mesh is used: number of owned cells by cell type, the facets, the
    interprocess facets, the vertices and the ridges. *)
Record fmesh := mkFm { ms_cells : list nat; ms_facets : etab; ms_interprocess : list nat; ms_vertices : etab; ms_ridges : etab }.

(** Cell integrals: utils.h:544-608.  [resize] and [iota] overwrite the array. *)
Definition attach_cells {K} (kernel : nat -> nat -> K) (M : fmesh) (ids : list Z) (nforms : nat) (sd : option (list (Z * list nat))) :=
  attach kernel ids nforms (fun fi _ => n <- nth_error (ms_cells M) fi ;; Some (seq 0 n)) sd.
(** Interior facet integrals: utils.h:610-703.  The array is never cleared. *)
Definition attach_interior {K} (kernel : nat -> nat -> K) (M : fmesh) (ids : list Z) (nforms : nat) (sd : option (list (Z * list ((nat * nat) * (nat * nat))))) :=
  attach kernel ids nforms
    (fun _ acc => m <- ip_marker (ms_facets M) (ms_interprocess M) ;; interior_loop (ms_facets M) m (seq 0 (et_owned (ms_facets M))) acc) sd.
(** Exterior facet, vertex and ridge integrals: utils.h:705-820.  The array is cleared for
    each of the three types only. *)
Inductive ext_type := ExteriorFacet | Vertex | Ridge.
Definition ext_tab (M : fmesh) (t : ext_type) : etab :=
  match t with ExteriorFacet => ms_facets M | Vertex => ms_vertices M | Ridge => ms_ridges M end.
(** utils.h:732-750 *)
Definition default_entities (M : fmesh) (t : ext_type) : option (list nat) :=
  match t with
  | ExteriorFacet => exterior_facet_indices (ms_facets M) (ms_interprocess M)
  | _ => Some (seq 0 (et_owned (ext_tab M t)))
  end.
Definition attach_exterior {K} (kernel : nat -> nat -> K) (M : fmesh) (t : ext_type) (ids : list Z) (nforms : nat) (sd : option (list (Z * list (nat * nat)))) :=
  attach kernel ids nforms (fun _ acc => es <- default_entities M t ;; entity_loop (ext_tab M t) es acc) sd.

(** * compute_integration_domains: utils.cpp:153-275 *)
(** utils.cpp:183-189 *)
Definition owned_part (n : nat) (es : list nat) : list nat := firstn (lower_bound es n) es.
Definition domains_cell (ncells : nat) (es : list nat) : list nat := owned_part ncells es.
Definition domains_interior (M : fmesh) (es : list nat) : option (list ((nat * nat) * (nat * nat))) :=
  m <- ip_marker (ms_facets M) (ms_interprocess M) ;; interior_loop (ms_facets M) m (owned_part (et_owned (ms_facets M)) es) [].
Definition domains_exterior (M : fmesh) (t : ext_type) (es : list nat) : option (list (nat * nat)) :=
  entity_loop (ext_tab M t) (owned_part (et_owned (ext_tab M t)) es) [].
(** forms.py:196-216 for one id and tagged entities [es]; [np.intersect1d] returns sorted
    common values. *)
Definition intersect1d (a b : list nat) : list nat := sort_uniq (filter (fun x => mem x b) a).
Definition py_exterior (M : fmesh) (es : list nat) : option (list (nat * nat)) :=
  ext <- exterior_facet_indices (ms_facets M) (ms_interprocess M) ;; domains_exterior M ExteriorFacet (intersect1d es ext).

(** * The entities of an argument on another mesh: Form.h:205-302 *)
(** [emap.sub_topology_to_topology(entities, inverse)]; [m] is the list of the entity map *)
Definition em_apply (m : list nat) (inverse : bool) (es : list nat) : option (list (option nat)) :=
  if inverse then Some (em_inverse m es) else r <- em_forward m es ;; Some (map Some r).
(** Cell integrals: Form.h:281-282 *)
Definition arg_cells (m : list nat) (inverse : bool) (cells : list nat) : option (list (option nat)) := em_apply m inverse cells.
(** Facet integrals: Form.h:205-252.  Only the cells of the result are kept: the local
    facets are copied. *)
Definition arg_facets (codim : nat) (c_to_f : list (list nat)) (m : list nat) (inverse : bool) (pairs : list (nat * nat)) : option (list (option nat)) :=
  es <- match codim with
        | 0 => Some (map fst pairs)
        | 1 => omap (fun '(c, lf) => row <- nth_error c_to_f c ;; nth_error row lf) pairs
        | _ => None
        end ;;
  em_apply m inverse es.
