(** Model of cpp/dolfinx/fem/pack.h and of the accessors of coefficients in fem/Form.h.

    Simplifications: scalars are an abstract type; dof transformations are functions as in
    Assemble.v; the index -1 of a cell that does not exist is [None]; of the entities of a
    coefficient only the cells are kept, the local indices are not used; a null pointer to a
    coefficient is [None]; the compile-time block sizes 1, 2 and 3 give the same loops. *)
From Verif Require Import Base Algo MatrixCSR Assemble FormData.
Open Scope nat_scope.

Section Pack.
Context {T : Type}.
Variable zero : T.

(** What is used of a [Function]: the dofmap, the space dimension of the element, the
    values, the transformation, and the dimension of the mesh of the form minus that of the
    mesh of the function. *)
Record func := mkFn { fn_dm : celldofs; fn_dim : nat; fn_x : list T; fn_tr : list T -> nat -> nat -> list T; fn_codim : nat }.

(** pack.h:77-101 *)
Definition pack_impl (u : func) (cell : nat) (coeffs : list T) : option (list T) :=
  dofs <- nth_error (cd_rows (fn_dm u)) cell ;;
  let bs := cd_bs (fn_dm u) in
  coeffs <- ofold (fun c '(i, d) =>
    ofold (fun c k => v <- nth_error (fn_x u) (bs * d + k) ;; upd c (bs * i + k) v) (seq 0 bs) c) (enum dofs) coeffs ;;
  Some (fn_tr u coeffs cell 1).
(** pack.h:119-173; [c.subspan(e * cstride + offset, space_dim)] is changed in place. *)
Definition pack_coefficient_entity (c : list T) (cstride : nat) (u : func) (cells : list (option nat)) (offset : nat) : option (list T) :=
  ofold (fun c '(e, cell) =>
    match cell with
    | None => Some c
    | Some cell =>
        let p := e * cstride + offset in
        s <- slice c p (p + fn_dim u) ;;
        s <- pack_impl u cell s ;;
        Some (firstn p c ++ s ++ skipn (p + fn_dim u) c)
    end) (enum cells) c.

(** Form.h:593-604 *)
Definition coefficient_offsets (coefficients : list (option func)) : option (list nat) :=
  ofold (fun n c => u <- c ;; Some (n ++ [last n 0 + fn_dim u])) coefficients [0].

(** What is used of an integral: the number of entities, the active coefficients and, for
    each of them, the entities in the mesh of the coefficient. *)
Record cint {D : Type} := mkCint { ig_num : nat; ig_active : list nat; ig_cells : list (nat * D) }.
Arguments cint : clear implicits.
Arguments mkCint {D}.
(** Form.h:421-432 *)
Definition active_coeffs {D} (igs : list ((nat * nat) * cint D)) (idx : nat) : option (list nat) :=
  option_map (fun e => ig_active (snd e)) (find (fun e => fst (fst e) =? idx) igs).
(** Form.h:304-338 and 563-571: [_cdata] has no index of the kernel, so that the entities of
    the first integral that has the coefficient are inserted. *)
Definition domain_coeff {D} (igs : list ((nat * nat) * cint D)) (idx c : nat) : option D :=
  option_map snd (find (fun e => fst e =? c) (concat (map (fun e => ig_cells (snd e)) (filter (fun e => fst (fst e) =? idx) igs)))).

(** pack.h:184-213; [sides] is two for interior facets and one otherwise. *)
Definition allocate_one {D} (coefficients : list (option func)) (sides : nat) (igs : list ((nat * nat) * cint D)) (idx : nat) : option (list T * nat) :=
  match coefficients with
  | [] => Some ([], 0)
  | _ => offsets <- coefficient_offsets coefficients ;;
         ig <- get_integral igs idx 0 ;;
         Some (repeat zero (sides * ig_num ig * last offsets 0), last offsets 0)
  end.
(** pack.h:220-240 *)
Definition allocate_type {D} (coefficients : list (option func)) (sides : nat) (igs : list ((nat * nat) * cint D)) : option (list (nat * (list T * nat))) :=
  omap (fun idx => r <- allocate_one coefficients sides igs idx ;; Some (idx, r)) (seq 0 (num_integrals igs 0)).

Section Types.
Variables (coefficients : list (option func)) (offsets : list nat).
Definition get_coefficient (coeff : nat) : option func := o <- nth_error coefficients coeff ;; o.
(** pack.h:284-316 *)
Definition pack_cell (igs : list ((nat * nat) * cint (list (option nat)))) (idx cstride : nat) (c : list T) (coeff : nat) : option (list T) :=
  u <- get_coefficient coeff ;;
  if 0 <? fn_codim u then None else
  cells <- domain_coeff igs idx coeff ;; off <- nth_error offsets coeff ;;
  pack_coefficient_entity c cstride u cells off.
(** pack.h:317-354 *)
Definition pack_interior (igs : list ((nat * nat) * cint (list (option nat * option nat)))) (idx cstride : nat) (c : list T) (coeff : nat) : option (list T) :=
  u <- get_coefficient coeff ;;
  facets <- domain_coeff igs idx coeff ;; off <- nth_error offsets coeff ;; off1 <- nth_error offsets (coeff + 1) ;;
  c <- pack_coefficient_entity c (2 * cstride) u (map fst facets) (2 * off) ;;
  pack_coefficient_entity c (2 * cstride) u (map snd facets) (off + off1).
(** pack.h:355-380 *)
Definition pack_exterior (igs : list ((nat * nat) * cint (list (option nat)))) (idx cstride : nat) (c : list T) (coeff : nat) : option (list T) :=
  u <- get_coefficient coeff ;;
  entities <- domain_coeff igs idx coeff ;; off <- nth_error offsets coeff ;;
  pack_coefficient_entity c cstride u entities off.
(** pack.h:274-283: the loop over the integrals of a type *)
Definition pack_type {D} (step : list ((nat * nat) * cint D) -> nat -> nat -> list T -> nat -> option (list T)) (igs : list ((nat * nat) * cint D))
    (storage : list (nat * (list T * nat))) : option (list (nat * (list T * nat))) :=
  match coefficients with
  | [] => Some storage
  | _ => omap (fun '(idx, (c, cstride)) =>
           active <- active_coeffs igs idx ;; c <- ofold (step igs idx cstride) active c ;; Some (idx, (c, cstride))) storage
  end.
End Types.

(** The coefficients of a form and what its integrals know about them. *)
Record cform := mkCform { fc_coefs : list (option func); fc_cell : list ((nat * nat) * cint (list (option nat)));
                          fc_int : list ((nat * nat) * cint (list (option nat * option nat))); fc_ext : list (list ((nat * nat) * cint (list (option nat)))) }.
(** pack.h:220-240 and 266-387: storage is allocated and filled.  The order of the types does
    not matter since every array belongs to one integral. *)
Definition pack_coefficients (f : cform) : option (@coefs T) :=
  cells <- allocate_type (fc_coefs f) 1 (fc_cell f) ;;
  ints <- allocate_type (fc_coefs f) 2 (fc_int f) ;;
  exts <- omap (allocate_type (fc_coefs f) 1) (fc_ext f) ;;
  offsets <- coefficient_offsets (fc_coefs f) ;;
  cells <- pack_type (fc_coefs f) (pack_cell (fc_coefs f) offsets) (fc_cell f) cells ;;
  ints <- pack_type (fc_coefs f) (pack_interior (fc_coefs f) offsets) (fc_int f) ints ;;
  exts <- omap (fun '(igs, st) => pack_type (fc_coefs f) (pack_exterior (fc_coefs f) offsets) igs st) (combine (fc_ext f) exts) ;;
  Some (mkCoefs cells ints exts).

(** * Packing over a list of entities *)

(** The mesh of a coefficient: that of the entities, or one that an entity map connects
    with it ([inverse]: the submesh is that of the coefficient); [None]: no map is given. *)
Inductive cmesh := SameMesh | MappedMesh (map : option (list nat * bool)).
(** The entities: cells, or pairs of a cell and a local index. *)
Inductive ents := Cells (l : list nat) | Pairs (l : list (nat * nat)).
Definition num_ents (e : ents) : nat := match e with Cells l => length l | Pairs l => length l end.
(** pack.h:402-490; [c_to_e]: [None] when the connectivity was not created. *)
Definition coefficient_cells (codim : nat) (m : cmesh) (c_to_e : option (list (list nat))) (e : ents) : option (list (option nat)) :=
  match m with
  | SameMesh => Some (map Some (match e with Cells l => l | Pairs l => map fst l end))
  | MappedMesh m =>
      '(em, inverse) <- m ;;
      match e with
      | Cells l => if codim =? 0 then em_apply em inverse l else None
      | Pairs l => if codim =? 0 then em_apply em inverse (map fst l) else
                   if negb inverse then None else
                   conn <- c_to_e ;;
                   es <- omap (fun '(c, k) => row <- nth_error conn c ;; nth_error row k) l ;;
                   em_apply em inverse es
      end
  end.
(** pack.h:504-570; [c] is the array of the caller. *)
Definition pack_entities (coeffs : list (func * cmesh)) (c_to_e : nat -> option (list (list nat))) (e : ents) (offsets : list nat) (c : list T) : option (list T) :=
  match offsets with [] => None | _ =>
    let cstride := last offsets 0 in
    if length c <? num_ents e * cstride then None else
    ofold (fun c '(k, (u, m)) =>
      cells <- coefficient_cells (fn_codim u) m (c_to_e (fn_codim u)) e ;;
      off <- nth_error offsets k ;; pack_coefficient_entity c cstride u cells off) (enum coeffs) c
  end.

(** pack.h:579-599 *)
Definition pack_constants (l : list (list T)) : option (list T) :=
  r <- ofold (fun '(v, offset) value => v <- ofold (fun v '(i, x) => upd v (offset + i) x) (enum value) v ;; Some (v, offset + length value))
         l (repeat zero (fold_left (fun s v => s + length v) l 0), 0) ;;
  Some (fst r).
End Pack.
Arguments cint : clear implicits.
Arguments mkCint {D}.
Arguments func : clear implicits.
Arguments cform : clear implicits.
