(** Model of the assemblers: cpp/dolfinx/fem/assemble_vector_impl.h,
    assemble_matrix_impl.h, assemble_scalar_impl.h and assembler.h.

    Simplifications: scalars are an abstract type with exact operations; a point of the
    mesh geometry (three coordinates) is one value of the type [U]; a kernel is a function of
    the tensor, the coefficients, the constants, the coordinates, the local entities and the
    permutations that returns the new tensor; a dof transformation is a function of the
    array, the cell and the dimension (the permutation data are part of the function); the
    index -1 of a cell that does not exist is [None]; the scratch buffers that are
    overwritten before they are read are not state. *)
From Verif Require Import Base Algo MatrixCSR.
Open Scope nat_scope.

Section Assemble.
Context {T U : Type}.
Variables (zero : T) (add : T -> T -> T).

(** The cell dofs of a space: rows, dofs per cell ([map().extent(1)]), block size. *)
Record celldofs := mkCd { cd_rows : list (list nat); cd_width : nat; cd_bs : nat }.
Notation kern := (list T -> list T -> list T -> list U -> list nat -> list nat -> list T).
Notation transform := (list T -> nat -> nat -> list T).

(** Get cell coordinates/geometry: assemble_vector_impl.h:99-102 and the same lines in the
    other loops. *)
Definition coords (xd : list (list nat)) (x : list U) (c : nat) : option (list U) :=
  ds <- nth_error xd c ;; omap (nth_error x) ds.
(** [perms.empty() ? 0 : perms(cell, local_entity)] *)
Definition perm_of (perms : list (list nat)) (cell le : nat) : option nat :=
  match perms with [] => Some 0 | _ => r <- nth_error perms cell ;; nth_error r le end.
(** [&coeffs(index, 0)] of an array with rows of [cs] values *)
Definition coeff_row (flat : list T) (cs index : nat) : option (list T) := slice flat (index * cs) (index * cs + cs).
(** An operation on [std::span(l.data() + off, n)] *)
Definition on_span (l : list T) (off n : nat) (f : list T -> list T) : option (list T) :=
  s <- slice l off (off + n) ;; Some (firstn off l ++ f s ++ skipn (off + n) l).
(** [std::ranges::copy(v, std::next(l.begin(), off))] *)
Definition put (l : list nat) (off : nat) (v : list nat) : option (list nat) :=
  if off + length v <=? length l then Some (firstn off l ++ v ++ skipn (off + length v) l) else None.

(** * Vectors *)

(** [b[bs * dofs[i] + k] += be[bs * (i + offset) + k]]: assemble_vector_impl.h:110-114,
    205-213, 323-337 *)
Definition add_block (bs : nat) (be : list T) (offset : nat) (dofs : list nat) (b : list T) : option (list T) :=
  ofold (fun b '(i, d) =>
    ofold (fun b k => v <- nth_error be (bs * (i + offset) + k) ;; apply_op add b (bs * d + k) v) (seq 0 bs) b)
    (enum dofs) b.

(** Element vector of a cell or of an entity: assemble_vector_impl.h:99-108 and 191-203.
    [ents] and [prm] are empty (null pointers) for cells. *)
Definition elem_vector (n : nat) (P0 : transform) (kernel : kern) (constants : list T) (xd : list (list nat)) (x : list U)
    (c : nat) (co : list T) (ents prm : list nat) (c0 : nat) : option (list T) :=
  cd <- coords xd x c ;; Some (P0 (kernel (repeat zero n) co constants cd ents prm) c0 1).
(** assemble_vector_impl.h:75-116 *)
Definition vec_cells (bs w : nat) (rows : list (list nat)) (P0 : transform) (xd : list (list nat)) (x : list U) (kernel : kern) (constants : list T)
    (flat : list T) (cs : nat) (cells cells0 : list nat) (b : list T) : option (list T) :=
  ofold (fun b '(index, c) =>
    c0 <- nth_error cells0 index ;;
    co <- coeff_row flat cs index ;;
    be <- elem_vector (bs * w) P0 kernel constants xd x c co [] [] c0 ;;
    dofs <- nth_error rows c0 ;; add_block bs be 0 dofs b) (enum cells) b.
(** assemble_vector_impl.h:160-215 *)
Definition vec_entities (bs w : nat) (rows : list (list nat)) (P0 : transform) (xd : list (list nat)) (x : list U) (kernel : kern) (constants : list T)
    (flat : list T) (cs : nat) (perms : list (list nat)) (entities : list (nat * nat)) (cells0 : list nat) (b : list T) : option (list T) :=
  ofold (fun b '(f, (cell, le)) =>
    c0 <- nth_error cells0 f ;;
    co <- coeff_row flat cs f ;;
    perm <- perm_of perms cell le ;;
    be <- elem_vector (bs * w) P0 kernel constants xd x cell co [le] [perm] c0 ;;
    dofs <- nth_error rows c0 ;; add_block bs be 0 dofs b) (enum entities) b.
(** Element vector of an interior facet: assemble_vector_impl.h:290-321 *)
Definition facet_vector (bs w : nat) (P0 : transform) (kernel : kern) (constants : list T) (xd : list (list nat)) (x : list U) (perms : list (list nat))
    (f : (nat * nat) * (nat * nat)) (co : list T) (t : option nat * option nat) : option (list T) :=
  let '((ca, la), (cb, lb)) := f in
  cda <- coords xd x ca ;; cdb <- coords xd x cb ;;
  pa <- perm_of perms ca la ;; pb <- perm_of perms cb lb ;;
  let be := kernel (repeat zero (bs * 2 * w)) co constants (cda ++ cdb) [la; lb] [pa; pb] in
  let be := match fst t with Some c => P0 be c 1 | None => be end in
  match snd t with Some c => on_span be (bs * w) (bs * w) (fun s => P0 s c 1) | None => Some be end.
(** The dofs of a cell that may not exist: assemble_vector_impl.h:301-304 *)
Definition opt_dofs (rows : list (list nat)) (c : option nat) : option (list nat) :=
  match c with Some c => nth_error rows c | None => Some [] end.
(** assemble_vector_impl.h:252-339; coefficients are rows of [2 * cs] values. *)
Definition vec_facets (bs w : nat) (rows : list (list nat)) (P0 : transform) (xd : list (list nat)) (x : list U) (kernel : kern) (constants : list T)
    (flat : list T) (cs : nat) (perms : list (list nat)) (facets : list ((nat * nat) * (nat * nat))) (cells0 : list (option nat * option nat)) (b : list T) : option (list T) :=
  ofold (fun b '(f, fc) =>
    t <- nth_error cells0 f ;;
    co <- coeff_row flat (2 * cs) f ;;
    d0 <- opt_dofs rows (fst t) ;; d1 <- opt_dofs rows (snd t) ;;
    be <- facet_vector bs w P0 kernel constants xd x perms fc co t ;;
    b <- add_block bs be 0 d0 b ;; add_block bs be w d1 b) (enum facets) b.

(** * Matrices *)

(** assemble_matrix_impl.h:27-34 *)
Definition has_bc (dofs : list nat) (bc : list bool) (bs : nat) : option bool :=
  ofold (fun (r : bool) d => ofold (fun (r : bool) k => if r then Some true else nth_error bc (bs * d + k)) (seq 0 bs) r) dofs false.
(** [std::fill_n(std::next(Ae.begin(), p), n, 0)] *)
Definition fill_zero (Ae : list T) (p n : nat) : option (list T) := ofold (fun Ae i => upd Ae (p + i) zero) (seq 0 n) Ae.
(** Zero rows for BCs: assemble_matrix_impl.h:164-178, 343-357, 617-631 *)
Definition zero_rows (bs ndim1 : nat) (dofs : list nat) (bc : list bool) (Ae : list T) : option (list T) :=
  match bc with [] => Some Ae | _ =>
    ofold (fun Ae '(i, d) => ofold (fun Ae k =>
      m <- nth_error bc (bs * d + k) ;;
      if (m : bool) then fill_zero Ae (ndim1 * (bs * i + k)) ndim1 else Some Ae) (seq 0 bs) Ae) (enum dofs) Ae end.
(** Zero columns for BCs: assemble_matrix_impl.h:180-195, 359-374, 633-647 *)
Definition zero_cols (bs ndim0 ndim1 : nat) (dofs : list nat) (bc : list bool) (Ae : list T) : option (list T) :=
  match bc with [] => Some Ae | _ =>
    ofold (fun Ae '(j, d) => ofold (fun Ae k =>
      m <- nth_error bc (bs * d + k) ;;
      if (m : bool) then ofold (fun Ae row => upd Ae (row * ndim1 + (bs * j + k)) zero) (seq 0 ndim0) Ae else Some Ae) (seq 0 bs) Ae) (enum dofs) Ae end.

Section Mat.
(** The state of the object that [mat_set] changes. *)
Context {S : Type}.
Variable mat_set : S -> list nat -> list nat -> list T -> option S.
(** LiftingMode *)
Variable lifting : bool.

(** The body of the loop over cells or entities from [has_bc] on:
    assemble_matrix_impl.h:138-199, 317-378. *)
Definition mat_step (bs0 bs1 : nat) (bc0 bc1 : list bool) (dofs0 dofs1 : list nat) (tensor : option (list T)) (s : S) : option S :=
  skip <- (if lifting then h <- has_bc dofs1 bc1 bs1 ;; Some (negb h) else Some false) ;;
  if (skip : bool) then Some s else
  Ae <- tensor ;;
  let ndim0 := bs0 * length dofs0 in let ndim1 := bs1 * length dofs1 in
  Ae <- (if lifting then Some Ae else Ae <- zero_rows bs0 ndim1 dofs0 bc0 Ae ;; zero_cols bs1 ndim0 ndim1 dofs1 bc1 Ae) ;;
  mat_set s dofs0 dofs1 Ae.
(** Element tensor of a cell or entity: assemble_matrix_impl.h:145-157, 324-337 *)
Definition elem_tensor (n0 n1 : nat) (P0 P1T : transform) (kernel : kern) (constants : list T) (xd : list (list nat)) (x : list U)
    (c : nat) (co : list T) (ents prm : list nat) (c0 c1 : nat) : option (list T) :=
  cd <- coords xd x c ;; Some (P1T (P0 (kernel (repeat zero (n0 * n1)) co constants cd ents prm) c0 n1) c1 n0).
(** assemble_matrix_impl.h:93-200 *)
Definition mat_cells (dm0 dm1 : celldofs) (P0 P1T : transform) (xd : list (list nat)) (x : list U) (kernel : kern) (constants : list T)
    (flat : list T) (cs : nat) (bc0 bc1 : list bool) (cells cells0 cells1 : list nat) (s : S) : option S :=
  ofold (fun s '(index, c) =>
    c0 <- nth_error cells0 index ;; c1 <- nth_error cells1 index ;;
    dofs0 <- nth_error (cd_rows dm0) c0 ;; dofs1 <- nth_error (cd_rows dm1) c1 ;;
    mat_step (cd_bs dm0) (cd_bs dm1) bc0 bc1 dofs0 dofs1
      (co <- coeff_row flat cs index ;;
       elem_tensor (cd_bs dm0 * cd_width dm0) (cd_bs dm1 * cd_width dm1) P0 P1T kernel constants xd x c co [] [] c0 c1) s) (enum cells) s.
(** assemble_matrix_impl.h:265-379 *)
Definition mat_entities (dm0 dm1 : celldofs) (P0 P1T : transform) (xd : list (list nat)) (x : list U) (kernel : kern) (constants : list T)
    (flat : list T) (cs : nat) (perms : list (list nat)) (bc0 bc1 : list bool) (entities : list (nat * nat)) (cells0 cells1 : list nat) (s : S) : option S :=
  ofold (fun s '(f, (cell, le)) =>
    c0 <- nth_error cells0 f ;; c1 <- nth_error cells1 f ;;
    dofs0 <- nth_error (cd_rows dm0) c0 ;; dofs1 <- nth_error (cd_rows dm1) c1 ;;
    mat_step (cd_bs dm0) (cd_bs dm1) bc0 bc1 dofs0 dofs1
      (co <- coeff_row flat cs f ;; perm <- perm_of perms cell le ;;
       elem_tensor (cd_bs dm0 * cd_width dm0) (cd_bs dm1 * cd_width dm1) P0 P1T kernel constants xd x cell co [le] [perm] c0 c1) s) (enum entities) s.

(** Element tensor of an interior facet: assemble_matrix_impl.h:532-611 *)
Definition facet_tensor (dm0 dm1 : celldofs) (P0 P1T : transform) (kernel : kern) (constants : list T) (xd : list (list nat)) (x : list U) (perms : list (list nat))
    (f : (nat * nat) * (nat * nat)) (co : list T) (t0 t1 : option nat * option nat) : option (list T) :=
  let '((ca, la), (cb, lb)) := f in
  let n0 := cd_bs dm0 * cd_width dm0 in let n1 := cd_bs dm1 * cd_width dm1 in
  let num_rows := cd_bs dm0 * 2 * cd_width dm0 in let num_cols := cd_bs dm1 * 2 * cd_width dm1 in
  cda <- coords xd x ca ;; cdb <- coords xd x cb ;;
  pa <- perm_of perms ca la ;; pb <- perm_of perms cb lb ;;
  let Ae := kernel (repeat zero (num_rows * num_cols)) co constants (cda ++ cdb) [la; lb] [pa; pb] in
  let Ae := match fst t0 with Some c => P0 Ae c num_cols | None => Ae end in
  Ae <- match snd t0 with Some c => on_span Ae (n0 * num_cols) (n0 * num_cols) (fun s => P0 s c num_cols) | None => Some Ae end ;;
  let Ae := match fst t1 with Some c => P1T Ae c num_rows | None => Ae end in
  match snd t1 with
  | Some c => ofold (fun Ae row => on_span Ae (row * num_cols + n1) n1 (fun s => P1T s c 1)) (seq 0 num_rows) Ae
  | None => Some Ae end.
(** The lambda [insert_block]: assemble_matrix_impl.h:503-519 *)
Definition insert_block (bs0 bs1 num_cols : nat) (Ae : list T) (rdofs cdofs : list nat) (row_offset col_offset : nat) (s : S) : option S :=
  match rdofs, cdofs with
  | [], _ | _, [] => Some s
  | _, _ =>
    block <- omap (fun i => slice Ae ((row_offset + i) * num_cols + col_offset) ((row_offset + i) * num_cols + col_offset + length cdofs * bs1))
                  (seq 0 (length rdofs * bs0)) ;;
    mat_set s rdofs cdofs (concat block)
  end.
(** assemble_matrix_impl.h:521-666.  [dmapjoint0] and [dmapjoint1] keep the values of the
    previous facet where a cell does not exist. *)
Definition facet_step (dm0 dm1 : celldofs) (P0 P1T : transform) (xd : list (list nat)) (x : list U) (kernel : kern) (constants : list T)
    (perms : list (list nat)) (bc0 bc1 : list bool) (fc : (nat * nat) * (nat * nat)) (co : list T) (t0 t1 : option nat * option nat)
    (st : S * list nat * list nat) : option (S * list nat * list nat) :=
  let '(s, j0, j1) := st in
  let bs0 := cd_bs dm0 in let bs1 := cd_bs dm1 in
  let num_rows := bs0 * 2 * cd_width dm0 in let num_cols := bs1 * 2 * cd_width dm1 in
  d00 <- opt_dofs (cd_rows dm0) (fst t0) ;; d01 <- opt_dofs (cd_rows dm0) (snd t0) ;;
  j0 <- put j0 0 d00 ;; j0 <- put j0 (cd_width dm0) d01 ;;
  d10 <- opt_dofs (cd_rows dm1) (fst t1) ;; d11 <- opt_dofs (cd_rows dm1) (snd t1) ;;
  j1 <- put j1 0 d10 ;; j1 <- put j1 (cd_width dm1) d11 ;;
  skip <- (if lifting then h <- has_bc j1 bc1 bs1 ;; Some (negb h) else Some false) ;;
  if (skip : bool) then Some (s, j0, j1) else
  Ae <- facet_tensor dm0 dm1 P0 P1T kernel constants xd x perms fc co t0 t1 ;;
  Ae <- (if lifting then Some Ae else Ae <- zero_rows bs0 num_cols j0 bc0 Ae ;; zero_cols bs1 num_rows num_cols j1 bc1 Ae) ;;
  s <- match fst t0, snd t0, fst t1, snd t1 with
       | Some _, Some _, Some _, Some _ => mat_set s j0 j1 Ae
       | _, _, _, _ =>
         s <- insert_block bs0 bs1 num_cols Ae d00 d10 0 0 s ;;
         s <- insert_block bs0 bs1 num_cols Ae d00 d11 0 (bs1 * cd_width dm1) s ;;
         s <- insert_block bs0 bs1 num_cols Ae d01 d10 (bs0 * cd_width dm0) 0 s ;;
         insert_block bs0 bs1 num_cols Ae d01 d11 (bs0 * cd_width dm0) (bs1 * cd_width dm1) s
       end ;;
  Some (s, j0, j1).
(** assemble_matrix_impl.h:443-667; the buffer of the joint dofs is zero at the start of the
    first integral (line 751) and is passed on to the next one. *)
Definition mat_facets (dm0 dm1 : celldofs) (P0 P1T : transform) (xd : list (list nat)) (x : list U) (kernel : kern) (constants : list T)
    (flat : list T) (cs : nat) (perms : list (list nat)) (bc0 bc1 : list bool) (facets : list ((nat * nat) * (nat * nat)))
    (cells0 cells1 : list (option nat * option nat)) (st : S * list nat * list nat) : option (S * list nat * list nat) :=
  ofold (fun st '(f, fc) =>
    t0 <- nth_error cells0 f ;; t1 <- nth_error cells1 f ;; co <- coeff_row flat (2 * cs) f ;;
    facet_step dm0 dm1 P0 P1T xd x kernel constants perms bc0 bc1 fc co t0 t1 st) (enum facets) st.
End Mat.

(** * Forms *)

(** The integrals of a form (Form.h [integral_data]) with the entities of the arguments
    ([domain_arg]); the arrays of the arguments are not used by functionals, the second one
    not by linear forms. *)
Record cell_ig := mkCI { ci_kernel : kern; ci_cells : list nat; ci_cells0 : list nat; ci_cells1 : list nat }.
Record ent_ig := mkEI { ei_kernel : kern; ei_ents : list (nat * nat); ei_cells0 : list nat; ei_cells1 : list nat }.
Record facet_ig := mkFI { fi_kernel : kern; fi_facets : list ((nat * nat) * (nat * nat));
                          fi_cells0 : list (option nat * option nat); fi_cells1 : list (option nat * option nat) }.
(** [Form::_integrals], split by type; keys are (index of the integral, index of the kernel).
    [fm_ext]: exterior facets, vertices and ridges. *)
Record form := mkForm { fm_cell : list ((nat * nat) * cell_ig); fm_int : list ((nat * nat) * facet_ig); fm_ext : list (list ((nat * nat) * ent_ig)) }.
(** The packed coefficients, with their stride, by index of the integral. *)
Record coefs := mkCoefs { cf_cell : list (nat * (list T * nat)); cf_int : list (nat * (list T * nat)); cf_ext : list (list (nat * (list T * nat))) }.
(** Form.h:450-458 *)
Definition num_integrals {X} (l : list ((nat * nat) * X)) (k : nat) : nat := countb (fun e => snd (fst e) =? k) l.
(** Form.h:388-396, 494-501, 538-547 *)
Definition get_integral {X} (l : list ((nat * nat) * X)) (i k : nat) : option X :=
  option_map snd (find (fun e => (fst (fst e) =? i) && (snd (fst e) =? k)) l).
(** [coefficients.at({type, i})] *)
Definition get_coeffs (l : list (nat * (list T * nat))) (i : nat) : option (list T * nat) :=
  option_map snd (find (fun e => fst e =? i) l).
(** What depends on the cell type: geometry dofmap, dofmaps and transformations of the
    spaces, facet permutations (empty when the form does not need them). *)
Record ctype := mkCt { ct_xd : list (list nat); ct_dm0 : celldofs; ct_P0 : transform; ct_dm1 : celldofs; ct_P1T : transform; ct_perms : list (list nat) }.

(** The [if (bs == 1) ... else if (bs == 3) ... else] in assemble_vector and apply_lifting:
    the first two use a compile-time block size. *)
Definition by_bs {X} (bs : nat) (f : nat -> X) : X := if bs =? 1 then f 1 else if bs =? 3 then f 3 else f bs.

(** assemble_vector_impl.h:427-615 *)
Definition assemble_vector (L : form) (types : list ctype) (x : list U) (constants : list T) (cf : coefs) (b : list T) : option (list T) :=
  ofold (fun b '(ti, ct) =>
    let dm := ct_dm0 ct in
    b <- ofold (fun b i =>
           ig <- get_integral (fm_cell L) i ti ;; '(flat, cs) <- get_coeffs (cf_cell cf) i ;;
           if negb (length (ci_cells ig) * cs =? length flat) then None else
           by_bs (cd_bs dm) (fun bs => vec_cells bs (cd_width dm) (cd_rows dm) (ct_P0 ct) (ct_xd ct) x (ci_kernel ig) constants flat cs (ci_cells ig) (ci_cells0 ig) b))
         (seq 0 (num_integrals (fm_cell L) 0)) b ;;
    b <- ofold (fun b i =>
           ig <- get_integral (fm_int L) i 0 ;; '(flat, cs) <- get_coeffs (cf_int cf) i ;;
           if negb (length (fi_facets ig) * 2 * cs =? length flat) then None else
           by_bs (cd_bs dm) (fun bs => vec_facets bs (cd_width dm) (cd_rows dm) (ct_P0 ct) (ct_xd ct) x (fi_kernel ig) constants flat cs (ct_perms ct) (fi_facets ig) (fi_cells0 ig) b))
         (seq 0 (num_integrals (fm_int L) 0)) b ;;
    ofold (fun b '(k, igs) =>
      cfe <- nth_error (cf_ext cf) k ;;
      ofold (fun b i =>
           ig <- get_integral igs i 0 ;; '(flat, cs) <- get_coeffs cfe i ;;
           if negb (length (ei_ents ig) * cs =? length flat) then None else
           by_bs (cd_bs dm) (fun bs => vec_entities bs (cd_width dm) (cd_rows dm) (ct_P0 ct) (ct_xd ct) x (ei_kernel ig) constants flat cs
                                         (if k =? 0 then ct_perms ct else []) (ei_ents ig) (ei_cells0 ig) b))
         (seq 0 (num_integrals igs 0)) b) (enum (fm_ext L)) b) (enum types) b.

(** assemble_matrix_impl.h:698-884 *)
Definition assemble_matrix_impl {S} (mat_set : S -> list nat -> list nat -> list T -> option S) (lifting : bool)
    (a : form) (types : list ctype) (x : list U) (constants : list T) (cf : coefs) (bc0 bc1 : list bool) (s : S) : option S :=
  ofold (fun s '(ti, ct) =>
    let '(dm0, dm1) := (ct_dm0 ct, ct_dm1 ct) in
    s <- ofold (fun s i =>
           ig <- get_integral (fm_cell a) i ti ;; '(flat, cs) <- get_coeffs (cf_cell cf) i ;;
           if negb (length (ci_cells ig) * cs =? length flat) then None else
           mat_cells mat_set lifting dm0 dm1 (ct_P0 ct) (ct_P1T ct) (ct_xd ct) x (ci_kernel ig) constants flat cs bc0 bc1 (ci_cells ig) (ci_cells0 ig) (ci_cells1 ig) s)
         (seq 0 (num_integrals (fm_cell a) ti)) s ;;
    st <- ofold (fun st i =>
           if 1 <? length types then None else
           ig <- get_integral (fm_int a) i 0 ;; '(flat, cs) <- get_coeffs (cf_int cf) i ;;
           if negb (length (fi_facets ig) * 2 * cs =? length flat) then None else
           mat_facets mat_set lifting dm0 dm1 (ct_P0 ct) (ct_P1T ct) (ct_xd ct) x (fi_kernel ig) constants flat cs (ct_perms ct) bc0 bc1 (fi_facets ig) (fi_cells0 ig) (fi_cells1 ig) st)
         (seq 0 (num_integrals (fm_int a) ti)) (s, repeat 0 (2 * cd_width dm0), repeat 0 (2 * cd_width dm1)) ;;
    ofold (fun s '(k, igs) =>
      cfe <- nth_error (cf_ext cf) k ;;
      ofold (fun s i =>
           if 1 <? length types then None else
           ig <- get_integral igs i 0 ;; '(flat, cs) <- get_coeffs cfe i ;;
           if negb (length (ei_ents ig) * cs =? length flat) then None else
           mat_entities mat_set lifting dm0 dm1 (ct_P0 ct) (ct_P1T ct) (ct_xd ct) x (ei_kernel ig) constants flat cs
             (if k =? 0 then ct_perms ct else []) bc0 bc1 (ei_ents ig) (ei_cells0 ig) (ei_cells1 ig) s)
         (seq 0 (num_integrals igs ti)) s) (enum (fm_ext a)) (fst (fst st))) (enum types) s.

(** assemble_scalar_impl.h:32-61, 79-114, 123-168: the kernel adds to the value. *)
Definition kernel1 (kernel : kern) (value : T) (co constants : list T) (cd : list U) (ents prm : list nat) : option T :=
  nth_error (kernel [value] co constants cd ents prm) 0.
Definition sca_cells (xd : list (list nat)) (x : list U) (kernel : kern) (constants flat : list T) (cs : nat) (cells : list nat) : option T :=
  ofold (fun v '(index, c) => cd <- coords xd x c ;; co <- coeff_row flat cs index ;; kernel1 kernel v co constants cd [] []) (enum cells) zero.
Definition sca_entities (xd : list (list nat)) (x : list U) (kernel : kern) (constants flat : list T) (cs : nat) (perms : list (list nat)) (ents : list (nat * nat)) : option T :=
  ofold (fun v '(f, (cell, le)) => cd <- coords xd x cell ;; perm <- perm_of perms cell le ;; co <- coeff_row flat cs f ;;
           kernel1 kernel v co constants cd [le] [perm]) (enum ents) zero.
Definition sca_facets (xd : list (list nat)) (x : list U) (kernel : kern) (constants flat : list T) (cs : nat) (perms : list (list nat)) (facets : list ((nat * nat) * (nat * nat))) : option T :=
  ofold (fun v '(f, ((ca, la), (cb, lb))) => cda <- coords xd x ca ;; cdb <- coords xd x cb ;;
           pa <- perm_of perms ca la ;; pb <- perm_of perms cb lb ;; co <- coeff_row flat (2 * cs) f ;;
           kernel1 kernel v co constants (cda ++ cdb) [la; lb] [pa; pb]) (enum facets) zero.
(** assemble_scalar_impl.h:172-269, assembler.h:173-198 *)
Definition assemble_scalar (M : form) (types : list ctype) (x : list U) (constants : list T) (cf : coefs) : option T :=
  ofold (fun val '(ti, ct) =>
    v <- ofold (fun v i =>
           ig <- get_integral (fm_cell M) i ti ;; '(flat, cs) <- get_coeffs (cf_cell cf) i ;;
           if negb (length (ci_cells ig) * cs =? length flat) then None else
           w <- sca_cells (ct_xd ct) x (ci_kernel ig) constants flat cs (ci_cells ig) ;; Some (add v w))
         (seq 0 (num_integrals (fm_cell M) ti)) zero ;;
    v <- ofold (fun v i =>
           ig <- get_integral (fm_int M) i ti ;; '(flat, cs) <- get_coeffs (cf_int cf) i ;;
           if negb (length (fi_facets ig) * 2 * cs =? length flat) then None else
           w <- sca_facets (ct_xd ct) x (fi_kernel ig) constants flat cs (ct_perms ct) (fi_facets ig) ;; Some (add v w))
         (seq 0 (num_integrals (fm_int M) ti)) v ;;
    v <- ofold (fun v '(k, igs) =>
      cfe <- nth_error (cf_ext cf) k ;;
      ofold (fun v i =>
           ig <- get_integral igs i ti ;; '(flat, cs) <- get_coeffs cfe i ;;
           if negb (length (ei_ents ig) * cs =? length flat) then None else
           w <- sca_entities (ct_xd ct) x (ei_kernel ig) constants flat cs (if k =? 0 then ct_perms ct else []) (ei_ents ig) ;; Some (add v w))
         (seq 0 (num_integrals igs ti)) v) (enum (fm_ext M)) v ;;
    Some (add val v)) (enum types) zero.
End Assemble.
Arguments mkCI {T U}. Arguments mkEI {T U}. Arguments mkFI {T U}. Arguments mkForm {T U}. Arguments mkCoefs {T}. Arguments mkCt {T}.
