(** Model of cpp/dolfinx/fem/sparsitybuild.{h,cpp} and of [create_sparsity_pattern] and
    [build_sparsity_pattern] in cpp/dolfinx/fem/utils.h.

    Simplifications: those of Assemble.v for forms and dofmaps; the cells that
    [extract_cells] takes from the facets of an argument are the arrays that the integrals
    hold; the creation of entities and connectivities does not change the pattern; the
    integral types are visited in the order cell, interior facet, others. *)
From Verif Require Import Base Algo MatrixCSR Assemble Sparsity.
Open Scope nat_scope.

(** sparsitybuild.h:38-50 *)
Definition sb_cells (dm0 dm1 : celldofs) (cells0 cells1 : list nat) (p : pattern) : option pattern :=
  if negb (length cells0 =? length cells1) then None else
  ofold (fun p '(c0, c1) =>
    d0 <- nth_error (cd_rows dm0) c0 ;; d1 <- nth_error (cd_rows dm1) c1 ;;
    sp_insert_block p d0 d1) (combine cells0 cells1) p.

(** sparsitybuild.cpp:16-55 *)
Definition sb_facets (dm0 dm1 : celldofs) (cells0 cells1 : list (option nat * option nat)) (p : pattern) : option pattern :=
  if negb (length cells0 =? length cells1) then None else
  ofold (fun p '(t0, t1) =>
    d00 <- opt_dofs (cd_rows dm0) (fst t0) ;; d01 <- opt_dofs (cd_rows dm0) (snd t0) ;;
    d10 <- opt_dofs (cd_rows dm1) (fst t1) ;; d11 <- opt_dofs (cd_rows dm1) (snd t1) ;;
    p <- sp_insert_block p d00 d10 ;; p <- sp_insert_block p d00 d11 ;;
    p <- sp_insert_block p d01 d10 ;; sp_insert_block p d01 d11) (combine cells0 cells1) p.

Section Forms.
Context {T U : Type}.

(** utils.h:221-313; [rank] is the number of arguments of the form. *)
Definition build_sparsity_pattern (rank : nat) (a : @form T U) (types : list (@ctype T)) (p : pattern) : option pattern :=
  if negb (rank =? 2) then None else
  ofold (fun p '(ti, ct) =>
    p <- ofold (fun p i =>
           ig <- get_integral (fm_cell a) i ti ;;
           sb_cells (ct_dm0 ct) (ct_dm1 ct) (ci_cells0 ig) (ci_cells1 ig) p)
         (seq 0 (num_integrals (fm_cell a) ti)) p ;;
    p <- ofold (fun p i =>
           ig <- get_integral (fm_int a) i 0 ;;
           sb_facets (ct_dm0 ct) (ct_dm1 ct) (fi_cells0 ig) (fi_cells1 ig) p)
         (seq 0 (num_integrals (fm_int a) ti)) p ;;
    ofold (fun p igs =>
      ofold (fun p i =>
           ig <- get_integral igs i 0 ;;
           sb_cells (ct_dm0 ct) (ct_dm1 ct) (ei_cells0 ig) (ei_cells1 ig) p)
         (seq 0 (num_integrals igs ti)) p) (fm_ext a) p) (enum types) p.

(** utils.h:192-213: the index maps are arguments of the finalisation. *)
Definition create_sparsity_pattern (rank : nat) (a : @form T U) (types : list (@ctype T)) : option pattern :=
  build_sparsity_pattern rank a types pt_empty.
End Forms.
