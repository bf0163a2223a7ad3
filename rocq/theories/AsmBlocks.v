(** The blocks of a form as the assembly loops compute them. *)
From Verif Require Import Base Algo MatrixCSR Assemble AssembleSpec.
Open Scope nat_scope.

Section Forms.
Context {T U : Type}.
Variables (zero : T).
(** Blocks of a list of integrals. *)
Definition over_igs {X B} (blocks : X -> list T -> nat -> option (list B)) (igs : list ((nat * nat) * X)) (cf : list (nat * (list T * nat))) : option (list B) :=
  bls <- omap (fun e => c <- get_coeffs cf (fst (fst e)) ;; blocks (snd e) (fst c) (snd c)) igs ;; Some (concat bls).
Section Typ.
Variables (ct : @ctype T) (x : list U) (constants : list T).
Let dm0 := ct_dm0 ct.
Let dm1 := ct_dm1 ct.
Let n0 := cd_bs dm0 * cd_width dm0.
Let n1 := cd_bs dm1 * cd_width dm1.

(** ** Linear forms *)
Definition cell_vb (ig : @cell_ig T U) (flat : list T) (cs : nat) : option (list vblock) :=
  if negb (length (ci_cells ig) * cs =? length flat) || negb (length (ci_cells0 ig) =? length (ci_cells ig)) then None else
  over_items (fun '(c, c0, _, co) => dofs <- nth_error (cd_rows dm0) c0 ;;
     be <- elem_vector zero n0 (ct_P0 ct) (ci_kernel ig) constants (ct_xd ct) x c co [] [] c0 ;;
     Some [(dofs, fun a => nth a be zero)]) (items (ci_cells ig) (ci_cells0 ig) (ci_cells ig) flat cs).
Definition ent_vb (perms : list (list nat)) (ig : @ent_ig T U) (flat : list T) (cs : nat) : option (list vblock) :=
  if negb (length (ei_ents ig) * cs =? length flat) || negb (length (ei_cells0 ig) =? length (ei_ents ig)) then None else
  over_items (fun '((c, le), c0, _, co) => dofs <- nth_error (cd_rows dm0) c0 ;; perm <- perm_of perms c le ;;
     be <- elem_vector zero n0 (ct_P0 ct) (ei_kernel ig) constants (ct_xd ct) x c co [le] [perm] c0 ;;
     Some [(dofs, fun a => nth a be zero)]) (items (ei_ents ig) (ei_cells0 ig) (ei_ents ig) flat cs).
(** An interior facet has two cells; the second one has the second half of the vector. *)
Definition facet_vb (ig : @facet_ig T U) (flat : list T) (cs : nat) : option (list vblock) :=
  if negb (length (fi_facets ig) * (2 * cs) =? length flat) || negb (length (fi_cells0 ig) =? length (fi_facets ig)) then None else
  over_items (fun '(f, t, _, co) => d0 <- opt_dofs (cd_rows dm0) (fst t) ;; d1 <- opt_dofs (cd_rows dm0) (snd t) ;;
     be <- facet_vector zero (cd_bs dm0) (cd_width dm0) (ct_P0 ct) (fi_kernel ig) constants (ct_xd ct) x (ct_perms ct) f co t ;;
     Some [(d0, fun a => nth a be zero); (d1, fun a => nth (n0 + a) be zero)]) (items (fi_facets ig) (fi_cells0 ig) (fi_facets ig) flat (2 * cs)).

(** ** Bilinear forms *)
Definition cell_mb (ig : @cell_ig T U) (flat : list T) (cs : nat) : option (list mblock) :=
  if negb (length (ci_cells ig) * cs =? length flat) || negb (length (ci_cells0 ig) =? length (ci_cells ig)) || negb (length (ci_cells1 ig) =? length (ci_cells ig)) then None else
  over_items (fun '(c, c0, c1, co) => dofs0 <- nth_error (cd_rows dm0) c0 ;; dofs1 <- nth_error (cd_rows dm1) c1 ;;
     Ae <- elem_tensor zero n0 n1 (ct_P0 ct) (ct_P1T ct) (ci_kernel ig) constants (ct_xd ct) x c co [] [] c0 c1 ;;
     Some [(dofs0, dofs1, fun a b => nth (a * n1 + b) Ae zero)]) (items (ci_cells ig) (ci_cells0 ig) (ci_cells1 ig) flat cs).
Definition ent_mb (perms : list (list nat)) (ig : @ent_ig T U) (flat : list T) (cs : nat) : option (list mblock) :=
  if negb (length (ei_ents ig) * cs =? length flat) || negb (length (ei_cells0 ig) =? length (ei_ents ig)) || negb (length (ei_cells1 ig) =? length (ei_ents ig)) then None else
  over_items (fun '((c, le), c0, c1, co) => dofs0 <- nth_error (cd_rows dm0) c0 ;; dofs1 <- nth_error (cd_rows dm1) c1 ;; perm <- perm_of perms c le ;;
     Ae <- elem_tensor zero n0 n1 (ct_P0 ct) (ct_P1T ct) (ei_kernel ig) constants (ct_xd ct) x c co [le] [perm] c0 c1 ;;
     Some [(dofs0, dofs1, fun a b => nth (a * n1 + b) Ae zero)]) (items (ei_ents ig) (ei_cells0 ig) (ei_cells1 ig) flat cs).
(** One block for every pair of a test and a trial cell. *)
Definition facet_mb (ig : @facet_ig T U) (flat : list T) (cs : nat) : option (list mblock) :=
  if negb (length (fi_facets ig) * (2 * cs) =? length flat) || negb (length (fi_cells0 ig) =? length (fi_facets ig)) || negb (length (fi_cells1 ig) =? length (fi_facets ig)) then None else
  over_items (fun '(f, t0, t1, co) =>
     d00 <- opt_dofs (cd_rows dm0) (fst t0) ;; d01 <- opt_dofs (cd_rows dm0) (snd t0) ;;
     d10 <- opt_dofs (cd_rows dm1) (fst t1) ;; d11 <- opt_dofs (cd_rows dm1) (snd t1) ;;
     Ae <- facet_tensor zero dm0 dm1 (ct_P0 ct) (ct_P1T ct) (fi_kernel ig) constants (ct_xd ct) x (ct_perms ct) f co t0 t1 ;;
     let at_ := fun i j a b => nth ((i * n0 + a) * (2 * n1) + (j * n1 + b)) Ae zero in
     Some [(d00, d10, at_ 0 0); (d00, d11, at_ 0 1); (d01, d10, at_ 1 0); (d01, d11, at_ 1 1)])
   (items (fi_facets ig) (fi_cells0 ig) (fi_cells1 ig) flat (2 * cs)).
End Typ.

(** All blocks of a linear (bilinear) form for cell type number [ti]. *)
Definition type_vb (L : form) (x : list U) (constants : list T) (cf : coefs) (ti : nat) (ct : ctype) : option (list vblock) :=
  bc <- over_igs (cell_vb ct x constants) (entries (fm_cell L) ti) (cf_cell cf) ;;
  bi <- over_igs (facet_vb ct x constants) (entries (fm_int L) ti) (cf_int cf) ;;
  be <- over_ext (fun k igs cfe => over_igs (ent_vb ct x constants (ext_perms ct k)) (entries igs ti) cfe) L cf ;;
  Some (bc ++ bi ++ be).
Definition type_mb (a : form) (x : list U) (constants : list T) (cf : coefs) (ti : nat) (ct : ctype) : option (list mblock) :=
  bc <- over_igs (cell_mb ct x constants) (entries (fm_cell a) ti) (cf_cell cf) ;;
  bi <- over_igs (facet_mb ct x constants) (entries (fm_int a) ti) (cf_int cf) ;;
  be <- over_ext (fun k igs cfe => over_igs (ent_mb ct x constants (ext_perms ct k)) (entries igs ti) cfe) a cf ;;
  Some (bc ++ bi ++ be).
Definition form_vb (L : form) (types : list ctype) (x : list U) (constants : list T) (cf : coefs) : option (list vblock) :=
  bls <- omap (fun '(ti, ct) => type_vb L x constants cf ti ct) (enum types) ;; Some (concat bls).
Definition form_mb (a : form) (types : list ctype) (x : list U) (constants : list T) (cf : coefs) : option (list mblock) :=
  bls <- omap (fun '(ti, ct) => type_mb a x constants cf ti ct) (enum types) ;; Some (concat bls).

(** ** Functionals *)

(** A kernel for functionals adds to the value that it is given. *)
Definition adds_val (add : T -> T -> T) (kernel : list T -> list T -> list T -> list U -> list nat -> list nat -> list T) : Prop :=
  forall v co cst cd en p, kernel1 kernel v co cst cd en p = (w <- kernel1 kernel zero co cst cd en p ;; Some (add v w)).
(** The values of the entities of an integral. *)
Definition cell_vals (ct : @ctype T) (x : list U) (constants : list T) (ig : @cell_ig T U) (flat : list T) (cs : nat) : option (list T) :=
  if negb (length (ci_cells ig) * cs =? length flat) then None else
  over_items (fun '(c, _, _, co) => cd <- coords (ct_xd ct) x c ;; v <- kernel1 (ci_kernel ig) zero co constants cd [] [] ;; Some [v])
    (items (ci_cells ig) (ci_cells ig) (ci_cells ig) flat cs).
Definition ent_vals (ct : @ctype T) (x : list U) (constants : list T) (perms : list (list nat)) (ig : @ent_ig T U) (flat : list T) (cs : nat) : option (list T) :=
  if negb (length (ei_ents ig) * cs =? length flat) then None else
  over_items (fun '((c, le), _, _, co) => cd <- coords (ct_xd ct) x c ;; perm <- perm_of perms c le ;; v <- kernel1 (ei_kernel ig) zero co constants cd [le] [perm] ;; Some [v])
    (items (ei_ents ig) (ei_ents ig) (ei_ents ig) flat cs).
Definition facet_vals (ct : @ctype T) (x : list U) (constants : list T) (ig : @facet_ig T U) (flat : list T) (cs : nat) : option (list T) :=
  if negb (length (fi_facets ig) * (2 * cs) =? length flat) then None else
  over_items (fun '(((ca, la), (cb, lb)), _, _, co) => cda <- coords (ct_xd ct) x ca ;; cdb <- coords (ct_xd ct) x cb ;;
     pa <- perm_of (ct_perms ct) ca la ;; pb <- perm_of (ct_perms ct) cb lb ;; v <- kernel1 (fi_kernel ig) zero co constants (cda ++ cdb) [la; lb] [pa; pb] ;; Some [v])
    (items (fi_facets ig) (fi_facets ig) (fi_facets ig) flat (2 * cs)).
Definition type_vals (M : form) (x : list U) (constants : list T) (cf : coefs) (ti : nat) (ct : ctype) : option (list T) :=
  bc <- over_igs (cell_vals ct x constants) (entries (fm_cell M) ti) (cf_cell cf) ;;
  bi <- over_igs (facet_vals ct x constants) (entries (fm_int M) ti) (cf_int cf) ;;
  be <- over_ext (fun k igs cfe => over_igs (ent_vals ct x constants (ext_perms ct k)) (entries igs ti) cfe) M cf ;;
  Some (bc ++ bi ++ be).
Definition form_vals (M : form) (types : list ctype) (x : list U) (constants : list T) (cf : coefs) : option (list T) :=
  vs <- omap (fun '(ti, ct) => type_vals M x constants cf ti ct) (enum types) ;; Some (concat vs).
(** Integrals are numbered without gaps for every cell type, and kernels add. *)
Definition func_ok (add : T -> T -> T) (M : @form T U) (nt : nat) : Prop :=
  (forall ti, ti < nt -> consecutive (fm_cell M) ti /\ consecutive (fm_int M) ti /\ forall igs, In igs (fm_ext M) -> consecutive igs ti) /\
  (forall e, In e (fm_cell M) -> adds_val add (ci_kernel (snd e))) /\ (forall e, In e (fm_int M) -> adds_val add (fi_kernel (snd e))) /\
  (forall igs e, In igs (fm_ext M) -> In e igs -> adds_val add (ei_kernel (snd e))).
Definition has_mb (bs0 bs1 : nat) (a : @form T U) (types : list (@ctype T)) (x : list U) (constants : list T) (cf : coefs) (bls : list mblock) : Prop :=
  0 < bs0 /\ 0 < bs1 /\ (forall ct, In ct types -> type_sizes bs0 bs1 ct) /\ kernels_ok a /\ form_ok a (length types) /\
  form_mb a types x constants cf = Some bls.
End Forms.
