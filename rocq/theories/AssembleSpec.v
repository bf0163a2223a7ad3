(** What assembly must compute: every integral of a form contributes, for each of its
    entities, one small dense block per pair of cells; the assembled object is the sum of
    all blocks. *)
From Verif Require Import Base Algo MatrixCSR Assemble.
Open Scope nat_scope.

Section Sums.
Context {T : Type}.
Variables (zero : T) (add : T -> T -> T).
Definition sum (l : list T) : T := fold_right add zero l.
(** f 0 + ... + f (n-1) *)
Definition tsum (n : nat) (f : nat -> T) : T := sum (map f (seq 0 n)).

(** Entry [a] of a block belongs to component [a mod bs] of the dof [dofs[a / bs]]. *)
Definition target (bs : nat) (dofs : list nat) (a : nat) : nat := bs * nth (a / bs) dofs 0 + a mod bs.

(** A block of a vector: dofs and values. *)
Definition vblock : Type := list nat * (nat -> T).
(** What a block adds to entry [d] of the vector. *)
Definition vshare (bs : nat) (bl : vblock) (d : nat) : T :=
  tsum (bs * length (fst bl)) (fun a => if target bs (fst bl) a =? d then snd bl a else zero).
(** A block of a matrix: row dofs, column dofs and values. *)
Definition mblock : Type := list nat * list nat * (nat -> nat -> T).
(** Sum over all entries of a block: entry (a, b) with value v goes to row I and column J
    and counts as [val I J v]. *)
Definition bsum (bs0 bs1 : nat) (val : nat -> nat -> T -> T) (bl : mblock) : T :=
  let '(rows, cols, f) := bl in
  tsum (bs0 * length rows) (fun a => tsum (bs1 * length cols) (fun b => val (target bs0 rows a) (target bs1 cols b) (f a b))).
(** What a block adds to entry (I, J) of the matrix. *)
Definition mshare (bs0 bs1 : nat) (bl : mblock) (I J : nat) : T :=
  bsum bs0 bs1 (fun i j v => if (i =? I) && (j =? J) then v else zero) bl.

(** The assembled vector and matrix. *)
Definition vec_sum (bs : nat) (bls : list vblock) (d : nat) : T := sum (map (fun bl => vshare bs bl d) bls).
Definition mat_sum (bs0 bs1 : nat) (bls : list mblock) (I J : nat) : T := sum (map (fun bl => mshare bs0 bs1 bl I J) bls).
End Sums.

Section Forms.
Context {T U : Type}.
Variables (zero : T).
(** A function that does not change the size of its array. *)
Definition keeps_size (f : list T -> list T) : Prop := forall l, length (f l) = length l.

(** The rows of an array of [n] rows with [cs] values. *)
Definition coeff_rows (flat : list T) (cs n : nat) : list (list T) := map (fun i => firstn cs (skipn (i * cs) flat)) (seq 0 n).
(** The items of an integral: entity, cells of the arguments, coefficients. *)
Definition items {E A B} (ents : list E) (args0 : list A) (args1 : list B) (flat : list T) (cs : nat) : list (E * A * B * list T) :=
  combine (combine (combine ents args0) args1) (coeff_rows flat cs (length ents)).
(** The integrals for the kernel index [k]. *)
Definition entries {X} (l : list ((nat * nat) * X)) (k : nat) : list ((nat * nat) * X) := filter (fun e => snd (fst e) =? k) l.
(** Integrals are numbered from zero without gaps. *)
Definition consecutive {X} (l : list ((nat * nat) * X)) (k : nat) : Prop :=
  map (fun e => fst (fst e)) (entries l k) = seq 0 (length (entries l k)).
(** ** What one entity contributes *)

(** The coordinates of the points of a cell. *)
Definition points (xd : list (list nat)) (x : list U) (c : nat) : option (list U) := ds <- nth_error xd c ;; omap (nth_error x) ds.
(** The permutation data of a local entity, 0 if there are none. *)
Definition perm_data (perms : list (list nat)) (cell le : nat) : option nat :=
  match perms with [] => Some 0 | _ => r <- nth_error perms cell ;; nth_error r le end.
(** The coefficients of integral [i]. *)
Definition coeffs_of (cf : list (nat * (list T * nat))) (i : nat) : option (list T * nat) := option_map snd (find (fun e => fst e =? i) cf).
(** A cell that may be missing has no dofs. *)
Definition dofs_of (rows : list (list nat)) (c : option nat) : option (list nat) := match c with Some c => nth_error rows c | None => Some [] end.
(** [n] values of [raw] from [off] on, after the dof transformation [P] of the cell [c]. *)
Definition vec_part (P : list T -> nat -> nat -> list T) (n : nat) (raw : list T) (off : nat) (c : option nat) (a : nat) : T :=
  match c with Some c => nth a (P (map (fun a' => nth (off + a') raw zero) (seq 0 n)) c 1) zero | None => zero end.
(** The block of [raw], a matrix with [st] columns, that starts at ([i0], [j0]): the
    transformation of the test cell is applied to every column, then that of the trial cell
    to every row. *)
Definition mat_part (P0 P1T : list T -> nat -> nat -> list T) (n0 n1 st : nat) (raw : list T) (i0 j0 : nat) (c0 c1 : option nat) (a b : nat) : T :=
  match c0, c1 with
  | Some c0, Some c1 =>
    let col := fun b' => P0 (map (fun a' => nth ((i0 + a') * st + (j0 + b')) raw zero) (seq 0 n0)) c0 1 in
    nth b (P1T (map (fun b' => nth a (col b') zero) (seq 0 n1)) c1 1) zero
  | _, _ => zero
  end.
(** [P] with [m] columns transforms the first [n] rows of every column. *)
Definition on_columns (n : nat) (P : list T -> nat -> nat -> list T) : Prop :=
  forall l c m i j, n * m <= length l -> j < m -> i * m + j < length l ->
    nth (i * m + j) (P l c m) zero = if i <? n then nth i (P (map (fun i' => nth (i' * m + j) l zero) (seq 0 n)) c 1) zero else nth (i * m + j) l zero.
(** [P] with [r] rows transforms the first [n] entries of every row. *)
Definition on_rows (n : nat) (P : list T -> nat -> nat -> list T) : Prop :=
  forall l c r st i j, length l = r * st -> n <= st -> i < r -> j < st ->
    nth (i * st + j) (P l c r) zero = if j <? n then nth j (P (map (fun j' => nth (i * st + j') l zero) (seq 0 n)) c 1) zero else nth (i * st + j) l zero.

(** Blocks of a list of integrals. *)
Definition over_integrals {X B} (blocks : X -> list T -> nat -> option (list B)) (igs : list ((nat * nat) * X)) (cf : list (nat * (list T * nat))) : option (list B) :=
  bls <- omap (fun e => c <- coeffs_of cf (fst (fst e)) ;; blocks (snd e) (fst c) (snd c)) igs ;; Some (concat bls).
Definition over_items {I B} (blocks : I -> option (list B)) (l : list I) : option (list B) :=
  bls <- omap blocks l ;; Some (concat bls).

Section Typ.
Variables (ct : @ctype T) (x : list U) (constants : list T).
Let dm0 := ct_dm0 ct.
Let dm1 := ct_dm1 ct.
Let n0 := cd_bs dm0 * cd_width dm0.
Let n1 := cd_bs dm1 * cd_width dm1.

(** ** Linear forms *)
Definition cell_vblocks (ig : @cell_ig T U) (flat : list T) (cs : nat) : option (list vblock) :=
  if negb (length (ci_cells ig) * cs =? length flat) || negb (length (ci_cells0 ig) =? length (ci_cells ig)) then None else
  over_items (fun '(c, c0, _, co) => dofs <- nth_error (cd_rows dm0) c0 ;;
     cd <- points (ct_xd ct) x c ;;
     Some [(dofs, vec_part (ct_P0 ct) n0 (ci_kernel ig (repeat zero n0) co constants cd [] []) 0 (Some c0))]) (items (ci_cells ig) (ci_cells0 ig) (ci_cells ig) flat cs).
Definition ent_vblocks (perms : list (list nat)) (ig : @ent_ig T U) (flat : list T) (cs : nat) : option (list vblock) :=
  if negb (length (ei_ents ig) * cs =? length flat) || negb (length (ei_cells0 ig) =? length (ei_ents ig)) then None else
  over_items (fun '((c, le), c0, _, co) => dofs <- nth_error (cd_rows dm0) c0 ;; perm <- perm_data perms c le ;; cd <- points (ct_xd ct) x c ;;
     Some [(dofs, vec_part (ct_P0 ct) n0 (ei_kernel ig (repeat zero n0) co constants cd [le] [perm]) 0 (Some c0))]) (items (ei_ents ig) (ei_cells0 ig) (ei_ents ig) flat cs).
(** An interior facet has two cells; the second one has the second half of the vector. *)
Definition facet_vblocks (ig : @facet_ig T U) (flat : list T) (cs : nat) : option (list vblock) :=
  if negb (length (fi_facets ig) * (2 * cs) =? length flat) || negb (length (fi_cells0 ig) =? length (fi_facets ig)) then None else
  over_items (fun '(((ca, la), (cb, lb)), t, _, co) => d0 <- dofs_of (cd_rows dm0) (fst t) ;; d1 <- dofs_of (cd_rows dm0) (snd t) ;;
     cda <- points (ct_xd ct) x ca ;; cdb <- points (ct_xd ct) x cb ;; pa <- perm_data (ct_perms ct) ca la ;; pb <- perm_data (ct_perms ct) cb lb ;;
     let raw := fi_kernel ig (repeat zero (2 * n0)) co constants (cda ++ cdb) [la; lb] [pa; pb] in
     Some [(d0, vec_part (ct_P0 ct) n0 raw 0 (fst t)); (d1, vec_part (ct_P0 ct) n0 raw n0 (snd t))]) (items (fi_facets ig) (fi_cells0 ig) (fi_facets ig) flat (2 * cs)).

(** ** Bilinear forms *)
Definition cell_mblocks (ig : @cell_ig T U) (flat : list T) (cs : nat) : option (list mblock) :=
  if negb (length (ci_cells ig) * cs =? length flat) || negb (length (ci_cells0 ig) =? length (ci_cells ig)) || negb (length (ci_cells1 ig) =? length (ci_cells ig)) then None else
  over_items (fun '(c, c0, c1, co) => dofs0 <- nth_error (cd_rows dm0) c0 ;; dofs1 <- nth_error (cd_rows dm1) c1 ;;
     cd <- points (ct_xd ct) x c ;;
     Some [(dofs0, dofs1, mat_part (ct_P0 ct) (ct_P1T ct) n0 n1 n1 (ci_kernel ig (repeat zero (n0 * n1)) co constants cd [] []) 0 0 (Some c0) (Some c1))]) (items (ci_cells ig) (ci_cells0 ig) (ci_cells1 ig) flat cs).
Definition ent_mblocks (perms : list (list nat)) (ig : @ent_ig T U) (flat : list T) (cs : nat) : option (list mblock) :=
  if negb (length (ei_ents ig) * cs =? length flat) || negb (length (ei_cells0 ig) =? length (ei_ents ig)) || negb (length (ei_cells1 ig) =? length (ei_ents ig)) then None else
  over_items (fun '((c, le), c0, c1, co) => dofs0 <- nth_error (cd_rows dm0) c0 ;; dofs1 <- nth_error (cd_rows dm1) c1 ;; perm <- perm_data perms c le ;; cd <- points (ct_xd ct) x c ;;
     Some [(dofs0, dofs1, mat_part (ct_P0 ct) (ct_P1T ct) n0 n1 n1 (ei_kernel ig (repeat zero (n0 * n1)) co constants cd [le] [perm]) 0 0 (Some c0) (Some c1))]) (items (ei_ents ig) (ei_cells0 ig) (ei_cells1 ig) flat cs).
(** One block for every pair of a test and a trial cell. *)
Definition facet_mblocks (ig : @facet_ig T U) (flat : list T) (cs : nat) : option (list mblock) :=
  if negb (length (fi_facets ig) * (2 * cs) =? length flat) || negb (length (fi_cells0 ig) =? length (fi_facets ig)) || negb (length (fi_cells1 ig) =? length (fi_facets ig)) then None else
  over_items (fun '(((ca, la), (cb, lb)), t0, t1, co) =>
     d00 <- dofs_of (cd_rows dm0) (fst t0) ;; d01 <- dofs_of (cd_rows dm0) (snd t0) ;;
     d10 <- dofs_of (cd_rows dm1) (fst t1) ;; d11 <- dofs_of (cd_rows dm1) (snd t1) ;;
     cda <- points (ct_xd ct) x ca ;; cdb <- points (ct_xd ct) x cb ;; pa <- perm_data (ct_perms ct) ca la ;; pb <- perm_data (ct_perms ct) cb lb ;;
     let part := mat_part (ct_P0 ct) (ct_P1T ct) n0 n1 (2 * n1) (fi_kernel ig (repeat zero (2 * n0 * (2 * n1))) co constants (cda ++ cdb) [la; lb] [pa; pb]) in
     Some [(d00, d10, part 0 0 (fst t0) (fst t1)); (d00, d11, part 0 n1 (fst t0) (snd t1)); (d01, d10, part n0 0 (snd t0) (fst t1)); (d01, d11, part n0 n1 (snd t0) (snd t1))])
   (items (fi_facets ig) (fi_cells0 ig) (fi_cells1 ig) flat (2 * cs)).
End Typ.

(** The facet permutations are only used for exterior facets. *)
Definition ext_perms (ct : @ctype T) (k : nat) : list (list nat) := if k =? 0 then ct_perms ct else [].
Definition over_ext {B} (f : nat -> list ((nat * nat) * ent_ig (T := T) (U := U)) -> list (nat * (list T * nat)) -> option (list B)) (L : @form T U) (cf : @coefs T) : option (list B) :=
  bls <- omap (fun '(k, igs) => cfe <- nth_error (cf_ext cf) k ;; f k igs cfe) (enum (fm_ext L)) ;; Some (concat bls).
(** All blocks of a linear (bilinear) form for cell type number [ti]. *)
Definition type_vblocks (L : form) (x : list U) (constants : list T) (cf : coefs) (ti : nat) (ct : ctype) : option (list vblock) :=
  bc <- over_integrals (cell_vblocks ct x constants) (entries (fm_cell L) ti) (cf_cell cf) ;;
  bi <- over_integrals (facet_vblocks ct x constants) (entries (fm_int L) ti) (cf_int cf) ;;
  be <- over_ext (fun k igs cfe => over_integrals (ent_vblocks ct x constants (ext_perms ct k)) (entries igs ti) cfe) L cf ;;
  Some (bc ++ bi ++ be).
Definition type_mblocks (a : form) (x : list U) (constants : list T) (cf : coefs) (ti : nat) (ct : ctype) : option (list mblock) :=
  bc <- over_integrals (cell_mblocks ct x constants) (entries (fm_cell a) ti) (cf_cell cf) ;;
  bi <- over_integrals (facet_mblocks ct x constants) (entries (fm_int a) ti) (cf_int cf) ;;
  be <- over_ext (fun k igs cfe => over_integrals (ent_mblocks ct x constants (ext_perms ct k)) (entries igs ti) cfe) a cf ;;
  Some (bc ++ bi ++ be).
Definition form_vblocks (L : form) (types : list ctype) (x : list U) (constants : list T) (cf : coefs) : option (list vblock) :=
  bls <- omap (fun '(ti, ct) => type_vblocks L x constants cf ti ct) (enum types) ;; Some (concat bls).
Definition form_mblocks (a : form) (types : list ctype) (x : list U) (constants : list T) (cf : coefs) : option (list mblock) :=
  bls <- omap (fun '(ti, ct) => type_mblocks a x constants cf ti ct) (enum types) ;; Some (concat bls).

(** A form on [nt] cell types: integrals are numbered without gaps for every cell type,
    kernels do not change the size of their array, and only cell integrals are used when
    there is more than one cell type. *)
Definition kernels_ok (L : @form T U) : Prop :=
  (forall e, In e (fm_cell L) -> forall co cst cd en p, keeps_size (fun l => ci_kernel (snd e) l co cst cd en p)) /\
  (forall e, In e (fm_int L) -> forall co cst cd en p, keeps_size (fun l => fi_kernel (snd e) l co cst cd en p)) /\
  (forall igs e, In igs (fm_ext L) -> In e igs -> forall co cst cd en p, keeps_size (fun l => ei_kernel (snd e) l co cst cd en p)).
Definition form_ok (L : @form T U) (nt : nat) : Prop :=
  (forall ti, ti < nt -> consecutive (fm_cell L) ti /\ length (entries (fm_cell L) ti) = length (entries (fm_cell L) 0)) /\
  consecutive (fm_int L) 0 /\ (forall igs, In igs (fm_ext L) -> consecutive igs 0) /\
  (1 < nt -> fm_int L = [] /\ forall igs, In igs (fm_ext L) -> igs = []).
(** The dofmaps have [cd_width] dofs per cell, all cell types have the block sizes of the
    space, and transformations do not change sizes. *)
Definition type_sizes (bs0 bs1 : nat) (ct : @ctype T) : Prop :=
  cd_bs (ct_dm0 ct) = bs0 /\ cd_bs (ct_dm1 ct) = bs1 /\
  (forall r, In r (cd_rows (ct_dm0 ct)) -> length r = cd_width (ct_dm0 ct)) /\
  (forall r, In r (cd_rows (ct_dm1 ct)) -> length r = cd_width (ct_dm1 ct)) /\
  (forall c n, keeps_size (fun l => ct_P0 ct l c n)) /\ (forall c n, keeps_size (fun l => ct_P1T ct l c n)).
(** Transformations act on the dofs of one cell. *)
Definition type_ok (bs0 bs1 : nat) (ct : @ctype T) : Prop :=
  type_sizes bs0 bs1 ct /\ on_columns (bs0 * cd_width (ct_dm0 ct)) (ct_P0 ct) /\ on_rows (bs1 * cd_width (ct_dm1 ct)) (ct_P1T ct).

(** ** Functionals *)

(** The value of a kernel that is started with [v]. *)
Definition value1 (kernel : list T -> list T -> list T -> list U -> list nat -> list nat -> list T) (v : T) (co constants : list T) (cd : list U) (ents prm : list nat) : option T :=
  nth_error (kernel [v] co constants cd ents prm) 0.
(** A kernel for functionals adds to the value that it is given. *)
Definition adds_value (add : T -> T -> T) (kernel : list T -> list T -> list T -> list U -> list nat -> list nat -> list T) : Prop :=
  forall v co cst cd en p, value1 kernel v co cst cd en p = (w <- value1 kernel zero co cst cd en p ;; Some (add v w)).
(** The values of the entities of an integral. *)
Definition cell_values (ct : @ctype T) (x : list U) (constants : list T) (ig : @cell_ig T U) (flat : list T) (cs : nat) : option (list T) :=
  if negb (length (ci_cells ig) * cs =? length flat) then None else
  over_items (fun '(c, _, _, co) => cd <- points (ct_xd ct) x c ;; v <- value1 (ci_kernel ig) zero co constants cd [] [] ;; Some [v])
    (items (ci_cells ig) (ci_cells ig) (ci_cells ig) flat cs).
Definition ent_values (ct : @ctype T) (x : list U) (constants : list T) (perms : list (list nat)) (ig : @ent_ig T U) (flat : list T) (cs : nat) : option (list T) :=
  if negb (length (ei_ents ig) * cs =? length flat) then None else
  over_items (fun '((c, le), _, _, co) => cd <- points (ct_xd ct) x c ;; perm <- perm_data perms c le ;; v <- value1 (ei_kernel ig) zero co constants cd [le] [perm] ;; Some [v])
    (items (ei_ents ig) (ei_ents ig) (ei_ents ig) flat cs).
Definition facet_values (ct : @ctype T) (x : list U) (constants : list T) (ig : @facet_ig T U) (flat : list T) (cs : nat) : option (list T) :=
  if negb (length (fi_facets ig) * (2 * cs) =? length flat) then None else
  over_items (fun '(((ca, la), (cb, lb)), _, _, co) => cda <- points (ct_xd ct) x ca ;; cdb <- points (ct_xd ct) x cb ;;
     pa <- perm_data (ct_perms ct) ca la ;; pb <- perm_data (ct_perms ct) cb lb ;; v <- value1 (fi_kernel ig) zero co constants (cda ++ cdb) [la; lb] [pa; pb] ;; Some [v])
    (items (fi_facets ig) (fi_facets ig) (fi_facets ig) flat (2 * cs)).
Definition type_values (M : form) (x : list U) (constants : list T) (cf : coefs) (ti : nat) (ct : ctype) : option (list T) :=
  bc <- over_integrals (cell_values ct x constants) (entries (fm_cell M) ti) (cf_cell cf) ;;
  bi <- over_integrals (facet_values ct x constants) (entries (fm_int M) ti) (cf_int cf) ;;
  be <- over_ext (fun k igs cfe => over_integrals (ent_values ct x constants (ext_perms ct k)) (entries igs ti) cfe) M cf ;;
  Some (bc ++ bi ++ be).
Definition form_values (M : form) (types : list ctype) (x : list U) (constants : list T) (cf : coefs) : option (list T) :=
  vs <- omap (fun '(ti, ct) => type_values M x constants cf ti ct) (enum types) ;; Some (concat vs).
(** Integrals are numbered without gaps for every cell type, and kernels add. *)
Definition functional_ok (add : T -> T -> T) (M : @form T U) (nt : nat) : Prop :=
  (forall ti, ti < nt -> consecutive (fm_cell M) ti /\ consecutive (fm_int M) ti /\ forall igs, In igs (fm_ext M) -> consecutive igs ti) /\
  (forall e, In e (fm_cell M) -> adds_value add (ci_kernel (snd e))) /\ (forall e, In e (fm_int M) -> adds_value add (fi_kernel (snd e))) /\
  (forall igs e, In igs (fm_ext M) -> In e igs -> adds_value add (ei_kernel (snd e))).
End Forms.
