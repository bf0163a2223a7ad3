(** Which entries the matrix of a bilinear form must have, and the matrix of a form that is
    distributed over processes. *)
From Verif Require Import Base IndexMap IndexMapSpec MatrixCSR Assemble AssembleSpec.
Open Scope nat_scope.

(** [d] is a dof of cell [c]. *)
Definition in_cell (dm : celldofs) (c d : nat) : Prop := exists row, nth_error (cd_rows dm) c = Some row /\ In d row.
(** [d] is a dof of one of the (at most two) cells at a facet. *)
Definition in_sides (dm : celldofs) (t : option nat * option nat) (d : nat) : Prop :=
  exists c, (fst t = Some c \/ snd t = Some c) /\ in_cell dm c d.
(** [u] and [v] are at the same place of two lists. *)
Definition together {A B} (l : list A) (m : list B) (u : A) (v : B) : Prop := exists k, nth_error l k = Some u /\ nth_error m k = Some v.

Section Couples.
Context {T U : Type}.
Variables (a : @form T U) (types : list (@ctype T)).

(** Test dof [r] and trial dof [c] meet at an entity over which the form is integrated. *)
Inductive couples (r c : nat) : Prop :=
| by_cell i ti ct ig c0 c1 : nth_error types ti = Some ct -> In ((i, ti), ig) (fm_cell a) ->
    together (ci_cells0 ig) (ci_cells1 ig) c0 c1 -> in_cell (ct_dm0 ct) c0 r -> in_cell (ct_dm1 ct) c1 c -> couples r c
| by_facet i ti ct ig t0 t1 : nth_error types ti = Some ct -> In ((i, ti), ig) (fm_int a) ->
    together (fi_cells0 ig) (fi_cells1 ig) t0 t1 -> in_sides (ct_dm0 ct) t0 r -> in_sides (ct_dm1 ct) t1 c -> couples r c
| by_entity igs i ti ct ig c0 c1 : nth_error types ti = Some ct -> In igs (fm_ext a) -> In ((i, ti), ig) igs ->
    together (ei_cells0 ig) (ei_cells1 ig) c0 c1 -> in_cell (ct_dm0 ct) c0 r -> in_cell (ct_dm1 ct) c1 c -> couples r c.

(** The cells of the arguments exist, and both arguments have as many. *)
Definition side_ok (dm : celldofs) (t : option nat * option nat) : Prop :=
  forall c, fst t = Some c \/ snd t = Some c -> c < length (cd_rows dm).
Definition cells_exist : Prop := forall ti ct, nth_error types ti = Some ct ->
  (forall i ig, In ((i, ti), ig) (fm_cell a) -> length (ci_cells0 ig) = length (ci_cells1 ig) /\
     (forall c, In c (ci_cells0 ig) -> c < length (cd_rows (ct_dm0 ct))) /\ (forall c, In c (ci_cells1 ig) -> c < length (cd_rows (ct_dm1 ct)))) /\
  (forall i ig, In ((i, ti), ig) (fm_int a) -> length (fi_cells0 ig) = length (fi_cells1 ig) /\
     (forall t, In t (fi_cells0 ig) -> side_ok (ct_dm0 ct) t) /\ (forall t, In t (fi_cells1 ig) -> side_ok (ct_dm1 ct) t)) /\
  (forall igs i ig, In igs (fm_ext a) -> In ((i, ti), ig) igs -> length (ei_cells0 ig) = length (ei_cells1 ig) /\
     (forall c, In c (ei_cells0 ig) -> c < length (cd_rows (ct_dm0 ct))) /\ (forall c, In c (ei_cells1 ig) -> c < length (cd_rows (ct_dm1 ct)))).
(** Dofs are local indices of the index maps of the spaces. *)
Definition dofs_local (m0 m1 : imap) : Prop := forall ct, In ct types ->
  (forall row d, In row (cd_rows (ct_dm0 ct)) -> In d row -> d < size_local m0 + num_ghosts m0) /\
  (forall row d, In row (cd_rows (ct_dm1 ct)) -> In d row -> d < size_local m1 + num_ghosts m1).
End Couples.

(** The blocks of a process with global dofs. *)
Definition to_global (m : imap) (d : nat) : nat := match local_to_global m d with Some g => g | None => 0 end.
Definition global_block {T} (m0 m1 : imap) (bl : @mblock T) : @mblock T :=
  let '(rows, cols, f) := bl in (map (to_global m0) rows, map (to_global m1) cols, f).
(** The blocks of all [P] processes. *)
Definition all_blocks {T} (P : nat) (maps0 maps1 : nat -> imap) (bls : nat -> list (@mblock T)) : list (@mblock T) :=
  concat (map (fun q => map (global_block (maps0 q) (maps1 q)) (bls q)) (seq 0 P)).
(** The test dof with global index [G] and the trial dof with global index [g] meet on some
    process. *)
Definition couples_globally {T U} (P : nat) (maps0 maps1 : nat -> imap) (a : nat -> @form T U) (types : nat -> list (@ctype T)) (G g : nat) : Prop :=
  exists p i j, p < P /\ couples (a p) (types p) i j /\ local_to_global (maps0 p) i = Some G /\ local_to_global (maps1 p) j = Some g.
