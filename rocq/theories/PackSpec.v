(** What packed coefficients are. *)
From Verif Require Import Base Algo MatrixCSR Assemble AssembleSpec Pack.
Open Scope nat_scope.

Section Spec.
Context {T : Type}.
Variable zero : T.

(** The values of the dofs of a cell, in the order of the dofmap, block by block, and then
    transformed to the reference cell. *)
Definition cell_values (u : func T) (cell : nat) : list T :=
  let bs := cd_bs (fn_dm u) in
  fn_tr u (concat (map (fun d => map (fun k => nth (bs * d + k) (fn_x u) zero) (seq 0 bs)) (nth cell (cd_rows (fn_dm u)) []))) cell 1.
(** Nothing is known on a cell that does not exist. *)
Definition side_values (u : func T) (cell : option nat) : list T :=
  match cell with Some c => cell_values u c | None => repeat zero (fn_dim u) end.

(** A function with [fn_dim] values per cell. *)
Definition func_ok (u : func T) : Prop :=
  (forall row, In row (cd_rows (fn_dm u)) -> cd_bs (fn_dm u) * length row = fn_dim u /\ forall d, In d row -> cd_bs (fn_dm u) * d + cd_bs (fn_dm u) <= length (fn_x u)) /\
  (forall c n, keeps_size (fun l => fn_tr u l c n)).
(** The cells of a coefficient exist. *)
Definition cells_of (u : func T) (num : nat) (cells : list (option nat)) : Prop :=
  length cells = num /\ forall c, In (Some c) cells -> c < length (cd_rows (fn_dm u)).

(** The row of entity [e]: one coefficient after the other, zero for those that are not in
    the integral; [cells k] are the cells of coefficient [k]. *)
Definition packed_row (us : list (func T)) (active : list nat) (cells : nat -> list (option nat)) (e : nat) : list T :=
  concat (map (fun '(k, u) => if mem k active then side_values u (nth e (cells k) None) else repeat zero (fn_dim u)) (enum us)).
(** Interior facets: every coefficient has its values on both sides next to each other. *)
Definition packed_pair_row (us : list (func T)) (active : list nat) (cells : nat -> list (option nat * option nat)) (e : nat) : list T :=
  concat (map (fun '(k, u) => if mem k active then let p := nth e (cells k) (None, None) in side_values u (fst p) ++ side_values u (snd p)
                              else repeat zero (2 * fn_dim u)) (enum us)).
(** The number of values of all coefficients in a cell. *)
Definition stride (us : list (func T)) : nat := lsum (map fn_dim us).

(** The integrals of a form on one cell type: numbered without gaps, and the active
    coefficients have the cells [cells i k] in integral [i]. *)
Definition integrals_ok {D} (us : list (func T)) (igs : list ((nat * nat) * cint D)) (ok : func T -> nat -> D -> Prop) (cells : nat -> nat -> D) : Prop :=
  (forall e, In e igs -> snd (fst e) = 0) /\ consecutive igs 0 /\
  forall i ig, In ((i, 0), ig) igs -> NoDup (map fst (ig_cells ig)) /\
    forall k, In k (ig_active ig) -> exists u, nth_error us k = Some u /\ In (k, cells i k) (ig_cells ig) /\ ok u (ig_num ig) (cells i k).
Definition pairs_of (u : func T) (num : nat) (l : list (option nat * option nat)) : Prop := cells_of u num (map fst l) /\ cells_of u num (map snd l).
(** A cell integral has no coefficients on meshes of lower dimension. *)
Definition same_dim (u : func T) : Prop := fn_codim u = 0.
End Spec.

(** * Entities given by the caller *)
From Verif Require Import FormData FormSpec.
Section Entities.
Context {T : Type}.
Variable zero : T.
(** The entities: a cell and maybe a local index *)
Definition ents_list (e : ents) : list (nat * option nat) := match e with Cells l => map (fun c => (c, None)) l | Pairs l => map (fun p => (fst p, Some (snd p))) l end.
(** [x] is the cell of the mesh of the coefficient that is the cell of the entity or, when the mesh
    of the coefficient has a lower dimension, the entity itself.  [conn]: entities of the cells. *)
Definition on_cell (codim : nat) (m : cmesh) (conn : list (list nat)) (e : nat * option nat) (x : option nat) : Prop :=
  match m with
  | SameMesh => x = Some (fst e)
  | MappedMesh (Some (em, inverse)) =>
      if codim =? 0 then same_cell em inverse (fst e) x
      else exists k row f, snd e = Some k /\ nth_error conn (fst e) = Some row /\ nth_error row k = Some f /\ same_cell em true f x
  | MappedMesh None => False
  end.
(** The entities of the cells that are [d] dimensions lower *)
Definition conn_of (c_to_e : nat -> option (list (list nat))) (d : nat) : list (list nat) := match c_to_e d with Some c => c | None => [] end.
(** The entity maps serve: without repetitions, cells that are mapped forward are in the map, and
    on meshes of lower dimension the map is one into the mesh of the entities. *)
Definition map_ok (codim : nat) (m : cmesh) (c_to_e : option (list (list nat))) (e : ents) : Prop :=
  match m with
  | SameMesh => True
  | MappedMesh (Some (em, inverse)) => NoDup em /\
      if codim =? 0 then inverse = false -> forall p, In p (ents_list e) -> fst p < length em
      else inverse = true /\ (exists l, e = Pairs l) /\ exists conn, c_to_e = Some conn /\ forall p, In p (ents_list e) -> exists k row f, snd p = Some k /\ nth_error conn (fst p) = Some row /\ nth_error row k = Some f
  | MappedMesh None => False
  end.
(** The values in a slot after packing: those of the cell, or those from before if there is no
    such cell. *)
Definition slot_values (u : func T) (x : option nat) (old : list T) : list T := match x with Some c => cell_values zero u c | None => old end.
End Entities.
