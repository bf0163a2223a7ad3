(** Model of cpp/dolfinx/refinement/uniform.cpp.

    Simplifications: the entity types are the same on all ranks; the layout of a coordinate
    element is given by its number of dofs and by the dofs of its vertices; the arrays [new_x]
    and [new_v] are written from the front to the end, so they are lists; numbers are naturals.
    The result is what is passed to [create_mesh]: the coordinates and the cells. *)
From Verif Require Import Base Algo World IndexMap Scatterer CellTypes.
Open Scope nat_scope.

(** One rank's part of the mesh. *)
Record umesh (T : Type) := mkUM {
  um_maps : list (list imap);                                       (* Topology::index_maps(dim) *)
  um_conn : nat * nat -> nat * nat -> option (list (list nat));     (* Topology::connectivity *)
  um_dofmaps : list (list (list nat));                              (* Geometry::dofmaps *)
  um_layouts : list (nat * list (list nat));                        (* num_dofs() and entity_dofs(0, k) *)
  um_x : list T                                                     (* Geometry::x *)
}.
Arguments mkUM {T}.
Arguments um_maps {T}.
Arguments um_conn {T}.
Arguments um_dofmaps {T}.
Arguments um_layouts {T}.
Arguments um_x {T}.

(** [std::find] and [std::ranges::distance] *)
Fixpoint find_type (t : cell_type) (l : list cell_type) : option nat :=
  match l with
  | [] => None
  | u :: l => if cell_eqb u t then Some 0 else option_map S (find_type t l)
  end.

(** uniform.cpp:198-244: the vertices of the cells of the same type *)
Definition refined_cell_list (t : cell_type) : option (list nat) :=
  match t with
  | Hexahedron => Some
      [0; 9; 8; 20; 10; 22; 21; 26; 1; 11; 8; 20; 12; 23; 21; 26;
       2; 13; 9; 20; 14; 24; 22; 26; 3; 13; 11; 20; 15; 24; 23; 26;
       4; 16; 10; 21; 17; 25; 22; 26; 5; 16; 12; 21; 18; 25; 23; 26;
       6; 17; 14; 22; 19; 25; 24; 26; 7; 18; 15; 23; 19; 25; 24; 26]
  | Tetrahedron => Some
      [0; 7; 8; 9; 1; 5; 6; 9; 2; 4; 6; 8; 3; 4; 5; 7;
       9; 4; 6; 8; 9; 4; 8; 7; 9; 4; 7; 5; 9; 4; 5; 6]
  | Prism => Some
      [0; 6; 7; 8; 15; 16; 6; 1; 9; 15; 10; 17; 7; 9; 2; 16;
       17; 11; 6; 9; 7; 15; 17; 16; 15; 17; 16; 12; 14; 13; 8; 15;
       16; 3; 12; 13; 11; 17; 16; 5; 14; 13; 10; 15; 17; 4; 12; 14]
  | Pyramid => Some
      [0; 5; 6; 13; 7; 1; 8; 5; 13; 9; 3; 10; 8; 13; 12; 2; 6; 10; 13; 11; 7; 9; 11; 12; 4]
  | Triangle => Some [0; 4; 5; 1; 5; 3; 2; 3; 4; 3; 4; 5]
  | Quadrilateral => Some [0; 4; 5; 8; 1; 6; 4; 8; 2; 7; 5; 8; 3; 7; 6; 8]
  | _ => None
  end.
(** uniform.cpp:181-182 *)
Definition pyr_to_tet_list : list nat := [5; 13; 7; 9; 6; 13; 11; 7; 10; 13; 12; 11; 8; 13; 9; 12].

Section Uniform.
Variable T : Type.
Variables (zero : T) (add : T -> T -> T) (div : T -> nat -> T).
(** The number of ranks, the types of the entities of every dimension and the meshes *)
Variable P : nat.
Variable types : list (list cell_type).
Variable mesh : nat -> umesh T.

(** uniform.cpp:21, 28-32 *)
Definition tdim : nat := length types - 1.
Definition cell_entity_types : list cell_type := last types [].
(** uniform.cpp:41-56 *)
Definition e_index : list nat :=
  [0; 0]
  ++ match find_type Quadrilateral (nth 2 types []) with Some i => [i] | None => [] end
  ++ (if tdim =? 3 then match find_type Hexahedron cell_entity_types with Some i => [i] | None => [] end else []).

(** uniform.cpp:59-72: the maps of the entities with new vertices; a dimension without maps
    throws. *)
Definition uni_maps (r : nat) : option (list imap) :=
  omap (fun de => ms <- nth_error (um_maps (mesh r)) (fst de) ;; nth_error ms (snd de)) (combine (seq 0 (length e_index)) e_index).
Definition local_size (maps : list imap) : nat := lsum (map size_local maps).

(** uniform.cpp:84-87: [entity_dofs(0, k)] throws if there is no vertex [k]. *)
Definition layout_dofs (layout : nat * list (list nat)) : option (list nat) :=
  omap (fun k => dofs <- nth_error (snd layout) k ;; hd_error dofs) (seq 0 (fst layout)).
(** uniform.cpp:75-98 *)
Definition vertex_to_x (r : nat) (maps : list imap) : option (list nat) :=
  m0 <- nth_error maps 0 ;;
  ofold (fun v2x j =>
    x_dofmap <- nth_error (um_dofmaps (mesh r)) j ;;
    c_to_v <- um_conn (mesh r) (tdim, j) (0, 0) ;;
    layout <- nth_error (um_layouts (mesh r)) j ;;
    entity_dofs <- layout_dofs layout ;;
    ims <- nth_error (um_maps (mesh r)) tdim ;;
    im <- nth_error ims j ;;
    ofold (fun v2x c =>
      vertices <- nth_error c_to_v c ;;
      ofold (fun v2x i =>
        v <- nth_error vertices i ;; d <- nth_error entity_dofs i ;;
        row <- nth_error x_dofmap c ;; p <- nth_error row d ;;
        modify v2x v (fun _ => p)) (seq 0 (length vertices)) v2x)
      (seq 0 (size_local im + num_ghosts im)) v2x)
    (seq 0 (length cell_entity_types)) (repeat 0 (size_local m0 + num_ghosts m0)).

(** uniform.cpp:108-110: row [i] of the existing vertices *)
Definition old_point (r : nat) (v2x : list nat) (i : nat) : option (list T) :=
  p <- nth_error v2x i ;; omap (fun k => nth_error (um_x (mesh r)) (p * 3 + k)) (seq 0 3).
(** uniform.cpp:122-133: the centre of entity [w] *)
Definition centre (r : nat) (v2x : list nat) (e_to_v : list (list nat)) (w : nat) : option (list T) :=
  vt <- nth_error e_to_v w ;;
  omap (fun k =>
    s <- ofold (fun s v => p <- nth_error v2x v ;; x <- nth_error (um_x (mesh r)) (3 * p + k) ;; Some (add s x)) vt zero ;;
    Some (div s (length vt))) (seq 0 3).
(** uniform.cpp:106-135 *)
Definition new_x (r : nat) (maps : list imap) : option (list T) :=
  v2x <- vertex_to_x r maps ;;
  m0 <- nth_error maps 0 ;;
  old <- omap (old_point r v2x) (seq 0 (size_local m0)) ;;
  new <- omap (fun j =>
    e <- nth_error e_index j ;; e_to_v <- um_conn (mesh r) (j, e) (0, 0) ;;
    m <- nth_error maps j ;;
    rows <- omap (centre r v2x e_to_v) (seq 0 (size_local m)) ;; Some (concat rows)) (seq 1 (length maps - 1)) ;;
  Some (concat old ++ concat new).

(** uniform.cpp:138-140: the begin of the numbers of this rank ([MPI_Scan]) *)
Definition first_number (r : nat) : option nat :=
  sizes <- omap (fun q => maps <- uni_maps q ;; Some (local_size maps)) (seq 0 r) ;;
  Some (lsum sizes).
(** uniform.cpp:101-103 *)
Definition entity_offsets (maps : list imap) : list nat := psums (map size_local maps).
Definition map_at (j r : nat) : option imap := maps <- uni_maps r ;; nth_error maps j.
(** uniform.cpp:145-148: the numbers of the entities of dimension [j] before the exchange *)
Definition owned_numbers (j r : nat) : option (list nat) :=
  maps <- uni_maps r ;; m <- nth_error maps j ;;
  first <- first_number r ;; off <- nth_error (entity_offsets maps) j ;;
  Some (seq (first + off) (size_local m) ++ repeat 0 (num_ghosts m)).
(** uniform.cpp:150-167: owners send the numbers to the ranks with ghosts; this is the forward
    scatter of a vector. *)
Definition new_v (j r : nat) : option (list nat) :=
  _ <- owned_numbers j r ;;
  vec_scatter_fwd P (fun q => match map_at j q with Some m => m | None => mkIM 0 0 0 [] [] [] [] end) 1 nat
    (fun q => match owned_numbers j q with Some l => l | None => [] end) r.

(** uniform.cpp:251-285: the numbers of the vertices on the entities of cell [c] *)
Definition cell_entities (r : nat) (nv : list (list nat)) (k : nat) (t : cell_type) (c_to_v c_to_e : list (list nat)) (c : nat)
  : option (list nat) :=
  let pick := fun j l => v <- nth_error nv j ;; omap (nth_error v) l in
  lv <- nth_error c_to_v c ;; vertices <- pick 0 lv ;;
  le <- nth_error c_to_e c ;; edges <- pick 1 le ;;
  faces <- match nth_error e_index 2 with
           | Some e2 =>
             if tdim =? 3 then
               match um_conn (mesh r) (3, k) (2, e2) with
               | Some conn => l <- nth_error conn c ;; pick 2 l
               | None => Some []
               end
             else if cell_eqb t Quadrilateral then pick 2 [c] else Some []
           | None => Some []
           end ;;
  inner <- (if (3 <? length e_index) && cell_eqb t Hexahedron then pick 3 [c] else Some []) ;;
  Some (vertices ++ edges ++ faces ++ inner).

(** uniform.cpp:174-179, 185-296: the cells of type [k] are divided. *)
Definition refine_type (r : nat) (nv : list (list nat)) (mixed_topology : list (list nat)) (k : nat) : option (list (list nat)) :=
  t <- nth_error cell_entity_types k ;;
  list <- refined_cell_list t ;;
  ktet <- (if cell_eqb t Pyramid then find_type Tetrahedron cell_entity_types else Some 0) ;;
  c_to_v <- um_conn (mesh r) (tdim, k) (0, 0) ;;
  c_to_e <- um_conn (mesh r) (tdim, k) (1, 0) ;;
  ims <- nth_error (um_maps (mesh r)) tdim ;; im <- nth_error ims k ;;
  ofold (fun topology c =>
    entities <- cell_entities r nv k t c_to_v c_to_e c ;;
    cells <- omap (nth_error entities) list ;;
    topology <- modify topology k (fun l => l ++ cells) ;;
    if cell_eqb t Pyramid then
      tets <- omap (nth_error entities) pyr_to_tet_list ;; modify topology ktet (fun l => l ++ tets)
    else Some topology) (seq 0 (size_local im)) mixed_topology.

(** uniform.cpp:15-309 on rank [r] *)
Definition uniform_refine (r : nat) : option (list T * list (list nat)) :=
  if tdim <? 2 then None
  else
    maps <- uni_maps r ;;
    x <- new_x r maps ;;
    nv <- omap (fun j => new_v j r) (seq 0 (length maps)) ;;
    topology <- ofold (refine_type r nv) (seq 0 (length cell_entity_types)) (repeat [] (length cell_entity_types)) ;;
    Some (x, topology).
End Uniform.
