(** Model of cpp/dolfinx/mesh/cell_types.{h,cpp}.  The reference topology of a cell comes
    from the Basix library, which is not part of the repository; its tables are copied
    here from the Basix documentation ([topology]).  The connectivity between sub-entities
    ([sub_entity_connectivity]) is that of the inclusion of vertices, in increasing order.
    [std::set<int>] is the increasing list of its elements. *)
From Coq Require Import String.
From Verif Require Import Base Algo.
Open Scope nat_scope.

(** cell_types.h:23-34 *)
Inductive cell_type := Point | Interval | Triangle | Tetrahedron | Quadrilateral | Pyramid | Prism | Hexahedron.
Definition cell_code (t : cell_type) : Z :=
  match t with Point => 1 | Interval => 2 | Triangle => 3 | Tetrahedron => 4 | Quadrilateral => -4 | Pyramid => -5 | Prism => -6 | Hexahedron => -8 end.
Definition cell_eqb (a b : cell_type) : bool := (cell_code a =? cell_code b)%Z.

(** cell_types.cpp:19-43 *)
Definition to_string (t : cell_type) : string :=
  match t with
  | Point => "point" | Interval => "interval" | Triangle => "triangle" | Tetrahedron => "tetrahedron"
  | Quadrilateral => "quadrilateral" | Pyramid => "pyramid" | Prism => "prism" | Hexahedron => "hexahedron"
  end%string.
(** cell_types.cpp:45-65; [None] is the exception. *)
Definition to_type (s : string) : option cell_type :=
  if (s =? "point")%string then Some Point
  else if ((s =? "interval") || (s =? "interval2D") || (s =? "interval3D"))%string then Some Interval
  else if ((s =? "triangle") || (s =? "triangle3D"))%string then Some Triangle
  else if (s =? "tetrahedron")%string then Some Tetrahedron
  else if ((s =? "quadrilateral") || (s =? "quadrilateral3D"))%string then Some Quadrilateral
  else if (s =? "pyramid")%string then Some Pyramid
  else if (s =? "prism")%string then Some Prism
  else if (s =? "hexahedron")%string then Some Hexahedron
  else None.

(** cell_types.h:47-71 *)
Definition cell_dim (t : cell_type) : nat :=
  match t with Point => 0 | Interval => 1 | Triangle | Quadrilateral => 2 | Tetrahedron | Hexahedron | Prism | Pyramid => 3 end.
(** cell_types.h:78-108 *)
Definition cell_facet_type (t : cell_type) (index : nat) : cell_type :=
  match t with
  | Point => Point | Interval => Point | Triangle => Interval | Tetrahedron => Triangle | Quadrilateral => Interval
  | Pyramid => if index =? 0 then Quadrilateral else Triangle
  | Prism => if (index =? 0) || (index =? 4) then Triangle else Quadrilateral
  | Hexahedron => Quadrilateral
  end.
(** cell_types.h:115-125 *)
Definition cell_entity_type (t : cell_type) (d index : nat) : cell_type :=
  if d =? cell_dim t then t
  else if d =? 1 then Interval
  else if S d =? cell_dim t then cell_facet_type t index
  else Point.

(** Basix: [basix::cell::topology] *)
Definition topology (t : cell_type) : list (list (list nat)) :=
  match t with
  | Point => [[[0]]]
  | Interval => [[[0]; [1]]; [[0; 1]]]
  | Triangle => [[[0]; [1]; [2]]; [[1; 2]; [0; 2]; [0; 1]]; [[0; 1; 2]]]
  | Quadrilateral => [[[0]; [1]; [2]; [3]]; [[0; 1]; [0; 2]; [1; 3]; [2; 3]]; [[0; 1; 2; 3]]]
  | Tetrahedron => [[[0]; [1]; [2]; [3]]; [[2; 3]; [1; 3]; [1; 2]; [0; 3]; [0; 2]; [0; 1]];
                    [[1; 2; 3]; [0; 2; 3]; [0; 1; 3]; [0; 1; 2]]; [[0; 1; 2; 3]]]
  | Hexahedron => [[[0]; [1]; [2]; [3]; [4]; [5]; [6]; [7]];
                   [[0; 1]; [0; 2]; [0; 4]; [1; 3]; [1; 5]; [2; 3]; [2; 6]; [3; 7]; [4; 5]; [4; 6]; [5; 7]; [6; 7]];
                   [[0; 1; 2; 3]; [0; 1; 4; 5]; [0; 2; 4; 6]; [1; 3; 5; 7]; [2; 3; 6; 7]; [4; 5; 6; 7]]; [[0; 1; 2; 3; 4; 5; 6; 7]]]
  | Prism => [[[0]; [1]; [2]; [3]; [4]; [5]]; [[0; 1]; [0; 2]; [0; 3]; [1; 2]; [1; 4]; [2; 5]; [3; 4]; [3; 5]; [4; 5]];
              [[0; 1; 2]; [0; 1; 3; 4]; [0; 2; 3; 5]; [1; 2; 4; 5]; [3; 4; 5]]; [[0; 1; 2; 3; 4; 5]]]
  | Pyramid => [[[0]; [1]; [2]; [3]; [4]]; [[0; 1]; [0; 2]; [0; 4]; [1; 3]; [1; 4]; [2; 3]; [2; 4]; [3; 4]];
                [[0; 1; 2; 3]; [0; 1; 4]; [0; 2; 4]; [1; 3; 4]; [2; 3; 4]]; [[0; 1; 2; 3; 4]]]
  end.
Definition subset (a b : list nat) : bool := forallb (fun x => mem x b) a.
(** Basix: [basix::cell::sub_entity_connectivity(type)[dim0][i][dim1]] for [dim1 <= dim0] *)
Definition sub_connectivity (t : cell_type) (d0 d1 : nat) : option (list (list nat)) :=
  l0 <- nth_error (topology t) d0 ;; l1 <- nth_error (topology t) d1 ;;
  Some (map (fun v0 => filter (fun j => match nth_error l1 j with Some v1 => subset v1 v0 | None => false end) (seq 0 (length l1))) l0).

(** cell_types.cpp:67-72: a dimension the cell does not have is an out-of-bounds read. *)
Definition get_entity_vertices (t : cell_type) (d : nat) : option (list (list nat)) := nth_error (topology t) d.
(** cell_types.cpp:74-92 *)
Definition get_sub_entities (t : cell_type) (d0 d1 : nat) : option (list (list nat)) :=
  match t with Interval => Some [] | Point => Some [] | _ => sub_connectivity t d0 d1 end.
(** cell_types.cpp:94-98 *)
Definition cell_num_entities (t : cell_type) (d : nat) : option nat := option_map (@length _) (nth_error (topology t) d).
(** cell_types.cpp:100, 102-105 *)
Definition is_simplex (t : cell_type) : bool := (0 <? cell_code t)%Z.
Definition num_cell_vertices (t : cell_type) : nat := Z.abs_nat (cell_code t).

(** [s.insert(x)] *)
Definition set_insert (s : list nat) (x : nat) : list nat := sort_uniq (x :: s).
(** cell_types.cpp:120-162: the sets of one entity. *)
Definition entity_closure (t : cell_type) (num : list nat) (edge_v face_e : list (list nat)) (d entity : nat) : option (list (list nat)) :=
  c <- modify (repeat [] (S (cell_dim t))) d (fun s => set_insert s entity) ;;
  c <- (if d =? 3 then
          ofold (fun c d' => n <- nth_error num d' ;; ofold (fun c j => modify c d' (fun s => set_insert s j)) (seq 0 n) c) [2; 1; 0] c
        else Some c) ;;
  c <- (if d =? 2 then
          num_edges <- cell_num_entities (cell_entity_type t 2 entity) 1 ;;
          ofold (fun c e =>
            l <- nth_error face_e entity ;; edge_index <- nth_error l e ;;
            c <- modify c 1 (fun s => set_insert s edge_index) ;;
            ofold (fun c v => ev <- nth_error edge_v edge_index ;; x <- nth_error ev v ;; modify c 0 (fun s => set_insert s x)) [0; 1] c) (seq 0 num_edges) c
        else Some c) ;;
  if d =? 1 then
    ev <- nth_error edge_v entity ;; a <- nth_error ev 0 ;; b <- nth_error ev 1 ;;
    c <- modify c 0 (fun s => set_insert s a) ;; modify c 0 (fun s => set_insert s b)
  else Some c.
(** cell_types.cpp:107-165: the map, in the order of its keys. *)
Definition cell_entity_closure (t : cell_type) : option (list ((nat * nat) * list (list nat))) :=
  num <- omap (cell_num_entities t) (seq 0 (S (cell_dim t))) ;;
  edge_v <- get_entity_vertices t 1 ;;
  face_e <- get_sub_entities t 2 1 ;;
  ls <- omap (fun dn => omap (fun e => c <- entity_closure t num edge_v face_e (fst dn) e ;; Some ((fst dn, e), c)) (seq 0 (snd dn))) (combine (seq 0 (length num)) num) ;;
  Some (concat ls).
