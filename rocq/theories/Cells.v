(** Model of the node orderings of cpp/dolfinx/io/cells.cpp.

    Entries are integers modulo 2^16 ([std::uint16_t]); positions and counters are [int] and
    are not wrapped.  [std::vector::erase] outside the vector is [None], as is a throw.  The
    square and cube roots of integers are exact. *)
From Verif Require Import Base CellTypes.
Open Scope Z_scope.

Definition w16 (x : Z) : Z := x mod 65536.
(** [for (int i = 0; i < n; ++i)] *)
Definition range (n : Z) : list Z := map Z.of_nat (seq 0 (Z.to_nat n)).
(** [std::iota] from [a] on a vector of [n] entries *)
Definition iota (a n : Z) : list Z := map (fun i => w16 (a + i)) (range n).

(** cells.cpp:24-30 *)
Definition vec_pop (v : list Z) (i : Z) : option (Z * list Z) :=
  let pos := if i <? 0 then Z.of_nat (length v) + i else i in
  if pos <? 0 then None
  else x <- nth_error v (Z.to_nat pos) ;;
       Some (x, firstn (Z.to_nat pos) v ++ skipn (S (Z.to_nat pos)) v).
(** [map.push_back(vec_pop(remainders, i))] *)
Definition pop_push (s : list Z * list Z) (i : Z) : option (list Z * list Z) :=
  '(x, rem) <- vec_pop (snd s) i ;; Some (fst s ++ [x], rem).
(** A loop with [n] iterations that moves entry [d] and then increases [d] by [step] of the
    counter *)
Definition pop_loop (n d : Z) (step : Z -> Z) (s : list Z * list Z) : option (list Z * list Z) :=
  '(s, _) <- ofold (fun (sd : (list Z * list Z) * Z) i =>
      s <- pop_push (fst sd) (snd sd) ;; Some (s, snd sd + step i)) (range n) (s, d) ;;
  Some s.

(** cells.cpp:610-685.  [std::sqrt] and [std::cbrt] of an [int] are taken to be the exact
    root, rounded down; the node counts are not negative. *)
Definition cube_root (n : Z) : Z :=
  Z.of_nat (length (filter (fun k => Z.of_nat k ^ 3 <=? n) (seq 1 (Z.to_nat n)))).
(** The [while] loop of the tetrahedron *)
Fixpoint tet_root (fuel : nat) (k n : Z) : option Z :=
  match fuel with
  | O => None
  | S fuel' => if k * (k + 1) * (k + 2) <? 6 * n then tet_root fuel' (k + 1) n else Some k
  end.
Definition cell_degree (t : cell_type) (n : Z) : option Z :=
  match t with
  | Point => Some 1
  | Interval => Some (n - 1)
  | Triangle =>
    let k := (Z.sqrt (1 + 8 * n) - 1) / 2 in
    if 2 * n =? k * (k + 1) then Some (k - 1) else None
  | Tetrahedron =>
    k <- tet_root (S (Z.to_nat n)) 0 n ;;
    if k * (k + 1) * (k + 2) =? 6 * n then Some (k - 1) else None
  | Quadrilateral => let k := Z.sqrt n in if n =? k * k then Some (k - 1) else None
  | Hexahedron => let k := cube_root n in if n =? k * k * k then Some (k - 1) else None
  | Prism => if n =? 6 then Some 1 else if n =? 15 then Some 2 else None
  | Pyramid => if n =? 5 then Some 1 else if n =? 13 then Some 2 else None
  end.

(** * Triangles *)
(** cells.cpp:45-63, one iteration of the loop *)
Definition tri_round (s : list Z * list Z) : option (list Z * list Z) :=
  degree <- cell_degree Triangle (Z.of_nat (length (snd s))) ;;
  s <- pop_push s 0 ;;
  s <- pop_push s (degree - 1) ;;
  s <- pop_push s (-1) ;;
  s <- pop_loop (degree - 1) 0 (fun _ => 0) s ;;
  s <- pop_loop (degree - 1) (- (degree * (degree - 1) / 2)) (fun i => degree - (i + 1)) s ;;
  pop_loop (degree - 1) (-1) (fun i => - (i + 1)) s.
(** cells.cpp:32-67 *)
Fixpoint tri_loop (fuel : nat) (s : list Z * list Z) : option (list Z) :=
  match fuel with
  | O => None
  | S fuel' =>
    match snd s with
    | [] => Some (fst s)
    | [x] => Some (fst s ++ [x])
    | _ => s <- tri_round s ;; tri_loop fuel' s
    end
  end.
Definition vtk_triangle_remainders (remainders : list Z) : option (list Z) :=
  tri_loop (S (length remainders)) ([], remainders).
(** cells.cpp:69-95 *)
Definition vtk_triangle (num_nodes : Z) : option (list Z) :=
  degree <- cell_degree Triangle num_nodes ;;
  let map := [0; 1; 2]
    ++ map (fun k => w16 (3 + 2 * (degree - 1) + k)) (range (degree - 1))
    ++ map (fun k => w16 (3 + k)) (range (degree - 1))
    ++ map (fun k => w16 (2 * degree - k)) (range (degree - 1)) in
  if degree <? 3 then Some map
  else
    rem <- vtk_triangle_remainders (iota (3 * degree) (num_nodes - Z.of_nat (length map))) ;;
    Some (map ++ rem).

(** * Tetrahedra *)
(** A loop over [i] with an inner loop that moves entries to a list of dofs; [start] is the
    first position and [step] the increase of the position in the inner loop, from the outer
    and the inner counter. *)
Definition face_loop (n : Z) (count : Z -> Z) (start : Z) (next : Z -> Z) (step : Z -> Z -> Z) (rem : list Z) : option (list Z * list Z) :=
  '(s, _) <- ofold (fun (sd : (list Z * list Z) * Z) i =>
      s <- pop_loop (count i) (snd sd) (step i) (fst sd) ;; Some (s, snd sd + next i)) (range n) (([], rem), start) ;;
  Some s.
(** The dofs of a face, ordered and appended *)
Definition add_face (s : list Z * list Z) (n : Z) (count : Z -> Z) (start : Z) (next : Z -> Z) (step : Z -> Z -> Z) : option (list Z * list Z) :=
  '(dofs, rem) <- face_loop n count start next step (snd s) ;;
  face <- vtk_triangle_remainders dofs ;;
  Some (fst s ++ face, rem).
(** cells.cpp:111-251, one iteration; [deg] is the number of points on an edge.  In the inner
    loops of the second and third face [sub_i] is [deg - 3 - ii], in the fourth [add] is
    [deg - 4 - i - ii]. *)
Definition tet_round (s : list Z * list Z) : option (list Z * list Z) :=
  deg0 <- cell_degree Tetrahedron (Z.of_nat (length (snd s))) ;;
  let deg := deg0 + 1 in
  s <- pop_push s 0 ;;
  s <- pop_push s (deg - 2) ;;
  s <- pop_push s (deg * (deg + 1) / 2 - 3) ;;
  s <- pop_push s (-1) ;;
  s <- (if 2 <? deg then
          s <- pop_loop (deg - 2) 0 (fun _ => 0) s ;;
          s <- pop_loop (deg - 2) (deg - 2) (fun i => deg - 3 - i) s ;;
          s <- pop_loop (deg - 2) ((deg - 2) * (deg - 1) / 2 - 1) (fun i => - (2 + i)) s ;;
          s <- pop_loop (deg - 2) ((deg - 3) * (deg - 2) / 2) (fun i => (deg - i) * (deg - i - 1) / 2 - 1) s ;;
          s <- pop_loop (deg - 2) ((deg - 3) * (deg - 2) / 2 + deg - 3)
                 (fun i => (deg - 2 - i) * (deg - 1 - i) / 2 + deg - 4 - i) s ;;
          pop_loop (deg - 2) ((deg - 3) * (deg - 2) / 2 + deg - 3 + (deg - 2) * (deg - 1) / 2 - 1)
                 (fun i => (deg - 3 - i) * (deg - 2 - i) / 2 + deg - i - 5) s
        else Some s) ;;
  if 3 <? deg then
    s <- add_face s (deg - 3) (fun i => deg - 3 - i) ((deg - 3) * (deg - 2) / 2)
           (fun i => (deg - 2 - i) * (deg - 1 - i) / 2 - 1) (fun _ _ => 0) ;;
    s <- add_face s (deg - 3) (fun i => deg - 3 - i) (deg * deg - 4 * deg + 2)
           (fun i => - (2 + i)) (fun i ii => (deg - 3 - ii) * (deg - 3 - ii + 1) / 2 - 2 - i) ;;
    s <- add_face s (deg - 3) (fun i => deg - 3 - i) ((deg - 3) * (deg - 2) / 2)
           (fun i => deg - 4 - i) (fun i ii => (deg - 3 - ii) * (deg - 3 - ii + 1) / 2 - 1 - 2 * i) ;;
    add_face s (deg - 3) (fun i => deg - 3 - i) 0 (fun _ => 0) (fun i ii => deg - 4 - i - ii)
  else Some s.
(** cells.cpp:97-255 *)
Fixpoint tet_loop (fuel : nat) (s : list Z * list Z) : option (list Z) :=
  match fuel with
  | O => None
  | S fuel' =>
    match snd s with
    | [] => Some (fst s)
    | [x] => Some (fst s ++ [x])
    | _ => s <- tet_round s ;; tet_loop fuel' s
    end
  end.
Definition vtk_tetrahedron_remainders (remainders : list Z) : option (list Z) :=
  tet_loop (S (length remainders)) ([], remainders).

(** [d] starts at [d] and increases by [step] of the counter; the values of [d] *)
Fixpoint steps (n : nat) (i d : Z) (step : Z -> Z) : list Z :=
  match n with O => [] | S n' => d :: steps n' (i + 1) (d + step i) step end.
(** cells.cpp:292-324, the dofs of a face *)
Definition tet_face_dofs (degree base n_face_dofs face : Z) : list Z :=
  map (fun d => w16 (base + n_face_dofs * face + d))
    (if face =? 2 then range n_face_dofs
     else if face =? 0 then
       flat_map (fun i => steps (Z.to_nat (i + 1)) 0 i (fun ii => degree - 3 - ii)) (rev (range (degree - 2)))
     else flat_map (fun i => steps (Z.to_nat (degree - 2 - i)) 0 i (fun ii => degree - 2 - ii)) (range (degree - 2))).
(** cells.cpp:257-341 *)
Definition vtk_tetrahedron (num_nodes : Z) : option (list Z) :=
  degree <- cell_degree Tetrahedron num_nodes ;;
  let vertices := [0; 1; 2; 3] in
  if degree <? 2 then Some vertices
  else
    let base := 4 in
    let edge_dofs := degree - 1 in
    let edges := flat_map (fun edge =>
      if edge =? 4 then map (fun i => w16 (base + edge_dofs * (edge + 1) - 1 - i)) (range edge_dofs)
      else map (fun i => w16 (base + edge_dofs * edge + i)) (range edge_dofs)) [5; 2; 4; 3; 1; 0] in
    if degree <? 3 then Some (vertices ++ edges)
    else
      let base := base + 6 * edge_dofs in
      let n_face_dofs := (degree - 1) * (degree - 2) / 2 in
      faces <- omap (fun face => vtk_triangle_remainders (tet_face_dofs degree base n_face_dofs face)) [2; 0; 1; 3] ;;
      let map := vertices ++ edges ++ concat faces in
      if degree <? 4 then Some map
      else
        let base := base + 4 * n_face_dofs in
        rem <- vtk_tetrahedron_remainders (iota base ((degree - 1) * (degree - 2) * (degree - 3) / 6)) ;;
        Some (map ++ rem).

(** * Other cells *)
(** cells.cpp:343-371 *)
Definition vtk_wedge (num_nodes : Z) : option (list Z) :=
  match num_nodes with
  | 6 => Some [0; 1; 2; 3; 4; 5]
  | 15 => Some [0; 1; 2; 3; 4; 5; 6; 9; 7; 12; 14; 13; 8; 10; 11]
  | 18 => Some [0; 1; 2; 3; 4; 5; 6; 9; 7; 12; 14; 13; 8; 10; 11; 15; 17; 16]
  | _ => None
  end.
Definition vtk_pyramid (num_nodes : Z) : option (list Z) :=
  match num_nodes with
  | 5 => Some [0; 1; 3; 2; 4]
  | 13 => Some [0; 1; 3; 2; 4; 5; 8; 10; 6; 7; 9; 12; 11]
  | 14 => Some [0; 1; 3; 2; 4; 5; 8; 10; 6; 7; 9; 12; 11; 13]
  | _ => None
  end.
(** cells.cpp:373-400 *)
Definition vtk_quadrilateral (num_nodes : Z) : option (list Z) :=
  n <- cell_degree Quadrilateral num_nodes ;;
  let edge_nodes := n - 1 in
  Some ([0; 1; 3; 2]
    ++ map (fun k => w16 (4 + k)) (range edge_nodes)
    ++ map (fun k => w16 (4 + 2 * edge_nodes + k)) (range edge_nodes)
    ++ map (fun k => w16 (4 + 3 * edge_nodes + k)) (range edge_nodes)
    ++ map (fun k => w16 (4 + edge_nodes + k)) (range edge_nodes)
    ++ map (fun k => w16 (4 + edge_nodes * 4 + k)) (range (edge_nodes * edge_nodes))).
(** cells.cpp:402-441 *)
Definition vtk_hexahedron (num_nodes : Z) : option (list Z) :=
  if num_nodes =? 20 then
    Some ([0; 1; 3; 2; 4; 5; 7; 6] ++ map (fun e => w16 (8 + e)) [0; 3; 5; 1; 8; 10; 11; 9; 2; 4; 7; 6])
  else
    n <- cell_degree Hexahedron num_nodes ;;
    let edge_nodes := w16 n - 1 in
    let face_nodes := edge_nodes * edge_nodes in
    let base_f := 8 + 12 * edge_nodes in
    let base_v := base_f + 6 * face_nodes in
    Some ([0; 1; 3; 2; 4; 5; 7; 6]
      ++ flat_map (fun e => map (fun i => w16 (8 + edge_nodes * e + i)) (range edge_nodes)) [0; 3; 5; 1; 8; 10; 11; 9; 2; 4; 7; 6]
      ++ flat_map (fun f => map (fun i => w16 (base_f + face_nodes * f + i)) (range face_nodes)) [2; 3; 1; 4; 0; 5]
      ++ map (fun i => w16 (base_v + i)) (range (face_nodes * edge_nodes))).

(** cells.cpp:443-531 and the switch of perm_gmsh *)
Definition gmsh_map (t : cell_type) (num_nodes : Z) : option (list Z) :=
  match t, num_nodes with
  | Point, _ => Some [0]
  | Interval, n => Some (iota 0 n)
  | Triangle, 3 => Some [0; 1; 2]
  | Triangle, 6 => Some [0; 1; 2; 5; 3; 4]
  | Triangle, 10 => Some [0; 1; 2; 7; 8; 3; 4; 6; 5; 9]
  | Tetrahedron, 4 => Some [0; 1; 2; 3]
  | Tetrahedron, 10 => Some [0; 1; 2; 3; 9; 6; 8; 7; 4; 5]
  | Tetrahedron, 20 => Some [0; 1; 2; 3; 14; 15; 8; 9; 13; 12; 11; 10; 5; 4; 7; 6; 19; 18; 17; 16]
  | Hexahedron, 8 => Some [0; 1; 3; 2; 4; 5; 7; 6]
  | Hexahedron, 27 => Some [0; 1; 3; 2; 4; 5; 7; 6; 8; 9; 10; 11; 12; 13; 15; 14; 16; 17; 18; 19; 20; 21; 22; 23; 24; 25; 26]
  | Quadrilateral, 4 => Some [0; 1; 3; 2]
  | Quadrilateral, 9 => Some [0; 1; 3; 2; 4; 6; 7; 5; 8]
  | Quadrilateral, 16 => Some [0; 1; 3; 2; 4; 5; 8; 9; 11; 10; 7; 6; 12; 13; 15; 14]
  | Prism, 6 => Some [0; 1; 2; 3; 4; 5]
  | Prism, 15 => Some [0; 1; 2; 3; 4; 5; 6; 7; 8; 9; 10; 11; 12; 13; 14]
  | Prism, 18 => Some [0; 1; 2; 3; 4; 5; 6; 7; 8; 9; 10; 11; 12; 13; 14; 15; 16; 17]
  | Pyramid, 5 => Some [0; 1; 3; 2; 4]
  | Pyramid, 13 => Some [0; 1; 3; 2; 4; 5; 6; 7; 8; 9; 10; 12; 11]
  | Pyramid, 14 => Some [0; 1; 3; 2; 4; 5; 6; 7; 8; 9; 10; 12; 11; 13]
  | _, _ => None
  end.
(** cells.cpp:534-569 before the call of transpose *)
Definition vtk_map (t : cell_type) (num_nodes : Z) : option (list Z) :=
  match t with
  | Point => Some [0]
  | Interval => Some (iota 0 num_nodes)
  | Triangle => vtk_triangle num_nodes
  | Tetrahedron => vtk_tetrahedron num_nodes
  | Quadrilateral => vtk_quadrilateral num_nodes
  | Hexahedron => vtk_hexahedron num_nodes
  | Prism => vtk_wedge num_nodes
  | Pyramid => vtk_pyramid num_nodes
  end.
(** cells.cpp:687-694 *)
Definition transpose (map : list Z) : option (list Z) :=
  ofold (fun t i => x <- nth_error map i ;; upd t (Z.to_nat x) (w16 (Z.of_nat i)))
        (seq 0 (length map)) (repeat 0 (length map)).
Definition perm_vtk (t : cell_type) (num_nodes : Z) : option (list Z) :=
  m <- vtk_map t num_nodes ;; transpose m.
(** cells.cpp:572-608 *)
Definition perm_gmsh (t : cell_type) (num_nodes : Z) : option (list Z) :=
  m <- gmsh_map t num_nodes ;; transpose m.
(** cells.cpp:696-715 *)
Definition apply_permutation {A} (cells : list A) (rows cols : nat) (p : list Z) : option (list A) :=
  if negb (length cells =? rows * cols)%nat then None
  else if negb (cols =? length p)%nat then None
  else
    new <- omap (fun c => let cell := firstn cols (skipn (c * cols) cells) in
                          omap (fun i => x <- nth_error p i ;; nth_error cell (Z.to_nat x)) (seq 0 cols))
                (seq 0 rows) ;;
    Some (concat new).
