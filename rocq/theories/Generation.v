(** Model of cpp/dolfinx/mesh/generation.h: the points and cells that are passed to
    [create_mesh] when the mesh of an interval, a rectangle or a box is created.
    Simplifications: coordinates are real numbers, [int64_t] counters do not overflow, and the
    flat arrays are lists of rows; [eps] stands for [std::numeric_limits<T>::epsilon()]. *)
From Coq Require Import Reals.
From Verif Require Import Base Ranges.
Open Scope nat_scope.

(** What a process passes to [create_mesh]: rows of coordinates and cells *)
Notation mesh_input := (list (list R) * list (list nat))%type.
(** The cell types for which something is generated, cell_types.h:19-30 *)
Inductive shape := tetrahedron | hexahedron | prism | triangle | quadrilateral.
(** [DiagonalType], generation.h:28-36 *)
Inductive diagonal_type := left | right | crossed | shared_facet | left_right | right_left.

Definition less (a b : R) : bool := if Rlt_dec a b then true else false.
(** The indices of [common::local_range] for a process *)
Definition my_range (rank N size : nat) : list nat :=
  let '(a, b) := local_range (Z.of_nat rank) (Z.of_nat N) (Z.of_nat size) in
  seq (Z.to_nat a) (Z.to_nat b - Z.to_nat a).

Section Generation.
Variable eps : R.

(** impl::create_geom, generation.h:332-377; [rank] and [size] of the communicator *)
Definition create_geom (rank size : nat) (p0 p1 : R * R * R) (n : nat * nat * nat) : option (list (list R)) :=
  let '(nx, ny, nz) := n in
  let '(p00, p01, p02) := p0 in
  let '(p10, p11, p12) := p1 in
  let e0 := ((p10 - p00) / INR nx)%R in
  let e1 := ((p11 - p01) / INR ny)%R in
  let e2 := ((p12 - p02) / INR nz)%R in
  if existsb (fun e => less (Rabs e) (2 * eps)) [e0; e1; e2] then None
  else
    let n_points := (nx + 1) * (ny + 1) * (nz + 1) in
    let sqxy := (nx + 1) * (ny + 1) in
    Some (map (fun v =>
      let p := v mod sqxy in
      [ (p00 + INR (p mod (nx + 1)) * e0)%R;
        (p01 + INR (p / (nx + 1)) * e1)%R;
        (p02 + INR (v / sqxy) * e2)%R ]) (my_range rank n_points size)).

(** The vertices v0, ..., v7 of cuboid [i] and the cells made of them: build_tet,
    generation.h:402-427 *)
Definition tet_cells (n : nat * nat * nat) (i : nat) : list (list nat) :=
  let '(nx, ny, nz) := n in
  let iz := i / (nx * ny) in
  let j := i mod (nx * ny) in
  let iy := j / nx in
  let ix := j mod nx in
  let v0 := iz * (nx + 1) * (ny + 1) + iy * (nx + 1) + ix in
  let v1 := v0 + 1 in
  let v2 := v0 + (nx + 1) in
  let v3 := v1 + (nx + 1) in
  let v4 := v0 + (nx + 1) * (ny + 1) in
  let v5 := v1 + (nx + 1) * (ny + 1) in
  let v6 := v2 + (nx + 1) * (ny + 1) in
  let v7 := v3 + (nx + 1) * (ny + 1) in
  [ [v0; v1; v3; v7]; [v0; v1; v7; v5]; [v0; v5; v7; v4];
    [v0; v3; v2; v7]; [v0; v6; v4; v7]; [v0; v2; v6; v7] ].
(** build_hex, generation.h:450-466 *)
Definition hex_cells (n : nat * nat * nat) (i : nat) : list (list nat) :=
  let '(nx, ny, nz) := n in
  let iz := i / (nx * ny) in
  let j := i mod (nx * ny) in
  let iy := j / nx in
  let ix := j mod nx in
  let v0 := (iz * (ny + 1) + iy) * (nx + 1) + ix in
  let v1 := v0 + 1 in
  let v2 := v0 + (nx + 1) in
  let v3 := v1 + (nx + 1) in
  let v4 := v0 + (nx + 1) * (ny + 1) in
  let v5 := v1 + (nx + 1) * (ny + 1) in
  let v6 := v2 + (nx + 1) * (ny + 1) in
  let v7 := v3 + (nx + 1) * (ny + 1) in
  [ [v0; v1; v2; v3; v4; v5; v6; v7] ].
(** build_prism, generation.h:497-514 *)
Definition prism_cells (n : nat * nat * nat) (i : nat) : list (list nat) :=
  let '(nx, ny, nz) := n in
  let iz := i / (nx * ny) in
  let j := i mod (nx * ny) in
  let iy := j / nx in
  let ix := j mod nx in
  let v0 := (iz * (ny + 1) + iy) * (nx + 1) + ix in
  let v1 := v0 + 1 in
  let v2 := v0 + (nx + 1) in
  let v3 := v1 + (nx + 1) in
  let v4 := v0 + (nx + 1) * (ny + 1) in
  let v5 := v1 + (nx + 1) * (ny + 1) in
  let v6 := v2 + (nx + 1) * (ny + 1) in
  let v7 := v3 + (nx + 1) * (ny + 1) in
  [ [v0; v1; v2; v4; v5; v6]; [v1; v2; v3; v5; v6; v7] ].

Definition num_cuboids (n : nat * nat * nat) : nat := let '(nx, ny, nz) := n in nx * ny * nz.
(** build_tet, build_hex and build_prism, generation.h:379-519.  [comm] is rank and size in
    the communicator of the mesh, [sub] rank and size in [subcomm], if the process belongs to
    it.  The cells of prisms are divided over [comm]. *)
Definition build_box (cells_of : nat * nat * nat -> nat -> list (list nat)) (over : nat * nat) (sub : nat * nat)
    (p0 p1 : R * R * R) (n : nat * nat * nat) : option mesh_input :=
  x <- create_geom (fst sub) (snd sub) p0 p1 n ;;
  Some (x, concat (map (cells_of n) (my_range (fst over) (num_cuboids n) (snd over)))).
Definition build_tet (comm : nat * nat) (sub : option (nat * nat)) (p0 p1 : R * R * R) (n : nat * nat * nat) : option mesh_input :=
  match sub with
  | None => Some ([], [])
  | Some s => build_box tet_cells s s p0 p1 n
  end.
Definition build_hex (comm : nat * nat) (sub : option (nat * nat)) (p0 p1 : R * R * R) (n : nat * nat * nat) : option mesh_input :=
  match sub with
  | None => Some ([], [])
  | Some s => build_box hex_cells s s p0 p1 n
  end.
Definition build_prism (comm : nat * nat) (sub : option (nat * nat)) (p0 p1 : R * R * R) (n : nat * nat * nat) : option mesh_input :=
  match sub with
  | None => Some ([], [])
  | Some s => build_box prism_cells comm s p0 p1 n
  end.

(** create_box, generation.h:104-134 *)
Definition create_box (comm : nat * nat) (sub : option (nat * nat)) (p0 p1 : R * R * R) (n : nat * nat * nat)
    (celltype : shape) : option mesh_input :=
  let '(nx, ny, nz) := n in
  let '(p00, p01, p02) := p0 in
  let '(p10, p11, p12) := p1 in
  if existsb (fun e => e <? 1) [nx; ny; nz] then None
  else if negb (less p00 p10 && less p01 p11 && less p02 p12) then None
  else match celltype with
       | tetrahedron => build_tet comm sub p0 p1 n
       | hexahedron => build_hex comm sub p0 p1 n
       | prism => build_prism comm sub p0 p1 n
       | _ => None
       end.

(** ** Rectangles *)
(** The two coordinates followed by zeros, generation.h:677-682, 743-748 *)
Definition embed (gdim : nat) (x : list R) : list R := firstn gdim (x ++ repeat 0%R gdim).

(** The vertices of triangles, generation.h:567-591 *)
Definition tri_vertices (a c ab cd : R) (nx ny : nat) (diagonal : diagonal_type) : list (list R) :=
  concat (map (fun iy => map (fun ix => [(a + ab * INR ix)%R; (c + cd * INR iy)%R]) (seq 0 (nx + 1))) (seq 0 (ny + 1)))
  ++ match diagonal with
     | crossed =>
       concat (map (fun iy => map (fun ix => [(a + ab * (INR ix + / 2))%R; (c + cd * (INR iy + / 2))%R]) (seq 0 nx)) (seq 0 ny))
     | _ => []
     end.

(** generation.h:598-612 *)
Definition crossed_cells (nx ny iy ix : nat) : list (list nat) :=
  let v0 := iy * (nx + 1) + ix in
  let v1 := v0 + 1 in
  let v2 := v0 + (nx + 1) in
  let v3 := v1 + (nx + 1) in
  let vmid := (nx + 1) * (ny + 1) + iy * nx + ix in
  [ [v0; v1; vmid]; [v0; v2; vmid]; [v1; v3; vmid]; [v2; v3; vmid] ].

Definition alternating (diagonal : diagonal_type) : bool :=
  match diagonal with right_left | left_right => true | _ => false end.
(** [local_diagonal] at the start of a row, generation.h:620-637 *)
Definition row_start (diagonal local : diagonal_type) (iy : nat) : diagonal_type :=
  match diagonal with
  | right_left => if iy mod 2 =? 0 then left else right
  | left_right => if iy mod 2 =? 0 then right else left
  | _ => local
  end.
(** One square, generation.h:638-666 *)
Definition tri_step (diagonal : diagonal_type) (nx iy : nat) (st : diagonal_type * list (list nat)) (ix : nat)
    : diagonal_type * list (list nat) :=
  let '(local, cells) := st in
  let v0 := iy * (nx + 1) + ix in
  let v1 := v0 + 1 in
  let v2 := v0 + (nx + 1) in
  let v3 := v1 + (nx + 1) in
  match local with
  | left => (if alternating diagonal then right else local, cells ++ [ [v0; v1; v2]; [v1; v2; v3] ])
  | _ => (if alternating diagonal then left else local, cells ++ [ [v0; v1; v3]; [v0; v2; v3] ])
  end.
Definition tri_row (diagonal : diagonal_type) (nx : nat) (st : diagonal_type * list (list nat)) (iy : nat)
    : diagonal_type * list (list nat) :=
  fold_left (tri_step diagonal nx iy) (seq 0 nx) (row_start diagonal (fst st) iy, snd st).
(** generation.h:593-669 *)
Definition tri_cells (diagonal : diagonal_type) (nx ny : nat) : list (list nat) :=
  match diagonal with
  | crossed => concat (map (fun iy => concat (map (crossed_cells nx ny iy) (seq 0 nx))) (seq 0 ny))
  | _ => snd (fold_left (tri_row diagonal nx) (seq 0 ny) (diagonal, []))
  end.

(** build_tri, generation.h:521-693; only process 0 creates points and cells. *)
Definition build_tri (rank : nat) (p0 p1 : R * R) (n : nat * nat) (diagonal : diagonal_type) (gdim : nat) : option mesh_input :=
  if (gdim <? 2) || (3 <? gdim) then None
  else if rank =? 0 then
    let '(nx, ny) := n in
    let '(a, c) := p0 in
    let '(b, d) := p1 in
    let ab := ((b - a) / INR nx)%R in
    let cd := ((d - c) / INR ny)%R in
    if less (Rabs (b - a)) eps || less (Rabs (d - c)) eps then None
    else Some (map (embed gdim) (tri_vertices a c ab cd nx ny diagonal), tri_cells diagonal nx ny)
  else Some ([], []).

(** build_quad, generation.h:695-759 *)
Definition quad_vertices (a c ab cd : R) (nx ny : nat) : list (list R) :=
  concat (map (fun ix => map (fun iy => [(a + ab * INR ix)%R; (c + cd * INR iy)%R]) (seq 0 (ny + 1))) (seq 0 (nx + 1))).
Definition quad_cells (nx ny : nat) : list (list nat) :=
  concat (map (fun ix => map (fun iy =>
    let i0 := ix * (ny + 1) in
    [i0 + iy; i0 + iy + 1; i0 + iy + ny + 1; i0 + iy + ny + 2]) (seq 0 ny)) (seq 0 nx)).
Definition build_quad (rank : nat) (p0 p1 : R * R) (n : nat * nat) (gdim : nat) : option mesh_input :=
  if (gdim <? 2) || (3 <? gdim) then None
  else if rank =? 0 then
    let '(nx, ny) := n in
    let '(a, c) := p0 in
    let '(b, d) := p1 in
    let ab := ((b - a) / INR nx)%R in
    let cd := ((d - c) / INR ny)%R in
    Some (map (embed gdim) (quad_vertices a c ab cd nx ny), quad_cells nx ny)
  else Some ([], []).

(** create_rectangle, generation.h:181-213 *)
Definition create_rectangle (rank : nat) (p0 p1 : R * R) (n : nat * nat) (celltype : shape)
    (diagonal : diagonal_type) (gdim : nat) : option mesh_input :=
  let '(nx, ny) := n in
  let '(p00, p01) := p0 in
  let '(p10, p11) := p1 in
  if (gdim <? 2) || (3 <? gdim) then None
  else if existsb (fun e => e <? 1) [nx; ny] then None
  else if negb (less p00 p10 && less p01 p11) then None
  else match celltype with
       | triangle => build_tri rank p0 p1 n diagonal gdim
       | quadrilateral => build_quad rank p0 p1 n gdim
       | _ => None
       end.

(** ** Intervals *)
(** impl::create_interval_cells, generation.h:308-330 *)
Definition create_interval_cells (a b : R) (n : nat) : list R * list (list nat) :=
  let h := ((b - a) / INR n)%R in
  (map (fun i => (a + h * INR i)%R) (seq 0 (n + 1)), map (fun ix => [ix; ix + 1]) (seq 0 n)).
(** create_interval, generation.h:256-303 *)
Definition create_interval (rank n : nat) (a b : R) (gdim : nat) : option mesh_input :=
  if (gdim <? 1) || (3 <? gdim) then None
  else if n <? 1 then None
  else if negb (less a b) then None
  else if less (Rabs (a - b)) eps then None
  else if rank =? 0 then
    let '(x, cells) := create_interval_cells a b n in
    Some (map (fun x0 => embed gdim [x0]) x, cells)
  else Some ([], []).

End Generation.
