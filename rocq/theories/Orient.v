(** Model of the orientation of mesh entities: [build_entity_list]
    (cpp/dolfinx/mesh/topologycomputation.cpp) and
    cpp/dolfinx/mesh/permutationcomputation.cpp.  Global vertex indices are integers, local
    ones natural numbers.  Worker threads are the cells of their ranges in an arbitrary
    interleaving [sched]: one cell is an atomic step, and cells write different words. *)
From Coq Require Import NArith.
From Verif Require Import Base Algo Ranges CellTypes.
Open Scope nat_scope.

(** ** topologycomputation.cpp *)

(** topologycomputation.cpp:122-138 (two vertices) *)
Definition orient2 (l0 l1 : nat) (g0 g1 : Z) : list nat * list nat :=
  let '(e0, e1) := if (g0 <=? g1)%Z then (l0, l1) else (l1, l0) in
  ([e0; e1], [Nat.min e0 e1; Nat.max e0 e1]).

Definition swap_if {A} (b : bool) (x y : A) : A * A := if b then (y, x) else (x, y).
(** topologycomputation.cpp:139-178 (three vertices): two sorting networks *)
Definition orient3 (l0 l1 l2 : nat) (g0 g1 g2 : Z) : list nat * list nat :=
  let '((g0, l0), (g1, l1)) := swap_if (g1 <? g0)%Z (g0, l0) (g1, l1) in
  let '((g1, l1), (g2, l2)) := swap_if (g2 <? g1)%Z (g1, l1) (g2, l2) in
  let '((g0, l0), (g1, l1)) := swap_if (g1 <? g0)%Z (g0, l0) (g1, l1) in
  let '(s0, s1) := swap_if (l1 <? l0) l0 l1 in
  let '(s1, s2) := swap_if (l2 <? s1) s1 l2 in
  let '(s0, s1) := swap_if (s1 <? s0) s0 s1 in
  ([l0; l1; l2], [s0; s1; s2]).

(** topologycomputation.cpp:191-195: [cmpswap]; 234-238: [cmpswap_val] *)
Definition cmpswap {A} (gt : A -> A -> bool) (l : list A) (a b : nat) : option (list A) :=
  x <- nth_error l a ;; y <- nth_error l b ;;
  if gt x y then l <- upd l a y ;; upd l b x else Some l.
Definition network {A} (gt : A -> A -> bool) (l : list A) : option (list A) :=
  ofold (fun l ab => cmpswap gt l (fst ab) (snd ab)) [(0, 1); (2, 3); (0, 2); (1, 3); (1, 2)] l.
(** [std::rotate(it, it + 1, end)]: the entry at position [i] moves to the end. *)
Definition rotate_out {A} (i : nat) (l : list A) : option (list A) :=
  x <- nth_error l i ;; Some (firstn i l ++ skipn (S i) l ++ [x]).
(** topologycomputation.cpp:179-243 (otherwise); the exception for entities that do not
    have four vertices is [None]. *)
Definition orient4 (quad : bool) (entity_vertices : list nat) (global_vertices : list Z) : option (list nat * list nat) :=
  if negb (length entity_vertices =? 4) then None
  else
    perm <- network (fun i j => (nth j global_vertices 0%Z <? nth i global_vertices 0%Z)%Z) [0; 1; 2; 3] ;;
    perm <- (if quad then
               min_vertex_idx <- nth_error perm 0 ;;
               it <- index_in (3 - min_vertex_idx) perm ;;
               rotate_out it perm
             else Some perm) ;;
    elist <- omap (nth_error entity_vertices) perm ;;
    sorted <- network (fun a b => b <? a) elist ;;
    Some (elist, sorted).

(** topologycomputation.cpp:84-246: one entity of a cell.  [l2g] is [local_to_global] of the
    vertex map; the result is the oriented vertex list and the sorted key. *)
Definition build_entity (l2g : nat -> option Z) (type : cell_type) (ev vertices : list nat) : option (list nat * list nat) :=
  l <- omap (nth_error vertices) ev ;;
  g <- omap l2g l ;;
  match num_cell_vertices type with
  | 2 => match l, g with [l0; l1], [g0; g1] => Some (orient2 l0 l1 g0 g1) | _, _ => None end
  | 3 => match l, g with [l0; l1; l2], [g0; g1; g2] => Some (orient3 l0 l1 l2 g0 g1 g2) | _, _ => None end
  | _ => orient4 (cell_eqb type Quadrilateral) l g
  end.

(** ** permutationcomputation.cpp *)

(** [std::ranges::min_element]: the first minimum *)
Fixpoint argmin_from {A} (lt : A -> A -> bool) (best : nat) (bv : A) (i : nat) (l : list A) : nat :=
  match l with
  | [] => best
  | x :: t => if lt x bv then argmin_from lt i x (S i) t else argmin_from lt best bv (S i) t
  end.
Definition argmin {A} (lt : A -> A -> bool) (l : list A) : option nat :=
  match l with [] => None | x :: t => Some (argmin_from lt 0 x 1 t) end.

(** Conversion of [std::int64_t] to [int] (C++20: modulo 2^32) *)
Definition to_int (z : Z) : Z := ((z + 2147483648) mod 4294967296 - 2147483648)%Z.

(** permutationcomputation.cpp:27-62 *)
Definition triangle_rot_reflect (e_vertices : list nat) (vertices : list Z) : option (bool * nat) :=
  min_v <- argmin Nat.ltb e_vertices ;;
  pre <- nth_error e_vertices ((min_v + 2) mod 3) ;;
  post <- nth_error e_vertices ((min_v + 1) mod 3) ;;
  g_min_v <- argmin Z.ltb vertices ;;
  g_pre <- option_map to_int (nth_error vertices ((g_min_v + 2) mod 3)) ;;
  g_post <- option_map to_int (nth_error vertices ((g_min_v + 1) mod 3)) ;;
  let rots := if (g_pre <? g_post)%Z then (g_min_v + 3 - min_v) mod 3 else (min_v + 3 - g_min_v) mod 3 in
  Some (Bool.eqb (pre <? post) (g_post <? g_pre)%Z, rots).

(** permutationcomputation.cpp:64-120 *)
Definition quad_rot_reflect (e_vertices : list nat) (vertices : list Z) : option (bool * nat) :=
  let prev := [2; 0; 3; 1] in
  let fix_v v := if (v =? 2) || (v =? 3) then 5 - v else v in
  min_v <- argmin Nat.ltb e_vertices ;;
  pre <- (i <- nth_error prev min_v ;; nth_error e_vertices i) ;;
  post <- (i <- nth_error prev (3 - min_v) ;; nth_error e_vertices i) ;;
  let min_v := fix_v min_v in
  g_min_v <- argmin Z.ltb vertices ;;
  g_pre <- (i <- nth_error prev g_min_v ;; nth_error vertices i) ;;
  g_post <- (i <- nth_error prev (3 - g_min_v) ;; nth_error vertices i) ;;
  let g_min_v := fix_v g_min_v in
  let rots := if (g_pre <? g_post)%Z then (g_min_v + 4 - min_v) mod 4 else (min_v + 4 - g_min_v) mod 4 in
  Some (Bool.eqb (pre <? post) (g_post <? g_pre)%Z, rots).

(** [std::ranges::find]; the end iterator is the length. *)
Fixpoint zfind (x : Z) (l : list Z) : nat :=
  match l with [] => 0 | y :: t => if (x =? y)%Z then 0 else S (zfind x t) end.

(** The connectivities of a mesh of one cell type, as [compute_entity_permutations] reads
    them: [cv] cell to vertex, [ev] edge to vertex, [ce] cell to edge; [face_types] the
    types of faces of the mesh, and for each of them cell to face and face to vertex. *)
Record topo := {
  t_num_types : nat; t_type : cell_type; t_l2g : nat -> option Z; t_cv : list (list nat);
  t_ce : list (list nat); t_ev : list (list nat);
  t_face_types : list cell_type; t_cf : list (list (list nat)); t_fv : list (list (list nat)) }.

(** permutationcomputation.cpp:131-150 *)
Definition face_type_indices (t : cell_type) (ft : cell_type) : list nat :=
  match cell_num_entities t 2 with
  | Some n => filter (fun j => cell_eqb ft (cell_facet_type t j)) (seq 0 n)
  | None => []
  end.
(** permutationcomputation.cpp:196-205: bits of one face *)
Definition face_step (T : topo) (ft : cell_type) (cell_vertices : list Z) (fv : list (list nat)) (idx : list nat) (bits : list bool) (jf : nat * nat) : option (list bool) :=
  links <- nth_error fv (snd jf) ;;
  vertices <- omap (t_l2g T) links ;;
  let e_vertices := map (fun v => zfind v cell_vertices) vertices in
  if negb (forallb (fun e => e <? length cell_vertices) e_vertices) then None
  else
    '(refl, rots) <- (if cell_eqb ft Triangle then triangle_rot_reflect e_vertices vertices else quad_rot_reflect e_vertices vertices) ;;
    fi <- nth_error idx (fst jf) ;;
    bits <- upd bits (3 * fi) refl ;;
    bits <- upd bits (3 * fi + 1) (rots mod 2 =? 1) ;;
    upd bits (3 * fi + 2) (negb (rots / 2 =? 0)).
(** permutationcomputation.cpp:160-206: one cell of [process_thread] *)
Definition face_bits (T : topo) (ft : cell_type) (cf fv : list (list nat)) (idx : list nat) (c : nat) (bits : list bool) : option (list bool) :=
  cv <- nth_error (t_cv T) c ;;
  cell_vertices <- omap (t_l2g T) cv ;;
  cell_faces <- nth_error cf c ;;
  ofold (face_step T ft cell_vertices fv idx) (combine (seq 0 (length cell_faces)) cell_faces) bits.
(** Update of [perm[c]] in place *)
Definition cell_step (f : nat -> list bool -> option (list bool)) (fp : list (list bool)) (c : nat) : option (list (list bool)) :=
  bits <- nth_error fp c ;; bits <- f c bits ;; upd fp c bits.
(** The cells of the thread ranges, thread 0 last (215-232, 295-309) *)
Definition thread_cells (n threads : nat) : list nat :=
  concat (map (fun i => let '(a, b) := local_range (Z.of_nat i) (Z.of_nat n) (Z.of_nat threads) in
                        seq (Z.to_nat a) (Z.to_nat b - Z.to_nat a)) (seq 1 (threads - 1) ++ [0])).
(** permutationcomputation.cpp:122-237 and 314-332; [None] for the exception on several
    cell types. *)
Definition face_permutations (T : topo) (threads : nat) (sched : list nat -> list nat) : option (list (list bool)) :=
  if 1 <? t_num_types T then None
  else
    ofold (fun fp tft =>
             let idx := face_type_indices (t_type T) (snd tft) in
             match idx with
             | [] => Some fp
             | _ => cf <- nth_error (t_cf T) (fst tft) ;; fv <- nth_error (t_fv T) (fst tft) ;;
                    ofold (cell_step (face_bits T (snd tft) cf fv idx)) (sched (thread_cells (length (t_cv T)) threads)) fp
             end)
          (combine (seq 0 (length (t_face_types T))) (t_face_types T)) (repeat (repeat false 32) (length (t_cv T))).

(** permutationcomputation.cpp:261-285: one cell *)
Definition edge_bits (T : topo) (n : nat) (c : nat) (bits : list bool) : option (list bool) :=
  cv <- nth_error (t_cv T) c ;;
  cell_vertices <- omap (t_l2g T) cv ;;
  cell_edges <- nth_error (t_ce T) c ;;
  ofold (fun bits edge =>
           e <- nth_error cell_edges edge ;; links <- nth_error (t_ev T) e ;;
           vertices <- omap (t_l2g T) links ;;
           v0 <- nth_error vertices 0 ;; v1 <- nth_error vertices 1 ;;
           upd bits edge (Bool.eqb (zfind v1 cell_vertices <? zfind v0 cell_vertices) (v0 <? v1)%Z)) (seq 0 n) bits.
(** permutationcomputation.cpp:239-312 *)
Definition edge_reflections (T : topo) (threads : nat) (sched : list nat -> list nat) : option (list (list bool)) :=
  n <- cell_num_entities (t_type T) 1 ;;
  ofold (cell_step (edge_bits T n)) (sched (thread_cells (length (t_cv T)) threads)) (repeat (repeat false 32) (length (t_cv T))).

(** [std::bitset::to_ulong] *)
Definition to_ulong (bits : list bool) : N := fold_right (fun b n => (N.b2n b + 2 * n)%N) 0%N bits.
(** Conversion to [std::uint32_t] *)
Definition to_u32 (n : N) : N := (n mod 2 ^ 32)%N.

(** permutationcomputation.cpp:336-399: facet permutations and cell permutation info *)
Definition compute_entity_permutations (T : topo) (threads : nat) (sched : list nat -> list nat) : option (list N * list N) :=
  if threads <? 1 then None
  else
    let tdim := cell_dim (t_type T) in
    let num_cells := length (t_cv T) in
    facets_per_cell <- (if 0 <? tdim then cell_num_entities (t_type T) (tdim - 1) else Some 0) ;;
    let info := repeat 0%N num_cells in
    let facets := repeat 0%N (num_cells * facets_per_cell) in
    '(facets, info, used_bits) <-
      (if 2 <? tdim then
         faces_per_cell <- cell_num_entities (t_type T) 2 ;;
         face_perm <- face_permutations T threads sched ;;
         let info := map (fun b => to_u32 (to_ulong b)) face_perm in
         let facets := concat (map (fun x => map (fun i => N.land (N.shiftr x (N.of_nat (3 * i))) 7) (seq 0 facets_per_cell)) info) in
         Some (facets, info, faces_per_cell * 3)
       else Some (facets, info, 0)) ;;
    '(facets, info, used_bits) <-
      (if 1 <? tdim then
         edges_per_cell <- cell_num_entities (t_type T) 1 ;;
         edge_perm <- edge_reflections T threads sched ;;
         let info := map (fun xb => N.lor (fst xb) (to_u32 (N.shiftl (to_ulong (snd xb)) (N.of_nat used_bits)))) (combine info edge_perm) in
         let facets := if tdim =? 2 then concat (map (fun b => map (fun i => N.b2n (nth i b false)) (seq 0 facets_per_cell)) edge_perm) else facets in
         Some (facets, info, used_bits + edges_per_cell)
       else Some (facets, info, used_bits)) ;;
    if used_bits <? 32 then Some (facets, info) else None.
