(** Model of cpp/dolfinx/geometry/BoundingBoxTree.h and of the tree searches of
    cpp/dolfinx/geometry/utils.h.

    The number type is abstract: operations, an order and the tolerance constant are
    parameters, so that exact and rounded arithmetic are both instances (NaN is not).
    Simplifications: the arrays of children and of coordinates are one list of nodes;
    entity and node indices are naturals; [std::nth_element] is an arbitrary function. *)
From Verif Require Import Base.

Record arith (T : Type) := mkArith {
  a_leb : T -> T -> bool; a_zero : T; a_rtol : T;
  a_add : T -> T -> T; a_sub : T -> T -> T; a_mul : T -> T -> T }.
Arguments a_leb {T}. Arguments a_zero {T}. Arguments a_rtol {T}.
Arguments a_add {T}. Arguments a_sub {T}. Arguments a_mul {T}.

(** [std::array<T, 3>] and [std::array<T, 6>] *)
Record vec3 (T : Type) := mkV { v0 : T; v1 : T; v2 : T }.
Arguments mkV {T}. Arguments v0 {T}. Arguments v1 {T}. Arguments v2 {T}.
Definition comp {T} (v : vec3 T) (i : nat) : T := match i with 0 => v0 v | 1 => v1 v | _ => v2 v end.
Definition vmap2 {T} (f : T -> T -> T) (a b : vec3 T) : vec3 T := mkV (f (v0 a) (v0 b)) (f (v1 a) (v1 b)) (f (v2 a) (v2 b)).
Record box (T : Type) := mkBox { blo : vec3 T; bhi : vec3 T }.
Arguments mkBox {T}. Arguments blo {T}. Arguments bhi {T}.

(** A leaf is the box of an entity; a node has two children and a box. *)
Notation leaf_of T := (prod (box T) nat).
Notation node_of T := (prod (prod nat nat) (box T)).

Section Bbox.
Context {T : Type}.
Variable A : arith T.
Notation leb := (a_leb A).
Definition ltb (x y : T) : bool := negb (leb y x).

(** [std::min], [std::max] *)
Definition tmin (x y : T) : T := if ltb y x then y else x.
Definition tmax (x y : T) : T := if ltb x y then y else x.

Local Notation leaf := (leaf_of T).
Local Notation node := (node_of T).

(** BoundingBoxTree.h:32-60 (from the coordinates of the vertices of the entity) and
    257-266 (padding) *)
Definition bbox_of_points (x0 : vec3 T) (xs : list (vec3 T)) : box T :=
  fold_left (fun b x => mkBox (vmap2 tmin (blo b) x) (vmap2 tmax (bhi b) x)) xs (mkBox x0 x0).
Definition pad (padding : T) (b : box T) : box T :=
  let f g v := mkV (g (v0 v) padding) (g (v1 v) padding) (g (v2 v) padding) in
  mkBox (f (a_sub A) (blo b)) (f (a_add A) (bhi b)).

(** BoundingBoxTree.h:66-82 *)
Definition bbox_of_bboxes (b0 : box T) (l : list leaf) : box T :=
  fold_left (fun b (lf : leaf) => mkBox (vmap2 tmin (blo (fst lf)) (blo b)) (vmap2 tmax (bhi (fst lf)) (bhi b))) l b0.

(** BoundingBoxTree.h:107-113: [std::max_element], the first of the largest. *)
Definition longest (b : box T) : nat :=
  let d := vmap2 (a_sub A) (bhi b) (blo b) in
  let i := if ltb (v0 d) (v1 d) then 1 else 0 in
  if ltb (comp d i) (v2 d) then 2 else i.

Variable nth_leaf : nat -> list leaf -> list leaf.
(** BoundingBoxTree.h:84-139 *)
Fixpoint build (fuel : nat) (l : list leaf) (nodes : list node) : option (nat * list node) :=
  match fuel with
  | 0 => None
  | S f =>
    match l with
    | [] => None
    | [(b, e)] => Some (length nodes, nodes ++ [((e, e), b)])
    | (b0, _) :: _ =>
      let b := bbox_of_bboxes b0 l in
      let l' := nth_leaf (longest b) l in
      let part := length l' / 2 in
      '(c0, nodes) <- build f (firstn part l') nodes ;;
      '(c1, nodes) <- build f (skipn part l') nodes ;;
      Some (length nodes, nodes ++ [((c0, c1), b)])
    end
  end.
(** BoundingBoxTree.h:141-149, 268-271 *)
Definition build_tree (l : list leaf) : option (list node) :=
  match l with [] => Some [] | _ => '(_, nodes) <- build (length l) l [] ;; Some nodes end.

(** [operator<] of [std::pair<std::array<T, 3>, int>] *)
Definition point_lt (p q : vec3 T * nat) : bool :=
  let lex (c : nat) (k : bool) := if ltb (comp (fst p) c) (comp (fst q) c) then true else if ltb (comp (fst q) c) (comp (fst p) c) then false else k in
  lex 0 (lex 1 (lex 2 (snd p <? snd q))).
Definition minmax_element (p : vec3 T * nat) (l : list (vec3 T * nat)) : (vec3 T * nat) * (vec3 T * nat) :=
  fold_left (fun mm q => (if point_lt q (fst mm) then q else fst mm, if point_lt q (snd mm) then snd mm else q)) l (p, p).

Variable nth_point : nat -> list (vec3 T * nat) -> list (vec3 T * nat).
(** BoundingBoxTree.h:151-205 *)
Fixpoint build_points (fuel : nat) (l : list (vec3 T * nat)) (nodes : list node) : option (nat * list node) :=
  match fuel with
  | 0 => None
  | S f =>
    match l with
    | [] => None
    | [(x, e)] => Some (length nodes, nodes ++ [((e, e), mkBox x x)])
    | p :: _ =>
      let '(mn, mx) := minmax_element p l in
      let b := mkBox (fst mn) (fst mx) in
      let l' := nth_point (longest b) l in
      let part := length l' / 2 in
      '(c0, nodes) <- build_points f (firstn part l') nodes ;;
      '(c1, nodes) <- build_points f (skipn part l') nodes ;;
      Some (length nodes, nodes ++ [((c0, c1), b)])
    end
  end.
(** BoundingBoxTree.h:277-292 *)
Definition point_tree (l : list (vec3 T * nat)) : option (list node) :=
  match l with [] => Some [] | _ => '(_, nodes) <- build_points (length l) l [] ;; Some nodes end.

(** utils.h:190-194 *)
Definition is_leaf (c : nat * nat) : bool := fst c =? snd c.
(** utils.h:196-215 *)
Definition point_in_bbox (b : box T) (x : vec3 T) : bool :=
  forallb (fun i => let eps := a_mul A (a_rtol A) (a_sub A (comp (bhi b) i) (comp (blo b) i)) in
                    leb (a_sub A (comp (blo b) i) eps) (comp x i) && leb (comp x i) (a_add A (comp (bhi b) i) eps)) [0; 1; 2].
(** utils.h:217-239 *)
Definition bbox_in_bbox (a b : box T) : bool :=
  forallb (fun i => let eps := a_mul A (a_rtol A) (a_sub A (comp (bhi b) i) (comp (blo b) i)) in
                    leb (a_sub A (comp (blo b) i) eps) (comp (bhi a) i) && leb (comp (blo a) i) (a_add A (comp (bhi b) i) eps)) [0; 1; 2].

(** utils.h:306-361: [next = -1] is [None]. *)
Fixpoint point_loop (fuel : nat) (nodes : list node) (p : vec3 T) (next : nat) (stack : list nat) (ents : list nat) : option (list nat) :=
  match fuel with
  | 0 => None
  | S f =>
    '(c, b) <- nth_error nodes next ;;
    '(next', (stack', ents')) <-
      (if is_leaf c && point_in_bbox b p then Some (None, (stack, ents ++ [snd c]))
       else
         '(_, b0) <- nth_error nodes (fst c) ;;
         '(_, b1) <- nth_error nodes (snd c) ;;
         let left := point_in_bbox b0 p in
         let right := point_in_bbox b1 p in
         Some (if left && right then (Some (fst c), (snd c :: stack, ents))
               else if left then (Some (fst c), (stack, ents))
               else if right then (Some (snd c), (stack, ents))
               else (None, (stack, ents)))) ;;
    match next', stack' with
    | Some n, _ => point_loop f nodes p n stack' ents'
    | None, n :: s => point_loop f nodes p n s ents'
    | None, [] => Some ents'
    end
  end.
(** utils.h:469-502: entities and offsets. *)
Definition collisions_points (nodes : list node) (pts : list (vec3 T)) : option (list nat * list nat) :=
  match nodes with
  | [] => Some ([], repeat 0 (S (length pts)))
  | _ => ofold (fun '(ents, offs) p =>
           ents' <- point_loop (length nodes) nodes p (length nodes - 1) [] ents ;;
           Some (ents', offs ++ [length ents'])) pts ([], [0])
  end.

(** utils.h:363-417 *)
Fixpoint tree_loop (fuel : nat) (nA nB : list node) (a b : nat) (ents : list nat) : option (list nat) :=
  match fuel with
  | 0 => None
  | S f =>
    '(ca, ba) <- nth_error nA a ;;
    '(cb, bb) <- nth_error nB b ;;
    if negb (bbox_in_bbox ba bb) then Some ents else
    if is_leaf ca && is_leaf cb then Some (ents ++ [snd ca; snd cb])
    else if is_leaf ca then e <- tree_loop f nA nB a (fst cb) ents ;; tree_loop f nA nB a (snd cb) e
    else if is_leaf cb then e <- tree_loop f nA nB (fst ca) b ents ;; tree_loop f nA nB (snd ca) b e
    else if b <? a then e <- tree_loop f nA nB (fst ca) b ents ;; tree_loop f nA nB (snd ca) b e
    else e <- tree_loop f nA nB a (fst cb) ents ;; tree_loop f nA nB a (snd cb) e
  end.
(** utils.h:447-467 *)
Definition collisions_trees (nA nB : list node) : option (list nat) :=
  match nA, nB with
  | [], _ => Some []
  | _, [] => Some []
  | _, _ => tree_loop (length nA + length nB) nA nB (length nA - 1) (length nB - 1) []
  end.

(** utils.h:129-156 *)
Definition sq (x : T) : T := a_mul A x x.
Definition sum3 (v : vec3 T) : T := a_add A (a_add A (a_add A (a_zero A) (v0 v)) (v1 v)) (v2 v).
Definition squared_distance_bbox (b : box T) (x : vec3 T) : T :=
  a_add A (sum3 (vmap2 (fun x b => let dx := a_sub A x b in if ltb (a_zero A) dx then a_zero A else sq dx) x (blo b)))
          (sum3 (vmap2 (fun x b => let dx := a_sub A x b in if ltb dx (a_zero A) then a_zero A else sq dx) x (bhi b))).
(** utils.h:257-263, 587-591 *)
Definition corner_distance (b : box T) (p : vec3 T) : T :=
  let d := vmap2 (fun b p => sq (a_sub A b p)) (blo b) p in
  a_add A (a_add A (v0 d) (v1 d)) (v2 d).

(** utils.h:241-304; [dist] stands for the distance from the point to the convex hull of
    an entity computed with the GJK algorithm, [cloud] for [tree.tdim() == 0]. *)
Fixpoint closest (fuel : nat) (nodes : list node) (cloud : bool) (dist : nat -> T) (p : vec3 T) (i : nat) (best : nat * T) : option (nat * T) :=
  match fuel with
  | 0 => None
  | S f =>
    '(c, b) <- nth_error nodes i ;;
    let R2 := snd best in
    if is_leaf c then
      let r2 := if cloud then corner_distance b p
                else let r2 := squared_distance_bbox b p in if leb r2 R2 then dist (snd c) else r2 in
      Some (if leb r2 R2 then (snd c, r2) else best)
    else
      if ltb R2 (squared_distance_bbox b p) then Some best else
      best0 <- closest f nodes cloud dist p (fst c) best ;;
      closest f nodes cloud dist p (snd c) best0
  end.
(** utils.h:570-612 for one point; [None] for -1. *)
Definition closest_entity (tree mid : list node) (cloud : bool) (dist : nat -> T) (p : vec3 T) : option (option nat) :=
  match tree with
  | [] => Some None
  | _ =>
    '(c, b) <- nth_error mid 0 ;;
    m <- closest (length mid) mid true dist p (length mid - 1) (fst c, corner_distance b p) ;;
    r <- closest (length tree) tree cloud dist p (length tree - 1) m ;;
    Some (Some (fst r))
  end.

(** BoundingBoxTree.h:313-350; [big] is the largest number. *)
Definition global_leaves (big : T) (trees : list (list node)) : list leaf :=
  let empty := mkBox (mkV big big big) (mkV big big big) in
  combine (map (fun nodes : list node => match rev nodes with [] => empty | (_, b) :: _ => b end) trees) (seq 0 (length trees)).
Definition global_tree (big : T) (trees : list (list node)) : option (list node) := build_tree (global_leaves big trees).
End Bbox.
