(** Properties C40 to C43 and C58: bounding-box trees. *)
From Coq Require Import Reals Lra.
From Flocq Require Import Core.
From Verif Require Import Base BaseProofs Bbox BboxSpec BboxProofs BboxSearch BboxMain.
Open Scope nat_scope.

(** The arithmetic of the statements: exact over the integers and over the reals, and
    rounded to double precision (without overflow). *)
Example ex_arith_Z : arith_ok Zarith.
Proof. exact Zarith_ok. Qed.
Example ex_arith_R : arith_ok Rarith.
Proof. exact Rarith_ok. Qed.
Definition dbl (x : R) : R := round radix2 (FLT_exp (-1074) 53) ZnearestE x.
Definition Darith : arith R :=
  mkArith R (fun x y => if Rle_dec x y then true else false) 0%R (dbl (/ 100000000000000)%R) (fun x y => dbl (x + y)) (fun x y => dbl (x - y)) (fun x y => dbl (x * y)).
Lemma dbl_le x y : (x <= y)%R -> (dbl x <= dbl y)%R.
Proof. intro H. apply round_le; [apply FLT_exp_valid; unfold Prec_gt_0; lia|apply valid_rnd_N|exact H]. Qed.
Lemma dbl_0 : dbl 0 = 0%R.
Proof. apply round_0. apply valid_rnd_N. Qed.
Example ex_arith_double : arith_ok Darith.
Proof.
  assert (H0 : (0 <= dbl (/ 100000000000000))%R) by (rewrite <- dbl_0; apply dbl_le; lra).
  split; unfold Darith; cbn [a_leb a_add a_sub a_mul a_rtol a_zero]; intros; rewrite ?Rle_dec_true in *; try lra; try (apply dbl_le; try lra; nra).
  rewrite <- dbl_0. apply dbl_le. nra.
Qed.

(** C40: the box of an entity is the smallest box that contains its vertices. *)
Theorem C40_entity_boxes :
  forall T (A : arith T), arith_ok A -> forall x0 xs, let b := bbox_of_points A x0 xs in
    (forall x, In x (x0 :: xs) -> subbox A (mkBox x x) b) /\
    forall i, i < 3 -> (exists x, In x (x0 :: xs) /\ comp (blo b) i = comp x i) /\ (exists x, In x (x0 :: xs) /\ comp (bhi b) i = comp x i).
Proof. exact @points_box. Qed.
Print Assumptions C40_entity_boxes.

(** C40: padding extends the box by the padding on every side. *)
Theorem C40_padding :
  forall (x0 : vec3 Z) xs padding i y, i < 3 ->
    let b := pad Zarith padding (bbox_of_points Zarith x0 xs) in
    ((comp (blo b) i <= y <= comp (bhi b) i)%Z <->
     (comp (blo (bbox_of_points Zarith x0 xs)) i - padding <= y <= comp (bhi (bbox_of_points Zarith x0 xs)) i + padding)%Z).
Proof. intros x0 xs padding i y Hi. destruct i as [|[|[|i]]]; cbn; try lia. Qed.
Print Assumptions C40_padding.

(** C40: a point query returns, for every point, exactly the entities whose box contains
    the point.  What is missing: a tree of a single entity other than entity 0 and a point
    outside its box (see [C40_single_leaf_refuted]). *)
Theorem C40_points_partial :
  forall T (A : arith T) (nth_leaf : nat -> list (leaf_of T) -> list (leaf_of T)),
    arith_ok A -> (forall a l, Permutation (nth_leaf a l) l) ->
  forall l, exists nodes, build_tree A nth_leaf l = Some nodes /\
    forall pts, length l <> 1 \/ (exists b e, l = [(b, e)] /\ (e = 0 \/ forall p, In p pts -> in_box A b p)) ->
    exists ents offs, collisions_points A nodes pts = Some (ents, offs) /\ length offs = S (length pts) /\
      forall i p, nth_error pts i = Some p -> exists es, slice_at ents offs i = Some es /\ selects (fun lf => in_box A (fst lf) p) snd l es.
Proof. exact (fun T A nth Aok H => points_all A Aok nth H). Qed.
Print Assumptions C40_points_partial.

(** C40 fails for a tree of one entity: the query reads a node that does not exist. *)
Theorem C40_single_leaf_refuted :
  forall T (A : arith T) (nth_leaf : nat -> list (leaf_of T) -> list (leaf_of T)) b e p pts, ~ in_box A b p -> e <> 0 ->
    exists nodes, build_tree A nth_leaf [(b, e)] = Some nodes /\ collisions_points A nodes (p :: pts) = None.
Proof. exact @single_out. Qed.
Print Assumptions C40_single_leaf_refuted.

Definition zbox (x0 y0 x1 y1 : Z) : box Z := mkBox (mkV x0 y0 0%Z) (mkV x1 y1 0%Z).
Definition zpt (x y : Z) : vec3 Z := mkV x y 0%Z.
Definition id_leaf {X} (a : nat) (l : list X) : list X := l.
Definition ex_leaves : list (leaf_of Z) := [(zbox 0 0 2 2, 10); (zbox 1 1 3 3, 11); (zbox 5 0 6 1, 12); (zbox 0 5 1 6, 13)].
Example ex_points : obind (build_tree Zarith id_leaf ex_leaves) (fun t => collisions_points Zarith t [zpt 1 1; zpt 4 4; zpt 5 1]) = Some ([10; 11; 12], [0; 2; 2; 3]).
Proof. reflexivity. Qed.
Example ex_single : ~ in_box Zarith (zbox 0 0 1 1) (zpt 5 5) /\ obind (build_tree Zarith id_leaf [(zbox 0 0 1 1, 1)]) (fun t => collisions_points Zarith t [zpt 5 5]) = None.
Proof. split; [|reflexivity]. intro H. now destruct (H 0 ltac:(lia)) as (_ & X). Qed.

(** C41: a query between two trees returns exactly the pairs of entities whose boxes
    overlap. *)
Theorem C41_trees :
  forall T (A : arith T) (nth_leaf : nat -> list (leaf_of T) -> list (leaf_of T)),
    arith_ok A -> (forall a l, Permutation (nth_leaf a l) l) ->
  forall l0 l1, exists n0 n1 prs, build_tree A nth_leaf l0 = Some n0 /\ build_tree A nth_leaf l1 = Some n1 /\
    collisions_trees A n0 n1 = Some (concat (map (fun p => [fst p; snd p]) prs)) /\
    selects (fun p : leaf_of T * leaf_of T => overlap A (fst (fst p)) (fst (snd p))) (fun p => (snd (fst p), snd (snd p))) (list_prod l0 l1) prs.
Proof. exact (fun T A nth Aok H => trees_all A Aok nth H). Qed.
Print Assumptions C41_trees.
Example ex_trees : obind (build_tree Zarith id_leaf ex_leaves) (fun t => collisions_trees Zarith t t) = Some [10; 10; 11; 10; 10; 11; 11; 11; 12; 12; 13; 13].
Proof. vm_compute. reflexivity. Qed.

(** C42: the closest-entity search returns an entity of smallest distance, when the
    distance of an entity is at least that of its box and the points of the midpoint tree
    belong to entities of the tree.  [ldist A p dist cloud lf] is the distance the code gives
    a leaf: [dist] of the entity, or the distance to the lower corner of the leaf box if the
    tree is one of vertices. *)
Theorem C42_closest :
  forall T (A : arith T) (nth_leaf : nat -> list (leaf_of T) -> list (leaf_of T)) nth_point,
    arith_ok A -> (forall a l, Permutation (nth_leaf a l) l) -> (forall a l, Permutation (nth_point a l) l) ->
  forall l mids cloud dist p, l <> [] -> mids <> [] ->
    (forall lf, In lf l -> a_leb A (squared_distance_bbox A (fst lf) p) (ldist A p dist cloud lf) = true) ->
    (forall m e, In (m, e) mids -> exists lf, In lf l /\ snd lf = e /\ a_leb A (ldist A p dist cloud lf) (corner_distance A (mkBox m m) p) = true) ->
  exists tree mid e, build_tree A nth_leaf l = Some tree /\ point_tree A nth_point mids = Some mid /\ closest_entity A tree mid cloud dist p = Some (Some e) /\
    exists lf, In lf l /\ snd lf = e /\ forall lf', In lf' l -> a_leb A (ldist A p dist cloud lf) (ldist A p dist cloud lf') = true.
Proof. exact (fun T A nth nthp Aok H Hp => closest_all A Aok nth H nthp Hp). Qed.
Print Assumptions C42_closest.

(** The squared distance of two points, and distances to sets of points. *)
Definition d2 (x y : vec3 R) : R := ((v0 x - v0 y) * (v0 x - v0 y) + (v1 x - v1 y) * (v1 x - v1 y) + (v2 x - v2 y) * (v2 x - v2 y))%R.
Definition set_dist (S : vec3 R -> Prop) (p : vec3 R) (d : R) : Prop := (exists x, S x /\ d = d2 x p) /\ forall x, S x -> (d <= d2 x p)%R.

(** C42 in exact arithmetic: the entities are sets of points inside their boxes, [dist] is
    the squared distance to them, and every entity has its midpoint.  The search returns an
    entity closest to the point. *)
Theorem C42_exact :
  forall (nth_leaf : nat -> list (leaf_of R) -> list (leaf_of R)) nth_point,
    (forall a l, Permutation (nth_leaf a l) l) -> (forall a l, Permutation (nth_point a l) l) ->
  forall l mids (S : nat -> vec3 R -> Prop) dist p, l <> [] -> mids <> [] ->
    (forall b e, In (b, e) l -> set_dist (S e) p (dist e)) ->
    (forall b e x, In (b, e) l -> S e x -> forall i, i < 3 -> (comp (blo b) i <= comp x i <= comp (bhi b) i)%R) ->
    (forall m e, In (m, e) mids -> S e m /\ exists b, In (b, e) l) ->
  exists tree mid e, build_tree Rarith nth_leaf l = Some tree /\ point_tree Rarith nth_point mids = Some mid /\ closest_entity Rarith tree mid false dist p = Some (Some e) /\
    (exists b, In (b, e) l) /\ exists x, S e x /\ forall b' e' x', In (b', e') l -> S e' x' -> (d2 x p <= d2 x' p)%R.
Proof.
  intros nth nthp Hn Hnp l mids S dist p Hl Hm Hd Hb Hmid.
  destruct (C42_closest R Rarith nth nthp Rarith_ok Hn Hnp l mids false dist p Hl Hm) as (tree & mid & e & E1 & E2 & E3 & (b, e') & Hin & Es & Hmin).
  - intros (b, e) Hin. destruct (Hd b e Hin) as ((x & Sx & Ex) & _). unfold ldist. cbn [fst snd]. rewrite Ex. exact (real_box_bound b p x (Hb b e x Hin Sx)).
  - intros m e Hin. destruct (Hmid m e Hin) as (Sm & b & Hbl). exists (b, e). split; [exact Hbl|]. split; [reflexivity|]. apply Rle_dec_true. exact (proj2 (Hd b e Hbl) m Sm).
  - cbn [snd] in Es. subst e'. exists tree, mid, e. do 3 (split; [assumption|]). split; [eauto|]. destruct (Hd b e Hin) as ((x & Sx & Ex) & _). exists x. split; [exact Sx|].
    intros b' e' x' Hin' Sx'. specialize (Hmin _ Hin'). unfold ldist in Hmin. cbn [snd] in Hmin. apply Rle_dec_true in Hmin. rewrite <- Ex. eapply Rle_trans; [exact Hmin|]. exact (proj2 (Hd b' e' Hin') x' Sx').
Qed.
Print Assumptions C42_exact.

(** C42 fails for trees of vertices built with padding: vertices 0 and 1 at (0, 0, 0) and
    (10, 0, 0) with padding 3; vertex 1 is returned for the point (4, -3, -3), at squared
    distances 34 and 54. *)
Theorem C42_padded_vertices_refuted :
  let pad v := mkBox (mkV (v - 3) (-3) (-3))%Z (mkV (v + 3) 3 3)%Z in
  obind (build_tree Zarith id_leaf [(pad 0%Z, 0); (pad 10%Z, 1)]) (fun tree =>
  obind (point_tree Zarith id_leaf [((mkV 0 0 0)%Z, 0); ((mkV 10 0 0)%Z, 1)]) (fun mid =>
    closest_entity Zarith tree mid true (fun _ => 0%Z) (mkV 4 (-3) (-3))%Z)) = Some (Some 1).
Proof. vm_compute. reflexivity. Qed.
Print Assumptions C42_padded_vertices_refuted.
Example ex_closest :
  obind (build_tree Zarith id_leaf ex_leaves) (fun tree =>
  obind (point_tree Zarith id_leaf [(zpt 1 1, 10); (zpt 2 2, 11); (zpt 5 0, 12); (zpt 0 5, 13)]) (fun mid =>
    closest_entity Zarith tree mid false (fun e => match e with 10 => 13%Z | 11 => 5%Z | 12 => 17%Z | _ => 17%Z end) (zpt 4 4))) = Some (Some 11) /\
  Forall (fun lf : leaf_of Z => a_leb Zarith (squared_distance_bbox Zarith (fst lf) (zpt 4 4)) (match snd lf with 10 => 13%Z | 11 => 5%Z | 12 => 17%Z | _ => 17%Z end) = true) ex_leaves.
Proof. split; [vm_compute; reflexivity|]. repeat constructor. Qed.

(** C43, for trees of entities: the box of a node contains the boxes of all leaves below. *)
Theorem C43_entity_trees :
  forall T (A : arith T) (nth_leaf : nat -> list (leaf_of T) -> list (leaf_of T)),
    arith_ok A -> (forall a l, Permutation (nth_leaf a l) l) ->
  forall l, exists nodes, build_tree A nth_leaf l = Some nodes /\
    forall j c b lf, reach nodes (length nodes - 1) j -> nth_error nodes j = Some (c, b) -> below nodes j lf -> In lf l /\ subbox A (fst lf) b.
Proof. exact (fun T A nth Aok H => bound_ok A Aok nth H). Qed.
Print Assumptions C43_entity_trees.

(** C43, for point clouds: only the first coordinate of the points below a node is bounded
    by its box (the other two need not be, see [C43_cloud_refuted]). *)
Theorem C43_cloud_partial :
  forall T (A : arith T) (nth_point : nat -> list (vec3 T * nat) -> list (vec3 T * nat)),
    arith_ok A -> (forall a l, Permutation (nth_point a l) l) ->
  forall l, exists nodes, point_tree A nth_point l = Some nodes /\
    forall j c b lf, reach nodes (length nodes - 1) j -> nth_error nodes j = Some (c, b) -> below nodes j lf ->
      (exists x e, In (x, e) l /\ lf = (mkBox x x, e)) /\ a_leb A (v0 (blo b)) (v0 (blo (fst lf))) = true /\ a_leb A (v0 (bhi (fst lf))) (v0 (bhi b)) = true.
Proof. exact (fun T A nth Aok H => cloud_bound A Aok nth H). Qed.
Print Assumptions C43_cloud_partial.

(** C43 fails: six points, and a query at one of them finds nothing, because the box of a
    node is spanned by the smallest and the largest point in lexicographic order. *)
Theorem C43_cloud_refuted :
  exists nodes, point_tree Zarith id_leaf [(zpt 0 0, 0); (zpt 1 5, 1); (zpt 2 0, 2); (zpt 3 0, 3); (zpt 4 0, 4); (zpt 5 0, 5)] = Some nodes /\
    below nodes (length nodes - 1) (mkBox (zpt 1 5) (zpt 1 5), 1) /\
    (exists c b, nth_error nodes (length nodes - 1) = Some (c, b) /\ ~ in_box Zarith b (zpt 1 5)) /\
    collisions_points Zarith nodes [zpt 1 5] = Some ([], [0; 0]).
Proof.
  eexists. split; [vm_compute; reflexivity|]. split; [|split; [do 2 eexists; split; [reflexivity|intro H; now destruct (H 1 ltac:(lia))]|vm_compute; reflexivity]].
  eapply below_left; [reflexivity|discriminate|]. eapply below_right; [reflexivity|discriminate|]. eapply below_left; [reflexivity|discriminate|]. now apply below_leaf.
Qed.
Print Assumptions C43_cloud_refuted.

(** C58: in the tree of all processes, a point query returns every rank that holds an entity
    whose box contains the point, each rank once, and only ranks whose root box contains it. *)
Theorem C58_global_tree :
  forall T (A : arith T) (nth_leaf : nat -> list (leaf_of T) -> list (leaf_of T)),
    arith_ok A -> (forall a l, Permutation (nth_leaf a l) l) ->
  forall big (ls : list (list (leaf_of T))), 1 <= length ls -> exists trees g,
    Forall2 (fun l nodes => build_tree A nth_leaf l = Some nodes) ls trees /\ global_tree A nth_leaf big trees = Some g /\
    forall pts, exists ents offs, collisions_points A g pts = Some (ents, offs) /\ length offs = S (length pts) /\
      forall i p, nth_error pts i = Some p -> exists rs, slice_at ents offs i = Some rs /\ NoDup rs /\
        (forall r l, nth_error ls r = Some l -> l <> [] -> forall lf, In lf l -> in_box A (fst lf) p -> In r rs) /\
        (forall r, In r rs -> exists l nodes, nth_error ls r = Some l /\ nth_error trees r = Some nodes /\
           match l with [] => in_box A (mkBox (mkV big big big) (mkV big big big)) p | _ => exists b, root nodes b /\ in_box A b p end).
Proof. exact (fun T A nth Aok H => global_all A Aok nth H). Qed.
Print Assumptions C58_global_tree.
Example ex_global : 
  obind (build_tree Zarith id_leaf ex_leaves) (fun t0 => obind (build_tree Zarith id_leaf [(zbox 0 0 1 1, 0)]) (fun t1 =>
  obind (global_tree Zarith id_leaf 1000%Z [t0; []; t1]) (fun g => collisions_points Zarith g [zpt 1 1; zpt 3 3; zpt 9 9]))) = Some ([0; 2; 0], [0; 2; 3; 3]).
Proof. vm_compute. reflexivity. Qed.
