(** C73: distances of convex bodies. *)
From Coq Require Import Reals Lra.
From Verif Require Import Base Ranges GenerationSpec Gjk GjkSpec GjkHull GjkNearest GjkTet GjkLoop GjkThreads GjkEdge.
Open Scope R_scope.

(** The vector returned leads from the second body to the first and is as short as any other, up
    to the tolerance; it is close to the shortest one.  The other outcome is the exception after
    too many iterations.  Conditions: the values that are not initialised are not positive, and no
    difference of two corners is the foot of a perpendicular. *)
Theorem C73_distance : forall diag eps P Q, P <> [] -> Q <> [] -> 0 < eps <= 1 -> (forall i, diag i <= 0) -> no_foot (corners P Q) ->
  match compute_distance_gjk diag eps P Q with
  | Distance x => difference P Q x /\
      (forall y, difference P Q y -> norm2 x <= norm2 y + 2 * (eps * Rmax 1 (norm2 x))) /\
      (forall y, closest (difference P Q) y -> apart2 x y <= 2 * (eps * Rmax 1 (norm2 x)))
  | Max_iterations => True
  | Invalid_simplex | Undefined => False
  end.
Proof.
  intros diag eps P Q HP HQ He Hd Hf. pose proof (gjk_ok diag eps P Q HP HQ He Hd Hf) as G.
  destruct (compute_distance_gjk diag eps P Q) as [x| | |]; try exact G. destruct G as (G1 & G2). split; [exact G1|]. split; [exact G2|].
  intros y Hy. exact (near_closest P Q x y _ G1 (G2 y (proj1 Hy)) Hy).
Qed.
Print Assumptions C73_distance.
Example C73_distance_example : no_foot (corners [pa; pb] [o]) /\ compute_distance_gjk (fun _ => 0) (1 / 1000) [pa; pb] [o] = Distance pd /\
  no_foot (corners [mkV 3 1 0; mkV 4 (-1) 0; mkV 5 0 1] [mkV 0 0 0; mkV (-1) 0 1]).
Proof. exact (conj segment_no_foot (conj (segment_run _ (1 / 1000) ltac:(lra)) boxes_no_foot)). Qed.

(** The closest point of an interval, triangle or tetrahedron. *)
Theorem C73_nearest : forall diag s, (2 <= length s <= 4)%nat -> independent s -> (forall i, diag i <= 0) -> (length s = 3%nat -> no_foot s) ->
  exists l, nearest diag s = Some (Some l) /\ simplex_weights (length s) l /\ closest (hull s) (combination s l).
Proof.
  intros diag s Hl Hi Hd Hf. destruct s as [|a [|b [|c [|e [|? ?]]]]]; try (exfalso; cbn in Hl; lia); cbn [nearest].
  - destruct (nearest2_ok a b Hi) as (l & -> & H). exists l. split; [reflexivity|exact H].
  - destruct (nearest3_ok a b c Hi (Hf eq_refl)) as (l & -> & H). exists l. split; [reflexivity|exact H].
  - destruct (nearest4_ok diag Hd a b c e Hi) as (l & E & H). exists l. split; [f_equal; exact E|exact H].
Qed.
Print Assumptions C73_nearest.
Example C73_nearest_example : independent [ta; tb; tc; td] /\ closest (hull [ta; tb; tc; td]) ta.
Proof. exact (conj tet_independent tet_vertex). Qed.

(** The distances of a list of bodies do not depend on the number of threads and on the order in
    which the threads do their work. *)
Theorem C73_distances : forall diag eps bodies q n schedule dist, (0 < n)%Z ->
  interleaving (chunks bodies (num_threads_used bodies n)) schedule ->
  Forall2 (fun b x => compute_distance_gjk diag eps b q = Distance x) bodies dist ->
  compute_distances_gjk diag eps bodies q n schedule = Some dist.
Proof. exact distances_ok. Qed.
Print Assumptions C73_distances.
Example C73_distances_example : interleaving (chunks [[pa; pb]; [pa; pb]; [pa; pb]] 2) [0; 2; 1]%nat /\
  Forall2 (fun b x => compute_distance_gjk (fun _ => 0) (1 / 1000) b [o] = Distance x) [[pa; pb]; [pa; pb]; [pa; pb]] [pd; pd; pd].
Proof.
  split; [|repeat constructor; apply segment_run; lra]. change (chunks [[pa; pb]; [pa; pb]; [pa; pb]] 2) with [[0; 1]; [2]]%nat.
  apply (one_step [] 0%nat [1%nat] [[2%nat]]). apply (one_step [[1%nat]] 2%nat [] []). apply (one_step [] 1%nat [] [[]]). constructor. intros t [<-|[<-|[]]]; reflexivity.
Qed.

(** Two equal products: the triangle with corners (1, 2, 0), (2, -2, 0) and (1, 0, 0) has distance
    1 from the origin; the result is (3, 0, 0), which is not even in the triangle. *)
Theorem C73_tie_refuted : exists P Q x y, difference P Q y /\ norm2 y = 1 /\ norm2 x = 9 /\ ~ difference P Q x /\
  forall diag eps, 0 < eps <= 1 / 4 -> compute_distance_gjk diag eps P Q = Distance x.
Proof.
  destruct tie_missed as (H1 & H2 & H3 & H4). exists [pa; pb; pc], [o], (mkV 3 0 0), pc.
  exact (conj H1 (conj H2 (conj H3 (conj H4 tie_run)))).
Qed.
Print Assumptions C73_tie_refuted.

(** The search in a tetrahedron reads values that are never written; if one of them is positive,
    the closest vertex is missed and weights are negative. *)
Theorem C73_uninitialised_refuted : exists s a, independent s /\ hd_error s = Some a /\ closest (hull s) a /\
  forall diag, 0 < diag 0%nat -> exists l, nearest diag s = Some (Some l) /\ exists w, In w l /\ w < 0.
Proof.
  exists [ta; tb; tc; td], ta. split; [exact tet_independent|]. split; [reflexivity|]. split; [exact tet_vertex|]. intros diag H.
  exists [2; -1 / 3; -1 / 3; -1 / 3]. split; [exact (tet_missed diag H)|]. exists (-1 / 3). split; [right; left; reflexivity|lra].
Qed.
Print Assumptions C73_uninitialised_refuted.
