(** C68: each point is given to one process and one cell that contains it, or to the closest one. *)
From Verif Require Import Base BaseProofs Algo AlgoProofs World WorldProofs Nbx NbxProofs IndexMap PointOwner PointOwnerSpec PointOwnerProofs.

(** Every process learns the owner of each of its points, every owner learns which points of
    which process it has, and in which cell. *)
Theorem C68_owners : forall P nbx (A : Type) (zero : A) points box_ranks candidates dist2 tol max_val,
  nbx_oracle P nbx ->
  (forall r x, r < P -> In x (points r) -> NoDup (box_ranks r x) /\ forall q, In q (box_ranks r x) -> q < P) ->
  (0 < tol <= max_val)%Z ->
  exists owners dest_cells,
  (forall q, q < P -> determine_point_ownership P nbx A zero points box_ranks candidates dist2 tol max_val q
     = Some (owners q, (map fst (points_for A P points owners q), map snd (points_for A P points owners q), dest_cells q))) /\
  (forall q, q < P -> length (owners q) = length (points q) /\ length (dest_cells q) = length (points_for A P points owners q)) /\
  (forall r i x, r < P -> nth_error (points r) i = Some x ->
     (exists q c, nth_error (owners r) i = Some (Some q) /\ given_to A box_ranks candidates dist2 tol max_val r x q c) \/
     (nth_error (owners r) i = Some None /\ given_to_none A box_ranks candidates dist2 max_val r x)) /\
  (forall q j r x, q < P -> nth_error (points_for A P points owners q) j = Some (r, x) ->
     exists c, nth_error (dest_cells q) j = Some (Some c) /\ given_to A box_ranks candidates dist2 tol max_val r x q c).
Proof. exact ownership. Qed.
Print Assumptions C68_owners.

(** The same point has the same owner wherever it is asked for. *)
Theorem C68_same_point : forall P nbx (A : Type) (zero : A) points box_ranks candidates dist2 tol max_val,
  nbx_oracle P nbx ->
  (forall r x, r < P -> In x (points r) -> NoDup (box_ranks r x) /\ forall q, In q (box_ranks r x) -> q < P) ->
  (0 < tol <= max_val)%Z ->
  forall r r' i i' x owners owners' rest rest', r < P -> r' < P ->
  nth_error (points r) i = Some x -> nth_error (points r') i' = Some x ->
  (forall q, In q (box_ranks r x) <-> In q (box_ranks r' x)) ->
  determine_point_ownership P nbx A zero points box_ranks candidates dist2 tol max_val r = Some (owners, rest) ->
  determine_point_ownership P nbx A zero points box_ranks candidates dist2 tol max_val r' = Some (owners', rest') ->
  exists o, nth_error owners i = Some o /\ nth_error owners' i' = Some o.
Proof. exact same_point. Qed.
Print Assumptions C68_same_point.

(** Two processes with the cells [0,10], [10,20] and [20,30], [30,40]; boxes padded by 5. *)
Definition qx_cell (q c : nat) : Z * Z := let a := (20 * Z.of_nat q + 10 * Z.of_nat c)%Z in (a, a + 10)%Z.
Definition qx_gap (q c : nat) (x : Z) : Z := let '(a, b) := qx_cell q c in (Z.max 0 (Z.max (a - x) (x - b)))%Z.
Definition qx_candidates (q : nat) (x : Z) : list nat := filter (fun c => (qx_gap q c x <=? 5)%Z) [0; 1].
Definition qx_box_ranks (_ : nat) (x : Z) : list nat := filter (fun q => match qx_candidates q x with [] => false | _ => true end) [1; 0].
Definition qx_points (r : nat) : list Z := if r =? 0 then [25; 20; 90]%Z else [20; 43; 10]%Z.
Definition qx_run := determine_point_ownership 2 (senders 2) Z 0%Z qx_points qx_box_ranks qx_candidates (fun q c x => (qx_gap q c x * qx_gap q c x)%Z) 1%Z 1000%Z.
Example C68_computed_0 : qx_run 0 = Some ([Some 1; Some 0; None], ([0; 1; 1], [20; 20; 10]%Z, [Some 1; Some 1; Some 0])).
Proof. vm_compute. reflexivity. Qed.
Example C68_computed_1 : qx_run 1 = Some ([Some 0; Some 1; Some 0], ([0; 1], [25; 43]%Z, [Some 0; Some 1])).
Proof. vm_compute. reflexivity. Qed.
Example C68_example : exists owners dest_cells,
  (forall q, q < 2 -> qx_run q = Some (owners q, (map fst (points_for Z 2 qx_points owners q), map snd (points_for Z 2 qx_points owners q), dest_cells q))) /\
  nth_error (owners 1) 1 = Some (Some 1).
Proof.
  destruct (C68_owners 2 (senders 2) Z 0%Z qx_points qx_box_ranks qx_candidates (fun q c x => (qx_gap q c x * qx_gap q c x)%Z) 1%Z 1000%Z) as (ow & dc & H & _).
  - intros d r _. reflexivity.
  - intros r x _ _. split; [apply NoDup_filter; repeat first [apply NoDup_nil | apply NoDup_cons; [cbn; lia|]]|]. intros q Hq. apply filter_In in Hq as ([<-|[<-|[]]] & _); lia.
  - lia.
  - exists ow, dc. split; [exact H|]. pose proof (H 1 (le_n 2)) as K. fold qx_run in K. rewrite C68_computed_1 in K. injection K as K _ _ _. now rewrite <- K.
Qed.
