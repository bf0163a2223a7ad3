(** C75: interpolation from a function of another mesh uses its values at the points, wherever they are. *)
From Verif Require Import Base BaseProofs Algo World Nbx NbxProofs Interp InterpSpec InterpProofs PointOwner PointOwnerSpec PropPointOwner PropInterp.
From Verif Require Import NonMatching NonMatchingSpec NonMatchingScatter NonMatchingProofs NonMatchingCoords.

(** On every process, each degree of freedom of the given cells gets the value of the other function at its
    point. *)
Theorem C75_values : forall P nbx (T : Type) (zero : T) add mul (X : Type) zero_x points box_ranks candidates dist2 tol max_val basis bs0 dim0 vs0 bs_dof0 symmetric0 n0 dofmap0 v0 ncells0
    value_size ebs nsd num_sub dbs symmetric n dofmap transform cells r u,
  nbx_oracle P nbx ->
  (forall r x, r < P -> In x (points r) -> NoDup (box_ranks r x) /\ forall q, In q (box_ranks r x) -> q < P) ->
  (0 < tol <= max_val)%Z ->
  (forall q x c, q < P -> In c (candidates q x) -> c < ncells0 q) ->
  (forall q, q < P -> dofmap_fits bs_dof0 (dofmap0 q) (dim0 * bs0) (length (v0 q)) (seq 0 (ncells0 q))) ->
  (forall q c x, length (basis q c x) = dim0 /\ forall row, In row (basis q c x) -> length row = vs0) ->
  (* both have values of the same size *)
  (if symmetric0 : bool then vs0 = 1 /\ value_size = n0 * n0 /\ 2 * bs0 = n0 * (n0 + 1) else value_size = bs0 * vs0) ->
  (if symmetric : bool then value_size = n * n /\ 2 * ebs = n * (n + 1) else value_size = ebs) -> 0 < value_size ->
  (* the space on process r *)
  r < P -> dofmap_fits dbs (dofmap r) (ebs * nsd) (length u) (cells r) ->
  (forall c xs, In c (cells r) -> length xs = nsd -> length (transform r c xs) = nsd) ->
  (num_sub = 0 \/ num_sub = ebs) -> length (points r) = length (cells r) * nsd ->
  exists g,
    (forall i x comp, nth_error (points r) i = Some x -> comp < value_size ->
       point_value T zero add mul X box_ranks candidates dist2 tol max_val basis bs0 dim0 bs_dof0 symmetric0 n0 dofmap0 v0 r x comp (g i comp)) /\
    forall value,
    (forall o c i k comp, nth_error (cells r) o = Some c -> i < nsd -> k < ebs -> component symmetric n k comp ->
       value o (i * ebs + k) = nth i (transform r c (map (fun p => g (o * nsd + p) comp) (seq 0 nsd))) zero) ->
    exists u',
      interpolate_nonmatching P nbx T zero add mul X zero_x points box_ranks candidates dist2 tol max_val basis bs0 dim0 vs0 bs_dof0 symmetric0 dofmap0 v0 ebs nsd num_sub value_size dbs symmetric dofmap transform cells r u = Some u' /\
      written dbs (dofmap r) (ebs * nsd) (cells r) value u u'.
Proof.
  intros P nbx T zero add mul X zero_x points box_ranks candidates dist2 tol max_val basis bs0 dim0 vs0 bs_dof0 symmetric0 n0 dofmap0 v0 ncells0 value_size ebs nsd num_sub dbs symmetric n dofmap transform cells r u
    H1 H2 H3 H4 H5 H6 H7 H8 H9 Hr H10 H11 H12 H13.
  destruct (nonmatching_values P nbx T zero add mul X zero_x points box_ranks candidates dist2 tol max_val basis bs0 dim0 vs0 bs_dof0 symmetric0 n0 dofmap0 v0 ncells0 value_size H1 H2 H3 H4 H5 H6 H7 H9 ebs nsd num_sub dbs symmetric dofmap transform cells r u Hr) as (g & Hg & E).
  exists g. split; [exact Hg|]. intros value Hv. rewrite E.
  set (f := by_component value_size (length (points r)) g).
  assert (Hrows : forall row, In row (map (fun comp => map (fun i => g i comp) (seq 0 (length (points r)))) (seq 0 value_size)) -> length row = length (points r)).
  { intros row Hin. apply in_map_iff in Hin as (comp & <- & _). now rewrite map_length, seq_length. }
  apply C74_point_values with (n := n); auto.
  - unfold f, by_component. rewrite <- lsum_concat_length, (lsum_const _ (length (points r))), map_length, map_length, seq_length; [reflexivity|]. intros x Hx. apply in_map_iff in Hx as (row & <- & Hrow). now apply Hrows.
  - intros o c i k comp Ho Hi Hk Hc. rewrite (Hv o c i k comp Ho Hi Hk Hc). do 2 f_equal. unfold point_values. apply map_ext_in. intros p Hp. apply in_seq in Hp. symmetry. apply nth_error_nth.
    assert (Lc : comp < value_size). { destruct symmetric; [|cbn in Hc; lia]. destruct Hc as (rw & cl & C1 & C2 & C3 & ->). destruct H8 as (-> & _). nia. }
    assert (Lp : o * nsd + p < length (points r)). { rewrite H13. apply nth_error_bound in Ho. nia. }
    rewrite <- Nat.add_assoc. unfold f, by_component.
    rewrite (nth_error_uniform _ (length (points r)) comp (o * nsd + p) (map (fun i => g i comp) (seq 0 (length (points r)))) Hrows); [|rewrite nth_error_map_some, nth_error_seq by exact Lc; reflexivity|exact Lp].
    rewrite nth_error_map_some, nth_error_seq by exact Lp. reflexivity.
Qed.
Print Assumptions C75_values.

(** If the values do not depend on the cell (the function is [F], for instance because it is continuous) and no
    point is lost, the result is that of interpolating the values of [F] at the points: it does not depend on how
    the other mesh is distributed. *)
Theorem C75_function : forall P nbx (T : Type) (zero : T) add mul (X : Type) zero_x points box_ranks candidates dist2 tol max_val basis bs0 dim0 vs0 bs_dof0 symmetric0 n0 dofmap0 v0 ncells0
    value_size ebs nsd num_sub dbs symmetric dofmap transform cells r u (F : X -> nat -> T),
  nbx_oracle P nbx ->
  (forall r x, r < P -> In x (points r) -> NoDup (box_ranks r x) /\ forall q, In q (box_ranks r x) -> q < P) ->
  (0 < tol <= max_val)%Z ->
  (forall q x c, q < P -> In c (candidates q x) -> c < ncells0 q) ->
  (forall q, q < P -> dofmap_fits bs_dof0 (dofmap0 q) (dim0 * bs0) (length (v0 q)) (seq 0 (ncells0 q))) ->
  (forall q c x, length (basis q c x) = dim0 /\ forall row, In row (basis q c x) -> length row = vs0) ->
  (if symmetric0 : bool then vs0 = 1 /\ value_size = n0 * n0 /\ 2 * bs0 = n0 * (n0 + 1) else value_size = bs0 * vs0) -> 0 < value_size -> r < P ->
  (forall x q c comp v, In x (points r) -> comp < value_size -> given_to X box_ranks candidates dist2 tol max_val r x q c ->
     cell_value T zero add mul X basis bs0 dim0 bs_dof0 symmetric0 n0 dofmap0 v0 q c x comp v -> v = F x comp) ->
  (forall x, In x (points r) -> ~ given_to_none X box_ranks candidates dist2 max_val r x) ->
  interpolate_nonmatching P nbx T zero add mul X zero_x points box_ranks candidates dist2 tol max_val basis bs0 dim0 vs0 bs_dof0 symmetric0 dofmap0 v0 ebs nsd num_sub value_size dbs symmetric dofmap transform cells r u
  = interpolate_values T zero add mul ebs nsd 1 num_sub value_size dbs symmetric true 0 [] (dofmap r) (transform r) (cells r)
      (concat (map (fun comp => map (fun x => F x comp) (points r)) (seq 0 value_size))) (value_size, length (points r)) u.
Proof.
  intros P nbx T zero add mul X zero_x points box_ranks candidates dist2 tol max_val basis bs0 dim0 vs0 bs_dof0 symmetric0 n0 dofmap0 v0 ncells0 value_size ebs nsd num_sub dbs symmetric dofmap transform cells r u F
    H1 H2 H3 H4 H5 H6 H7 H9 Hr HF HN.
  destruct (nonmatching_values P nbx T zero add mul X zero_x points box_ranks candidates dist2 tol max_val basis bs0 dim0 vs0 bs_dof0 symmetric0 n0 dofmap0 v0 ncells0 value_size H1 H2 H3 H4 H5 H6 H7 H9 ebs nsd num_sub dbs symmetric dofmap transform cells r u Hr) as (g & Hg & ->).
  f_equal. unfold by_component. f_equal. apply map_ext_in. intros comp Hc. apply in_seq in Hc. apply nth_error_ext. intro i. rewrite !nth_error_map_some. destruct (nth_error (points r) i) as [x|] eqn:Ex.
  - rewrite nth_error_seq by (eapply nth_error_bound; eauto). cbn [option_map plus]. f_equal. assert (Hx : In x (points r)) by (eapply nth_error_In; eauto).
    destruct (Hg i x comp Ex ltac:(lia)) as [(q & c & G & V)|(G & _)]; [|destruct (HN x Hx G)]. exact (HF x q c comp _ Hx ltac:(lia) G V).
  - rewrite (proj2 (nth_error_None (seq 0 (length (points r))) i)); [reflexivity|]. rewrite seq_length. now apply nth_error_None.
Qed.
Print Assumptions C75_function.

(** The points: those of the reference cell moved to each cell, cell after cell. *)
Theorem C75_points : forall (T : Type) (zero : T) add mul gdim nd phi x_dofmap x_g cells,
  gdim <= 3 -> (forall row, In row phi -> length row = nd) ->
  (forall c, In c cells -> exists nodes, nth_error x_dofmap c = Some nodes /\ length nodes = nd /\ forall d, In d nodes -> 3 * d + 3 <= length x_g) ->
  exists x pts, interpolation_coords T zero add mul gdim phi x_dofmap x_g cells = Some x /\ data_points T zero x = Some pts /\ length pts = length cells * length phi /\
  forall o c nodes p row, nth_error cells o = Some c -> nth_error x_dofmap c = Some nodes -> nth_error phi p = Some row ->
    let coordinate j := if j <? gdim then node_sum T zero add mul row nodes x_g j else zero in
    nth_error pts (o * length phi + p) = Some (coordinate 0, coordinate 1, coordinate 2).
Proof. exact points_spec. Qed.
Print Assumptions C75_points.

(** ** Examples *)
(** The two processes of PropPointOwner.v with the function (x, -x) (times 10), and one cell with three points on each; no cell
    has the point 90. *)
Definition ix_basis (q c : nat) (x : Z) : list (list Z) := let '(a, b) := qx_cell q c in [[b - x]; [x - a]]%Z.
Definition ix_dofmap0 (q : nat) : list (list nat) := if q =? 0 then [[0; 1]; [1; 2]] else [[2; 0]; [0; 1]].
Definition ix_v0 (q : nat) : list Z := if q =? 0 then [0; 0; 10; -10; 20; -20]%Z else [30; -30; 40; -40; 20; -20]%Z.
Definition ix_dofmap (r : nat) : list (list nat) := if r =? 0 then [[2; 0; 1]] else [[0; 1; 2]].
Definition ix_run := interpolate_nonmatching 2 (senders 2) Z 0%Z Z.add Z.mul Z 0%Z qx_points qx_box_ranks qx_candidates (fun q c x => (qx_gap q c x * qx_gap q c x)%Z) 1%Z 1000%Z
  ix_basis 2 2 1 2 false ix_dofmap0 ix_v0 2 3 2 2 2 false ix_dofmap (fun _ _ xs => xs) (fun _ => [0]).
Example C75_computed_0 : ix_run 0 (repeat 7%Z 6) = Some [200; -200; 0; 0; 250; -250]%Z.
Proof. vm_compute. reflexivity. Qed.
Example C75_computed_1 : ix_run 1 (repeat 7%Z 6) = Some [200; -200; 430; -430; 100; -100]%Z.
Proof. vm_compute. reflexivity. Qed.
Lemma ix_boxes : forall r x, r < 2 -> In x (qx_points r) -> NoDup (qx_box_ranks r x) /\ forall q, In q (qx_box_ranks r x) -> q < 2.
Proof.
  intros r x _ _. split; [apply NoDup_filter; repeat first [apply NoDup_nil | apply NoDup_cons; [cbn; lia|]]|]. intros q Hq. apply filter_In in Hq as ([<-|[<-|[]]] & _); lia.
Qed.
Lemma ix_cands : forall q x c, q < 2 -> In c (qx_candidates q x) -> c < 2.
Proof. intros q x c _ H. apply filter_In in H as ([<-|[<-|[]]] & _); lia. Qed.
Lemma ix_fits : forall q, q < 2 -> dofmap_fits 2 (ix_dofmap0 q) (2 * 2) (length (ix_v0 q)) (seq 0 2).
Proof.
  intros [|[|q]] Hq; [| |lia]; (split; [lia|]); intros c [<-|[<-|[]]]; (eexists; split; [reflexivity|]; split; [reflexivity|]); intros d Hd; cbn in *; lia.
Qed.
Lemma ix_basis_ok : forall q c x, length (ix_basis q c x) = 2 /\ forall row, In row (ix_basis q c x) -> length row = 1.
Proof. intros q c x. split; [reflexivity|]. intros row [<-|[<-|[]]]; reflexivity. Qed.
Example C75_example : exists g,
  (forall i x comp, nth_error (qx_points 1) i = Some x -> comp < 2 ->
     point_value Z 0%Z Z.add Z.mul Z qx_box_ranks qx_candidates (fun q c x => (qx_gap q c x * qx_gap q c x)%Z) 1%Z 1000%Z ix_basis 2 2 2 false 0 ix_dofmap0 ix_v0 1 x comp (g i comp)) /\
  exists u', ix_run 1 (repeat 7%Z 6) = Some u' /\ written 2 (ix_dofmap 1) 6 [0] (fun o m => g (m / 2) (m mod 2)) (repeat 7%Z 6) u'.
Proof.
  destruct (C75_values 2 (senders 2) Z 0%Z Z.add Z.mul Z 0%Z qx_points qx_box_ranks qx_candidates (fun q c x => (qx_gap q c x * qx_gap q c x)%Z) 1%Z 1000%Z ix_basis 2 2 1 2 false 0 ix_dofmap0 ix_v0 (fun _ => 2)
    2 2 3 2 2 false 0 ix_dofmap (fun _ _ xs => xs) (fun _ => [0]) 1 (repeat 7%Z 6)) as (g & Hg & H).
  - intros d r _. reflexivity.
  - exact ix_boxes.
  - lia.
  - exact ix_cands.
  - exact ix_fits.
  - exact ix_basis_ok.
  - reflexivity.
  - reflexivity.
  - lia.
  - lia.
  - split; [lia|]. intros c [<-|[]]. eexists; split; [reflexivity|]; split; [reflexivity|]. intros d Hd; cbn in *; lia.
  - auto.
  - auto.
  - reflexivity.
  - exists g. split; [exact Hg|]. apply H. intros o c i k comp Ho Hi Hk Hc. cbn in Hc. subst comp.
    destruct o as [|o]; [|destruct o; discriminate]. do 3 (destruct i as [|i]; [do 2 (destruct k as [|k]; [reflexivity|]); lia|]). lia.
Qed.
(** A continuous function: (x, -x). *)
Definition ix_points (r : nat) : list Z := if r =? 0 then [25; 20; 10]%Z else [20; 43; 10]%Z.
Example C75_function_example : interpolate_nonmatching 2 (senders 2) Z 0%Z Z.add Z.mul Z 0%Z ix_points qx_box_ranks qx_candidates (fun q c x => (qx_gap q c x * qx_gap q c x)%Z) 1%Z 1000%Z
    ix_basis 2 2 1 2 false ix_dofmap0 ix_v0 2 3 2 2 2 false ix_dofmap (fun _ _ xs => xs) (fun _ => [0]) 0 (repeat 7%Z 6)
  = interpolate_values Z 0%Z Z.add Z.mul 2 3 1 2 2 2 false true 0 [] (ix_dofmap 0) (fun _ xs => xs) [0] [250; 200; 100; -250; -200; -100]%Z (2, 3) (repeat 7%Z 6).
Proof.
  apply (C75_function 2 (senders 2) Z 0%Z Z.add Z.mul Z 0%Z ix_points qx_box_ranks qx_candidates (fun q c x => (qx_gap q c x * qx_gap q c x)%Z) 1%Z 1000%Z ix_basis 2 2 1 2 false 0 ix_dofmap0 ix_v0 (fun _ => 2)
    2 2 3 2 2 false ix_dofmap (fun _ _ xs => xs) (fun _ => [0]) 0 (repeat 7%Z 6) (fun x comp => if comp =? 0 then (10 * x)%Z else (- (10 * x))%Z)).
  - intros d r _. reflexivity.
  - intros r x _ _. split; [apply NoDup_filter; repeat first [apply NoDup_nil | apply NoDup_cons; [cbn; lia|]]|]. intros q Hq. apply filter_In in Hq as ([<-|[<-|[]]] & _); lia.
  - lia.
  - exact ix_cands.
  - exact ix_fits.
  - exact ix_basis_ok.
  - reflexivity.
  - lia.
  - lia.
  - intros x q c comp v _ Hcomp (Hq & before & after & E & _) (k & j & (Hk & ->) & ->).
    assert (Hc : In c (qx_candidates q x)) by (rewrite E; apply in_or_app; right; now left). apply filter_In in Hc as (Hc & _). apply filter_In in Hq as (Hq & _).
    destruct j as [|j]; [|lia]. destruct k as [|[|k]]; [| |lia];
    destruct Hq as [<-|[<-|[]]], Hc as [<-|[<-|[]]]; unfold expansion, dot, ix_basis, cell_coefficients; cbn -[Z.add Z.mul Z.sub Z.opp]; lia.
  - intros x Hx N. destruct Hx as [<-|[<-|[<-|[]]]].
    + specialize (N 1 0 ltac:(vm_compute; auto) ltac:(vm_compute; auto)). vm_compute in N. now apply N.
    + specialize (N 1 0 ltac:(vm_compute; auto) ltac:(vm_compute; auto)). vm_compute in N. now apply N.
    + specialize (N 0 0 ltac:(vm_compute; auto) ltac:(vm_compute; auto)). vm_compute in N. now apply N.
Qed.
(** Points 0, 1/2, 1 of triangles in the plane, times two. *)
Example C75_points_computed :
  (x <- interpolation_coords Z 0%Z Z.add Z.mul 2 [[2; 0; 0]; [0; 1; 1]]%Z [[0; 1; 2]; [1; 3; 2]] [0; 0; 9; 1; 0; 9; 0; 1; 9; 1; 1; 9]%Z [1; 0] ;; data_points Z 0%Z x)
  = Some [(2, 0, 0); (1, 2, 0); (0, 0, 0); (1, 1, 0)]%Z.
Proof. vm_compute. reflexivity. Qed.
Example C75_points_example : exists x pts, interpolation_coords Z 0%Z Z.add Z.mul 2 [[2; 0; 0]; [0; 1; 1]]%Z [[0; 1; 2]; [1; 3; 2]] [0; 0; 9; 1; 0; 9; 0; 1; 9; 1; 1; 9]%Z [1; 0] = Some x /\ data_points Z 0%Z x = Some pts /\ nth_error pts 1 = Some (1, 2, 0)%Z.
Proof.
  destruct (C75_points Z 0%Z Z.add Z.mul 2 3 [[2; 0; 0]; [0; 1; 1]]%Z [[0; 1; 2]; [1; 3; 2]] [0; 0; 9; 1; 0; 9; 0; 1; 9; 1; 1; 9]%Z [1; 0]) as (x & pts & H1 & H2 & _ & H3).
  - lia.
  - intros row [<-|[<-|[]]]; reflexivity.
  - intros c [<-|[<-|[]]]; (eexists; split; [reflexivity|]; split; [reflexivity|]); intros d Hd; cbn in *; lia.
  - exists x, pts. split; [exact H1|]. split; [exact H2|]. exact (H3 0 1 [1; 3; 2] 1 [0; 1; 1]%Z eq_refl eq_refl eq_refl).
Qed.

(** The sizes of the values are not compared.  A scalar function can be interpolated into a space of vectors:
    the other components become zero.  A vector-valued one can be interpolated into a scalar space: the values of a
    point are written over those of the next one, and past the end for the last point (an error in the model). *)
Theorem C75_value_size_refuted :
  ~ (forall P nbx (T : Type) (zero : T) add mul (X : Type) zero_x points box_ranks candidates dist2 tol max_val basis bs0 dim0 vs0 bs_dof0 dofmap0 v0 value_size ebs nsd num_sub dbs dofmap transform cells r u u',
     interpolate_nonmatching P nbx T zero add mul X zero_x points box_ranks candidates dist2 tol max_val basis bs0 dim0 vs0 bs_dof0 false dofmap0 v0 ebs nsd num_sub value_size dbs false dofmap transform cells r u = Some u' ->
     value_size = bs0 * vs0).
Proof.
  intro H.
  specialize (H 2 (senders 2) Z 0%Z Z.add Z.mul Z 0%Z qx_points qx_box_ranks qx_candidates (fun q c x => (qx_gap q c x * qx_gap q c x)%Z) 1%Z 1000%Z
    ix_basis 1 2 1 1 ix_dofmap0 (fun q => if q =? 0 then [0; 10; 20]%Z else [30; 40; 20]%Z) 2 2 3 2 2 ix_dofmap (fun _ _ xs => xs) (fun _ => [0]) 1 (repeat 7%Z 6) [200; 0; 430; 0; 100; 0]%Z).
  assert (2 = 1 * 1) by (apply H; vm_compute; reflexivity). discriminate.
Qed.
Print Assumptions C75_value_size_refuted.
