(** Properties C84 and C85: matrices of discrete operators. *)
From Verif Require Import Base BaseProofs InterpSpec AssembleSpec DiscreteOps DiscreteOpsSpec DiscreteLinear DiscreteSet DiscreteGrad DiscreteAdd.
From Coq Require Import Ring ZArith.
Open Scope nat_scope.

(** ** C84.  The interpolation matrix, its entries added: an owned row times the coefficients of a function of the
    first space is the dof of the interpolation of the function in the first cell that has the dof; all other rows
    are zero. *)
Theorem C84_interpolation :
  forall (T : Type) (zero one : T) (add mul sub : T -> T -> T) (opp : T -> T), ring_theory zero one add mul sub opp eq ->
  forall bs0 bs1 dim0 value_size0 value_size1 space_dim1 num_points (ident : bool) (Pi : list (list T)) basis pull transform1 col_bs row_bs num_owned num_ghosted num_cells dofmap0 dofmap1,
  0 < bs0 -> 0 < col_bs -> 0 < row_bs -> value_size1 = value_size0 * bs0 ->
  (forall c p, c < num_cells -> p < num_points -> length (basis c p) = dim0 /\ (forall row, In row (basis c p) -> length row = value_size0) /\ linear T add mul value_size1 value_size1 (pull c p)) ->
  (forall c, c < num_cells -> linear T add mul space_dim1 space_dim1 (transform1 c)) ->
  (ident = false -> (forall row, In row Pi -> (if bs1 =? 1 then value_size1 * num_points else num_points) <= length row) /\ (bs1 <> 1 -> bs1 <= value_size1)) ->
  space_dim1 = (if ident then num_points * value_size1 else if bs1 =? 1 then length Pi else length Pi * bs1) ->
  (forall c, c < num_cells -> exists dofs, nth_error dofmap0 c = Some dofs /\ col_bs * length dofs = bs0 * dim0) ->
  (forall c, c < num_cells -> exists dofs, nth_error dofmap1 c = Some dofs /\ row_bs * length dofs = space_dim1 /\ forall d, In d dofs -> d < num_owned + num_ghosted) ->
  exists M, interpolation_matrix T zero add mul bs0 bs1 dim0 value_size0 value_size1 space_dim1 num_points ident Pi basis pull transform1 col_bs row_bs num_owned num_ghosted num_cells dofmap0 dofmap1 = Some M /\
  (forall u c i r k, first_at dofmap1 num_cells c i r -> r < num_owned -> k < row_bs ->
     times T zero add mul (added_entry T zero add M) u (row_bs * r + k)
     = nth (row_bs * i + k) (interpolated T zero add mul bs0 bs1 dim0 value_size1 num_points ident Pi (basis c) (pull c) (transform1 c) (cell_coefficients T zero col_bs dofmap0 (bs0 * dim0) u c)) zero) /\
  (forall u r k, num_owned <= r \/ (forall c dofs, c < num_cells -> nth_error dofmap1 c = Some dofs -> ~ In r dofs) -> k < row_bs ->
     times T zero add mul (added_entry T zero add M) u (row_bs * r + k) = zero).
Proof.
  intros T zero one add mul sub opp Rth bs0 bs1 dim0 vs0 vs1 n1 np ident Pi basis pull tr cbs rbs owned ghosted ncells dofmap0 dofmap1 Hb Hc Hr Hv Hbasis Htr HPi Hn1 Hd0 Hd1.
  destruct (interpolation_ok T zero one add mul sub opp Rth bs0 bs1 dim0 vs0 vs1 n1 np ident Pi basis pull tr cbs rbs owned ghosted ncells dofmap0 dofmap1 Hb Hv
    (fun c p H1 H2 => conj (proj1 (Hbasis c p H1 H2)) (proj1 (proj2 (Hbasis c p H1 H2)))) (fun c p H1 H2 => proj2 (proj2 (Hbasis c p H1 H2))) Htr (fun H => proj1 (HPi H)) (fun H => proj2 (HPi H)) Hn1 Hc Hr Hd0 Hd1) as (M & E & H1 & H2).
  exists M. split; [exact E|]. split; [exact H1|]. intros u r k H Hk. apply H2; [|exact Hk]. destruct H as [H|H]; [now left|right]. intros (c & i & dofs & Hlt & E1 & E2). apply (H c dofs Hlt E1). exact (nth_error_In _ _ E2).
Qed.
Print Assumptions C84_interpolation.

Lemma first_in (l : list nat) r : In r l -> exists i, nth_error l i = Some r /\ forall i', i' < i -> nth_error l i' <> Some r.
Proof.
  induction l as [|x l IH]; intro H; [contradiction|]. destruct (Nat.eq_dec x r) as [->|Nx].
  - exists 0. split; [reflexivity|]. intros i' Hi'. lia.
  - destruct H as [H|H]; [contradiction|]. destruct (IH H) as (i & Ei & Hi). exists (S i). split; [exact Ei|]. intros [|i'] Hi'; cbn [nth_error]; [congruence|]. apply Hi. lia.
Qed.
Lemma first_exists dofmap n : forall c dofs r, c < n -> nth_error dofmap c = Some dofs -> In r dofs -> exists c' i', first_at dofmap n c' i' r.
Proof.
  induction n as [|n IH]; intros c dofs r Hc E Hin; [lia|].
  assert (D : (exists c0 dofs0, c0 < n /\ nth_error dofmap c0 = Some dofs0 /\ In r dofs0) \/ forall c0 dofs0, c0 < n -> nth_error dofmap c0 = Some dofs0 -> ~ In r dofs0).
  { clear. induction n as [|n IH]; [right; intros; lia|]. destruct IH as [(c0 & d0 & H)|H]; [left; exists c0, d0; intuition lia|].
    destruct (nth_error dofmap n) as [d|] eqn:E; [destruct (in_dec Nat.eq_dec r d) as [Hd|Hd]|].
    - left. exists n, d. split; [lia|]. now split.
    - right. intros c0 d0 Hc0 E0. destruct (Nat.eq_dec c0 n) as [->|Nc]; [rewrite E in E0; injection E0 as <-; exact Hd|]. apply (H c0); [lia|exact E0].
    - right. intros c0 d0 Hc0 E0. destruct (Nat.eq_dec c0 n) as [->|Nc]; [congruence|]. apply (H c0); [lia|exact E0]. }
  destruct D as [(c0 & d0 & Hc0 & E0 & Hin0)|D].
  - destruct (IH c0 d0 r Hc0 E0 Hin0) as (c' & i' & H1 & H2). exists c', i'. split; [lia|exact H2].
  - destruct (Nat.eq_dec c n) as [->|Nc]; [|destruct (D c dofs ltac:(lia) E Hin)]. destruct (first_in dofs r Hin) as (i & Ei & Hi). exists n, i. split; [lia|]. split; [now exists dofs|].
    intros c' i' d' [H|[-> H]] E'; [|rewrite E in E'; injection E' as <-; now apply Hi]. intro Ed. exact (D c' d' H E' (nth_error_In _ _ Ed)).
Qed.

(** If the cells agree on the interpolation of a function, an owned row times its coefficients is the dof of its
    interpolation in any cell. *)
Theorem C84_conforming :
  forall (T : Type) (zero one : T) (add mul sub : T -> T -> T) (opp : T -> T), ring_theory zero one add mul sub opp eq ->
  forall bs0 bs1 dim0 value_size0 value_size1 space_dim1 num_points (ident : bool) (Pi : list (list T)) basis pull transform1 col_bs row_bs num_owned num_ghosted num_cells dofmap0 dofmap1 u,
  0 < bs0 -> 0 < col_bs -> 0 < row_bs -> value_size1 = value_size0 * bs0 ->
  (forall c p, c < num_cells -> p < num_points -> length (basis c p) = dim0 /\ (forall row, In row (basis c p) -> length row = value_size0) /\ linear T add mul value_size1 value_size1 (pull c p)) ->
  (forall c, c < num_cells -> linear T add mul space_dim1 space_dim1 (transform1 c)) ->
  (ident = false -> (forall row, In row Pi -> (if bs1 =? 1 then value_size1 * num_points else num_points) <= length row) /\ (bs1 <> 1 -> bs1 <= value_size1)) ->
  space_dim1 = (if ident then num_points * value_size1 else if bs1 =? 1 then length Pi else length Pi * bs1) ->
  (forall c, c < num_cells -> exists dofs, nth_error dofmap0 c = Some dofs /\ col_bs * length dofs = bs0 * dim0) ->
  (forall c, c < num_cells -> exists dofs, nth_error dofmap1 c = Some dofs /\ row_bs * length dofs = space_dim1 /\ forall d, In d dofs -> d < num_owned + num_ghosted) ->
  let dofs_in c := interpolated T zero add mul bs0 bs1 dim0 value_size1 num_points ident Pi (basis c) (pull c) (transform1 c) (cell_coefficients T zero col_bs dofmap0 (bs0 * dim0) u c) in
  (forall c c' m m' a, c < num_cells -> c' < num_cells -> cell_dof row_bs dofmap1 c m = Some a -> cell_dof row_bs dofmap1 c' m' = Some a -> nth m (dofs_in c) zero = nth m' (dofs_in c') zero) ->
  exists M, interpolation_matrix T zero add mul bs0 bs1 dim0 value_size0 value_size1 space_dim1 num_points ident Pi basis pull transform1 col_bs row_bs num_owned num_ghosted num_cells dofmap0 dofmap1 = Some M /\
  forall c m a, c < num_cells -> cell_dof row_bs dofmap1 c m = Some a -> a < row_bs * num_owned -> times T zero add mul (added_entry T zero add M) u a = nth m (dofs_in c) zero.
Proof.
  intros T zero one add mul sub opp Rth bs0 bs1 dim0 vs0 vs1 n1 np ident Pi basis pull tr cbs rbs owned ghosted ncells dofmap0 dofmap1 u Hb Hc Hr Hv Hbasis Htr HPi Hn1 Hd0 Hd1 dofs_in Hagree.
  destruct (C84_interpolation T zero one add mul sub opp Rth bs0 bs1 dim0 vs0 vs1 n1 np ident Pi basis pull tr cbs rbs owned ghosted ncells dofmap0 dofmap1 Hb Hc Hr Hv Hbasis Htr HPi Hn1 Hd0 Hd1) as (M & E & H1 & _).
  exists M. split; [exact E|]. intros c m a Hlt Hm Ha. destruct (Hd1 c Hlt) as (rows & Er & Lr & Hrows). destruct (cell_dof_bound rbs dofmap1 c rows m a Hr Er Hm) as [Hb1 Ea].
  unfold target in Ea. set (r := nth (m / rbs) rows 0) in *. pose proof (Nat.mod_upper_bound m rbs ltac:(lia)) as Hk.
  destruct (first_exists dofmap1 ncells c rows r Hlt Er) as (c' & i' & Hf); [apply nth_In; apply Nat.div_lt_upper_bound; lia|].
  rewrite Ea, (H1 u c' i' r (m mod rbs) Hf) by nia. destruct Hf as (Hlt' & (rows' & Er' & Ei') & _). apply (Hagree c' c (rbs * i' + m mod rbs) m a Hlt' Hlt); [|exact Hm].
  unfold cell_dof. rewrite Er'. replace ((rbs * i' + m mod rbs) / rbs) with i' by (rewrite Nat.mul_comm, Nat.div_add_l, (Nat.div_small (m mod rbs)) by lia; lia). rewrite Ei'. f_equal. rewrite Ea. f_equal.
  rewrite Nat.add_comm, Nat.mul_comm, Nat.mod_add, Nat.mod_small by lia. reflexivity.
Qed.
Print Assumptions C84_conforming.

(** A blocked Lagrange space of degree one (values doubled) interpolated in a space with an additional dof in each
    of two intervals; the values in the second cell are mapped and its dofs have a transformation that undoes it;
    the last two blocks of rows are ghosts. *)
Definition dop_scale (s : Z) (x : list Z) : list Z := map (Z.mul s) x.
Lemma dop_scale_linear n s : linear Z Z.add Z.mul n n (dop_scale s).
Proof.
  split; [intros x Hx; unfold dop_scale; now rewrite map_length|]. split.
  - intros x y Hx Hy. unfold dop_scale, vadd. clear n Hx Hy. revert y. induction x as [|a x IH]; intros [|b y]; try reflexivity. cbn [combine map fst snd]. rewrite IH. f_equal. ring.
  - intros t x _. unfold dop_scale, vscale. rewrite !map_map. apply map_ext. intro a. ring.
Qed.
Lemma dop_cells (P : nat -> Prop) : P 0 -> P 1 -> forall c, c < 2 -> P c.
Proof. intros H0 H1 [|[|c]] Hc; [exact H0|exact H1|lia]. Qed.
Definition dop_sign (c : nat) : Z := if c =? 1 then (-1)%Z else 1%Z.
Definition dop_basis (c p : nat) : list (list Z) := nth p [[[2]; [0]]; [[0]; [2]]; [[1]; [1]]]%Z [].
Definition dop_Pi : list (list Z) := [[1; 0; 0]; [0; 1; 0]; [0; 0; 1]]%Z.
Definition dop_maps0 : list (list nat) := [[0; 1]; [1; 2]].
Definition dop_maps1 : list (list nat) := [[0; 1; 2]; [1; 3; 4]].
Definition dop_matrix : option (list (nat * nat * Z)) :=
  interpolation_matrix Z 0%Z Z.add Z.mul 2 2 2 1 2 6 3 false dop_Pi dop_basis (fun c _ => dop_scale (dop_sign c)) (fun c => dop_scale (dop_sign c)) 2 2 3 2 2 dop_maps0 dop_maps1.
Lemma dop_hyps :
  (forall c p, c < 2 -> p < 3 -> length (dop_basis c p) = 2 /\ (forall row, In row (dop_basis c p) -> length row = 1) /\ linear Z Z.add Z.mul 2 2 (dop_scale (dop_sign c))) /\
  (forall c, c < 2 -> linear Z Z.add Z.mul 6 6 (dop_scale (dop_sign c))) /\
  (false = false -> (forall row, In row dop_Pi -> (if 2 =? 1 then 2 * 3 else 3) <= length row) /\ (2 <> 1 -> 2 <= 2)) /\
  (forall c, c < 2 -> exists dofs, nth_error dop_maps0 c = Some dofs /\ 2 * length dofs = 2 * 2) /\
  (forall c, c < 2 -> exists dofs, nth_error dop_maps1 c = Some dofs /\ 2 * length dofs = 6 /\ forall d, In d dofs -> d < 3 + 2).
Proof.
  split; [|split; [|split; [|split]]].
  - intros c p _ Hp. split; [|split; [|apply dop_scale_linear]].
    + destruct p as [|[|[|p]]]; try reflexivity. lia.
    + destruct p as [|[|[|p]]]; [| | |lia]; intros row Hrow; cbn in Hrow; decompose [or] Hrow; subst; try reflexivity; contradiction.
  - intros c _. apply dop_scale_linear.
  - intros _. split; [intros row Hrow; cbn in Hrow; decompose [or] Hrow; subst; try (cbn; lia); contradiction|lia].
  - apply dop_cells; eexists; (split; [reflexivity|reflexivity]).
  - apply dop_cells; (eexists; split; [reflexivity|]; split; [reflexivity|]; intros d Hd; cbn in Hd; decompose [or] Hd; subst; try lia; contradiction).
Qed.
Example C84_interpolation_case :
  option_map (fun M => map (times Z 0%Z Z.add Z.mul (added_entry Z 0%Z Z.add M) [1; 2; 3; 5; 8; 13]%Z) (seq 0 10)) dop_matrix = Some [2; 4; 6; 10; 4; 7; 0; 0; 0; 0]%Z /\
  first_at dop_maps1 2 0 1 1 /\ interpolated Z 0%Z Z.add Z.mul 2 2 2 2 3 false dop_Pi (dop_basis 1) (fun _ => dop_scale (-1)) (dop_scale (-1)) (cell_coefficients Z 0%Z 2 dop_maps0 4 [1; 2; 3; 5; 8; 13]%Z 1) = [6; 10; 16; 26; 11; 18]%Z.
Proof.
  split; [reflexivity|]. split; [|reflexivity]. split; [lia|]. split; [now exists [0; 1; 2]|].
  intros c' i' dofs [H|[-> H]] E; [lia|]. injection E as <-. destruct i' as [|i']; [discriminate|lia].
Qed.

(** Nothing checks that the two spaces have values of the same size: with more components in the first space the
    unrolled basis is written out of bounds, with fewer the others count as zero. *)
Theorem C84_value_sizes_refuted :
  interpolation_matrix Z 0%Z Z.add Z.mul 1 1 1 2 1 1 1 true [] (fun _ _ => [[3; 4]]%Z) (fun _ _ x => x) (fun _ x => x) 1 1 1 0 1 [[0]] [[0]] = None /\
  interpolation_matrix Z 0%Z Z.add Z.mul 1 1 1 1 2 2 1 true [] (fun _ _ => [[3]]%Z) (fun _ _ x => x) (fun _ x => x) 1 1 2 0 1 [[0]] [[0; 1]] = Some [(0, 0, 3%Z); (1, 0, 0%Z)].
Proof. split; reflexivity. Qed.
Print Assumptions C84_value_sizes_refuted.

(** ** C85.  The matrices of the discrete gradient and curl, their entries set: a row times the coefficients of a
    function is the dof of the interpolation of its gradient or curl in any cell that has it. *)
Theorem C85_gradient :
  forall (T : Type) (zero one : T) (add mul sub : T -> T -> T) (opp : T -> T), ring_theory zero one add mul sub opp eq ->
  forall n0 size num_cells dofmap0 dofmap1 (Pi dphi : list (list T)) transform1,
  maps_fit num_cells n0 (length Pi) size dofmap0 dofmap1 ->
  (forall c, c < num_cells -> linear T add mul (length Pi) (length Pi) (transform1 c)) ->
  (forall row, In row Pi -> length row = length dphi) -> (forall row, In row dphi -> length row = n0) ->
  let op c u := transform1 c (gradient_dofs T zero add mul n0 Pi dphi u) in
  conforming T zero num_cells n0 size dofmap0 dofmap1 op ->
  exists M, discrete_gradient T zero add mul n0 Pi dphi transform1 num_cells dofmap0 dofmap1 = Some M /\
  forall u c m d, length u = size -> c < num_cells -> cell_dof 1 dofmap1 c m = Some d ->
  times T zero add mul (set_entry T zero M) u d = nth m (op c (cell_coefficients T zero 1 dofmap0 n0 u c)) zero.
Proof.
  intros T zero one add mul sub opp Rth n0 N0 ncells dofmap0 dofmap1 Pi dphi tr Hm Htr HPr Hd op Hconf. eexists. split.
  - exact (gradient_ok T zero one add mul sub opp Rth n0 (length Pi) N0 ncells dofmap0 dofmap1 Hm Pi tr eq_refl Htr dphi HPr Hd).
  - intros u c m d Lu Hc Hdof. exact (gradient_dofs_ok T zero one add mul sub opp Rth n0 (length Pi) N0 ncells dofmap0 dofmap1 Hm Pi tr eq_refl Htr dphi u c m d Hconf Lu Hc Hdof).
Qed.
Print Assumptions C85_gradient.
Theorem C85_curl :
  forall (T : Type) (zero one : T) (add mul sub : T -> T -> T) (opp : T -> T), ring_theory zero one add mul sub opp eq ->
  forall n0 size num_cells num_points dofmap0 dofmap1 (Pi : list (list T)) Phi0 transform0 transform1,
  maps_fit num_cells n0 (length Pi) size dofmap0 dofmap1 ->
  (forall c, c < num_cells -> linear T add mul (length Pi) (length Pi) (transform1 c)) ->
  (forall c x, c < num_cells -> length x = n0 -> length (transform0 c x) = n0) ->
  (forall row, In row Pi -> length row = 3 * num_points) -> derivatives_fit T num_points n0 Phi0 ->
  let op c u := transform1 c (curl_dofs T zero add mul sub (transform0 c) n0 num_points Pi Phi0 u) in
  conforming T zero num_cells n0 size dofmap0 dofmap1 op ->
  exists M, discrete_curl T zero add mul sub n0 num_points Pi Phi0 transform0 transform1 num_cells dofmap0 dofmap1 = Some M /\
  forall u c m d, length u = size -> c < num_cells -> cell_dof 1 dofmap1 c m = Some d ->
  times T zero add mul (set_entry T zero M) u d = nth m (op c (cell_coefficients T zero 1 dofmap0 n0 u c)) zero.
Proof.
  intros T zero one add mul sub opp Rth n0 N0 ncells np dofmap0 dofmap1 Pi Phi0 tr0 tr Hm Htr Htr0 HPr HPhi op Hconf. eexists. split.
  - exact (curl_ok T zero one add mul sub opp Rth n0 (length Pi) N0 ncells dofmap0 dofmap1 Hm Pi tr eq_refl Htr np Phi0 tr0 HPr HPhi Htr0).
  - intros u c m d Lu Hc Hdof. exact (curl_dofs_ok T zero one add mul sub opp Rth n0 (length Pi) N0 ncells dofmap0 dofmap1 Hm Pi tr eq_refl Htr np Phi0 tr0 u c m d Hconf Lu Hc Hdof).
Qed.
Print Assumptions C85_curl.

(** The gradient of the degree one space on two triangles: the dofs of the edges are the differences of the values
    at their ends.  The common edge is oriented differently in the second triangle, which the transformation
    corrects. *)
Definition dg_dphi : list (list Z) := [[-1; 1; 0]; [-1; 1; 0]; [-1; 1; 0]; [-1; 0; 1]; [-1; 0; 1]; [-1; 0; 1]]%Z.
Definition dg_Pi : list (list Z) := [[-1; 0; 0; 1; 0; 0]; [0; 0; 0; 0; 1; 0]; [0; 0; 1; 0; 0; 0]]%Z.
Definition dg_flip (c : nat) (x : list Z) : list Z := map (fun m => Z.mul (nth m (if c =? 1 then [1; 1; -1]%Z else [1; 1; 1]%Z) 0%Z) (nth m x 0%Z)) (seq 0 3).
Definition dg_maps0 : list (list nat) := [[0; 1; 2]; [2; 1; 3]].
Definition dg_maps1 : list (list nat) := [[0; 1; 2]; [3; 4; 0]].
Lemma dg_flip_linear c : linear Z Z.add Z.mul 3 3 (dg_flip c).
Proof.
  split; [intros x _; unfold dg_flip; now rewrite map_length|]. split.
  - intros [|a [|b [|d [|e x]]]] [|a' [|b' [|d' [|e' y]]]] Hx Hy; try discriminate. unfold dg_flip, vadd. cbn [combine map fst snd seq nth]. repeat (f_equal; try ring).
  - intros s [|a [|b [|d [|e x]]]] Hx; try discriminate. unfold dg_flip, vscale. cbn [map seq nth]. repeat (f_equal; try ring).
Qed.
Lemma dg_edges c u : c < 2 -> length u = 4 -> dg_flip c (gradient_dofs Z 0%Z Z.add Z.mul 3 dg_Pi dg_dphi (cell_coefficients Z 0%Z 1 dg_maps0 3 u c))
  = if c =? 0 then [nth 2 u 0 - nth 1 u 0; nth 2 u 0 - nth 0 u 0; nth 1 u 0 - nth 0 u 0]%Z else [nth 3 u 0 - nth 1 u 0; nth 3 u 0 - nth 2 u 0; nth 2 u 0 - nth 1 u 0]%Z.
Proof.
  intros Hc Lu. destruct u as [|a [|b [|d [|e [|f u]]]]]; try discriminate. destruct c as [|[|c]]; [| |lia].
  - unfold dg_flip, gradient_dofs, cell_coefficients, cell_dof, dg_maps0, dg_Pi, dg_dphi, tsum, sum. cbn [map seq nth nth_error length Nat.div Nat.modulo Nat.divmod fst snd Nat.sub Nat.mul Nat.add Nat.eqb fold_right fold_left]. repeat (f_equal; try ring).
  - unfold dg_flip, gradient_dofs, cell_coefficients, cell_dof, dg_maps0, dg_Pi, dg_dphi, tsum, sum. cbn [map seq nth nth_error length Nat.div Nat.modulo Nat.divmod fst snd Nat.sub Nat.mul Nat.add Nat.eqb fold_right fold_left]. repeat (f_equal; try ring).
Qed.
Lemma dg_conforming : conforming Z 0%Z 2 3 4 dg_maps0 dg_maps1 (fun c u => dg_flip c (gradient_dofs Z 0%Z Z.add Z.mul 3 dg_Pi dg_dphi u)).
Proof.
  intros u c c' m m' d Lu Hc Hc' E E'. rewrite !dg_edges by assumption. unfold cell_dof in E, E'. rewrite Nat.div_1_r in E, E'. change (m mod 1) with 0 in E. change (m' mod 1) with 0 in E'.
  destruct c as [|[|c]]; [| |lia]; (destruct c' as [|[|c']]; [| |lia]); cbn [dg_maps1 nth_error] in E, E';
    (destruct m as [|[|[|m]]]; [| | |destruct m; discriminate E]); (destruct m' as [|[|[|m']]]; [| | |destruct m'; discriminate E']); cbn in E, E'; try reflexivity; congruence.
Qed.
Example C85_gradient_case : maps_fit 2 3 (length dg_Pi) 4 dg_maps0 dg_maps1 /\ (forall c, c < 2 -> linear Z Z.add Z.mul 3 3 (dg_flip c)) /\
  conforming Z 0%Z 2 3 4 dg_maps0 dg_maps1 (fun c u => dg_flip c (gradient_dofs Z 0%Z Z.add Z.mul 3 dg_Pi dg_dphi u)) /\
  option_map (fun M => map (times Z 0%Z Z.add Z.mul (set_entry Z 0%Z M) [1; 10; 100; 1000]%Z) (seq 0 5)) (discrete_gradient Z 0%Z Z.add Z.mul 3 dg_Pi dg_dphi dg_flip 2 dg_maps0 dg_maps1)
    = Some [90; 99; 9; 990; 900]%Z.
Proof.
  split; [|split; [intros; apply dg_flip_linear|split; [exact dg_conforming|reflexivity]]]. split.
  - apply dop_cells; (eexists; split; [reflexivity|]; split; [reflexivity|]; split; [repeat constructor; cbn; lia|intros d Hd; cbn in Hd; decompose [or] Hd; subst; try lia; contradiction]).
  - apply dop_cells; (eexists; split; reflexivity).
Qed.

(** The curl: two cells with the same functions in different order, which the transformation of the first space
    corrects *)
Definition dk_Phi0 : list (list (list (list Z))) := [[[[7; 7; 7]; [7; 7; 7]]]; [[[1; 2; 3]; [4; 5; 6]]]; [[[3; 1; 2]; [8; 5; 7]]]; [[[2; 9; 1]; [1; 0; 4]]]]%Z.
Definition dk_Pi : list (list Z) := [[1; 2; 3]; [0; 1; 0]]%Z.
Definition dk_maps0 : list (list nat) := [[0; 1]; [1; 0]].
Definition dk_maps1 : list (list nat) := [[0; 1]; [0; 2]].
Definition dk_tr0 (c : nat) (x : list Z) : list Z := if c =? 1 then rev x else x.
Definition dk_op (c : nat) (u : list Z) : list Z := dop_scale 2 (curl_dofs Z 0%Z Z.add Z.mul Z.sub (dk_tr0 c) 2 1 dk_Pi dk_Phi0 u).
Lemma dk_dofs c u : c < 2 -> length u = 2 -> dk_op c (cell_coefficients Z 0%Z 1 dk_maps0 2 u c) = [-24 * nth 0 u 0 - 24 * nth 1 u 0; -2 * nth 0 u 0 - 10 * nth 1 u 0]%Z.
Proof.
  intros Hc Lu. destruct u as [|a [|b [|d u]]]; try discriminate. destruct c as [|[|c]]; [| |lia].
  - unfold dk_op, dop_scale, curl_dofs, local_dofs, derivative, curl_value, cell_coefficients, cell_dof, dk_maps0, dk_Pi, dk_Phi0, dk_tr0, tsum, sum. cbn [map seq rev app nth nth_error length Nat.div Nat.modulo Nat.divmod fst snd Nat.sub Nat.mul Nat.add Nat.eqb fold_right fold_left]. repeat (f_equal; try ring).
  - unfold dk_op, dop_scale, curl_dofs, local_dofs, derivative, curl_value, cell_coefficients, cell_dof, dk_maps0, dk_Pi, dk_Phi0, dk_tr0, tsum, sum. cbn [map seq rev app nth nth_error length Nat.div Nat.modulo Nat.divmod fst snd Nat.sub Nat.mul Nat.add Nat.eqb fold_right fold_left]. repeat (f_equal; try ring).
Qed.
Example C85_curl_case : maps_fit 2 2 (length dk_Pi) 2 dk_maps0 dk_maps1 /\ (forall c : nat, c < 2 -> linear Z Z.add Z.mul 2 2 (dop_scale 2)) /\
  (forall c x, c < 2 -> length x = 2 -> length (dk_tr0 c x) = 2) /\ derivatives_fit Z 1 2 dk_Phi0 /\ conforming Z 0%Z 2 2 2 dk_maps0 dk_maps1 dk_op /\
  option_map (fun M => map (times Z 0%Z Z.add Z.mul (set_entry Z 0%Z M) [1; 10]%Z) (seq 0 3)) (discrete_curl Z 0%Z Z.add Z.mul Z.sub 2 1 dk_Pi dk_Phi0 dk_tr0 (fun _ => dop_scale 2) 2 dk_maps0 dk_maps1)
    = Some [-264; -102; -102]%Z.
Proof.
  split; [|split; [intros; apply dop_scale_linear|split; [|split; [|split; [|reflexivity]]]]].
  - split.
    + apply dop_cells; (eexists; split; [reflexivity|]; split; [reflexivity|]; split; [repeat constructor; cbn; lia|intros d Hd; cbn in Hd; decompose [or] Hd; subst; try lia; contradiction]).
    + apply dop_cells; (eexists; split; reflexivity).
  - intros c x _ Lx. unfold dk_tr0. destruct (c =? 1); [now rewrite rev_length|exact Lx].
  - intros dx p phi d H1 H2 H3 H4. destruct p as [|p]; [|lia]. destruct dx as [|[|[|dx]]]; [| | |lia]; (destruct phi as [|[|phi]]; [| |lia]); (destruct d as [|[|[|d]]]; [| | |lia]); do 4 eexists; repeat (split; [reflexivity|]); reflexivity.
  - intros u c c' m m' d Lu Hc Hc' E E'. rewrite !dk_dofs by assumption. unfold cell_dof in E, E'. rewrite Nat.div_1_r in E, E'. change (m mod 1) with 0 in E. change (m' mod 1) with 0 in E'.
    destruct c as [|[|c]]; [| |lia]; (destruct c' as [|[|c']]; [| |lia]); cbn [dk_maps1 nth_error] in E, E';
    (destruct m as [|[|m]]; [| |destruct m; discriminate E]); (destruct m' as [|[|m']]; [| |destruct m'; discriminate E']); cbn in E, E'; try reflexivity; congruence.
Qed.
