(** Proofs about VTKHDF files, for property C90: what is written. *)
From Coq Require Import Permutation.
From Verif Require Import Base BaseProofs CellTypes Cells CellsSpec CellsProofs CellsTri CellsTet CellsInverse Xdmf XdmfSpec XdmfProofs VtkHdf VtkHdfSpec.
Open Scope nat_scope.

(** ** Sums *)
Lemma sum_swap {X} (L : list X) (c : X -> nat) (f : nat -> X -> nat) r :
  lsum (map (fun x => c x * exscan (fun q => f q x) r) L) = before (fun q => lsum (map (fun x => c x * f q x) L)) r.
Proof.
  induction r as [|r IH].
  - change (before (fun q => lsum (map (fun x => c x * f q x) L)) 0) with 0. induction L as [|x L IH]; [reflexivity|]. cbn [map]. rewrite lsum_cons, IH. change (exscan (fun q => f q x) 0) with 0. lia.
  - rewrite before_S, <- IH. clear IH. cbv beta. induction L as [|x L IH]; [reflexivity|]. cbn [map]. rewrite !lsum_cons, IH. assert (E : exscan (fun q => f q x) (S r) = exscan (fun q => f q x) r + f r x) by (rewrite !exscan_before; apply before_S). rewrite E. lia.
Qed.
Lemma psums_from_app a l1 l2 : tl (psums_from a (l1 ++ l2)) = tl (psums_from a l1) ++ tl (psums_from (a + lsum l1) l2).
Proof.
  revert a. induction l1 as [|x l1 IH]; intro a; [cbn [app psums_from tl]; now rewrite lsum_nil, Nat.add_0_r|]. cbn [app psums_from tl]. specialize (IH (a + x)).
  destruct l1 as [|y l1]; cbn [app psums_from tl] in *; rewrite lsum_cons, Nat.add_assoc in *; [rewrite lsum_nil, Nat.add_0_r in *|].
  - destruct l2; reflexivity.
  - f_equal. rewrite ?lsum_cons, ?Nat.add_assoc. exact IH.
Qed.
Lemma psums_from_shift c a l : map (Nat.add c) (psums_from a l) = psums_from (c + a) l.
Proof. revert a. induction l as [|x l IH]; intro a; cbn [psums_from map]; [reflexivity|]. now rewrite IH, Nat.add_assoc. Qed.
Lemma psums_tl_length a l : length (tl (psums_from a l)) = length l.
Proof. pose proof (psums_from_length a l) as H. destruct (psums_from a l); cbn in *; lia. Qed.
Lemma psums_head a l : psums_from a l = a :: tl (psums_from a l).
Proof. destruct l; reflexivity. Qed.
Lemma map_tl {X Y} (f : X -> Y) l : map f (tl l) = tl (map f l).
Proof. destruct l; reflexivity. Qed.
Lemma slice_front {X} (l j : list X) n : n = length l -> slice (l ++ j) 0 n = Some l.
Proof. intros ->. exact (slice_app_mid [] l j). Qed.
Lemma concat_prefix {X A} (f g : X -> list A) L : (forall l1 x l2, L = l1 ++ x :: l2 -> exists j, g x = f x ++ j /\ (l2 <> [] -> j = [])) -> exists j, concat (map g L) = concat (map f L) ++ j.
Proof.
  induction L as [|x L IH]; intro H; [now exists []|]. destruct (H [] x L eq_refl) as (j & E & Hj). cbn [map concat]. destruct L as [|y L].
  - exists j. cbn [map concat]. now rewrite !app_nil_r.
  - rewrite (Hj ltac:(discriminate)), app_nil_r in E. destruct IH as (j' & E'); [intros l1 z l2 Ez; apply (H (x :: l1)); now rewrite Ez|]. exists j'. rewrite E', E, app_assoc. reflexivity.
Qed.
(** ** Data sets that start at the second place *)
Lemma shifted_item {A} P n (d : nat -> list A) order fill : (forall r, r < P -> length (d r) = n r) -> Permutation order (seq 0 P) ->
  add_data_item order fill (before n P + 1) 1 (fun r => before n r + 1) d = Some (fill 0 :: gathered P d).
Proof.
  intros Hd Ho. set (n' := fun r => match r with 0 => 1 | S r => n r end). set (d' := fun r => match r with 0 => [fill 0] | S r => d r end).
  assert (Hb : forall r, before n' (S r) = before n r + 1) by (induction r as [|r IH]; [reflexivity|]; rewrite before_S, IH, before_S; cbn; lia).
  assert (Hg : gathered (S P) d' = fill 0 :: gathered P d) by (unfold gathered; cbn [seq map concat d' app]; rewrite <- seq_shift, map_map; reflexivity).
  rewrite <- Hg. pose proof (add_data_item_ok (S P) 1 n' d') as H.
  rewrite <- (H ltac:(intros [|r] Hr; [reflexivity|]; cbn; rewrite Hd by lia; lia) (0 :: map S order) fill (before n P + 1) (fun r => match r with 0 => 0 | S r => before n r + 1 end)); [|cbn [seq]; apply perm_skip; rewrite <- seq_shift; now apply Permutation_map|lia|now rewrite Hb|intros [|r] Hr; [reflexivity|now rewrite Hb]].
  unfold add_data_item. cbn [Nat.eqb]. cbn [ofold]. replace (write_slab (map fill (seq 0 ((before n P + 1) * 1))) (0 * 1) (firstn (length (d' 0) / 1 * 1) (d' 0))) with (Some (map fill (seq 0 ((before n P + 1) * 1)))).
  - cbn [obind]. now rewrite ofold_map.
  - replace ((before n P + 1) * 1) with (S (before n P)) by lia. cbn [seq map]. unfold write_slab. cbn [length d' Nat.mul Nat.add]. change (length [fill 0] / 1 * 1) with 1. cbn [firstn length Nat.add Nat.leb app skipn]. reflexivity.
Qed.

Lemma readable_kind t d n : readable t d n -> cell_kind (vtk_code t) n = Some (vtk_code t, d) /\ vtk_to_dolfinx (vtk_code t) = Some (t, if match t with Pyramid => true | _ => false end then Some 1 else None).
Proof.
  intros (Hl & Hd & Hn & Hp & Hpp & Hh). split; [|destruct t; reflexivity || now elim Hp].
  assert (G : cell_degree t (Z.of_nat n) = Some (Z.of_nat d) -> t <> Pyramid -> cell_kind (vtk_code t) n = Some (vtk_code t, d)).
  { intros E Nt. unfold cell_kind. destruct t; try (now elim Hp); try (now elim Nt); cbn [vtk_code vtk_to_dolfinx obind]; rewrite E; cbn [obind]; now rewrite Nat2Z.id. }
  destruct t; inversion Hl; subst; try (now elim Hp); try (apply G; [|discriminate]).
  - unfold cell_degree. f_equal. lia.
  - apply triangle_degree; lia.
  - apply tetrahedron_degree; lia.
  - match goal with H : _ = Z.of_nat n |- _ => rewrite <- H end. apply quadrilateral_degree. lia.
  - rewrite (Hpp (or_intror eq_refl)). reflexivity.
  - assert (d = 1) by (apply Hpp; now right). lia.
  - match goal with H : _ = Z.of_nat n |- _ => rewrite <- H end. assert (d = 1) as -> by (apply Hpp; now left). reflexivity.
  - assert (d = 1) by (apply Hpp; now left). lia.
  - match goal with H : _ = Z.of_nat n |- _ => rewrite <- H end. apply hexahedron_degree. lia.
  - specialize (Hh eq_refl). assert (d = 2) as -> by lia. lia.
Qed.

Section Write.
Variables (P : nat) (size_local offset_g : nat -> nat) (ghosts : nat -> list nat).
Variables (types : list (cell_type * nat)) (num_cells : nat -> nat -> nat) (dofmap : nat -> nat -> list (list nat)).
Hypothesis Hoff : forall r, r < P -> offset_g r = before size_local r.
Hypothesis Hfit : cells_fit P size_local ghosts types num_cells dofmap.
Hypothesis Htypes : forall i t nn, nth_error types i = Some (t, nn) -> exists d, readable t d nn.
Notation typed := (typed types).
(** The permutation for a type *)
Definition vtk_order (t : cell_type) (nn : nat) : list Z := match perm_vtk t (Z.of_nat nn) with Some p => match transpose p with Some q => q | None => [] end | None => [] end.
Definition row_to_vtk (t : cell_type) (nn : nat) (row : list nat) : list nat := map (fun k => nth (Z.to_nat (nth k (vtk_order t nn) 0%Z)) row 0) (seq 0 nn).
(** The cells of a process with their types *)
Definition cells_of (r : nat) : list (nat * list nat) :=
  concat (map (fun x => map (fun row => (fst x, map (global_of size_local ghosts r) row)) (firstn (num_cells r (fst x)) (dofmap r (fst x)))) typed).
Definition vtk_row (g : nat * list nat) : list nat := match nth_error types (fst g) with Some (t, nn) => row_to_vtk t nn (snd g) | None => [] end.
Definition size_of (g : nat * list nat) : nat := match nth_error types (fst g) with Some (t, nn) => nn | None => 0 end.
Definition code_of (g : nat * list nat) : nat := match nth_error types (fst g) with Some (t, nn) => vtk_code t | None => 0 end.

Lemma typed_in {X} (l : list X) i x : In (i, x) (combine (seq 0 (length l)) l) -> nth_error l i = Some x.
Proof.
  assert (G : forall (l : list X) k, In (i, x) (combine (seq k (length l)) l) -> k <= i /\ nth_error l (i - k) = Some x).
  { clear l. induction l as [|y l IH]; intros k H; cbn [length seq combine In] in H; [contradiction|]. destruct H as [H|H].
    - injection H as -> ->. rewrite Nat.sub_diag. split; [lia|reflexivity].
    - destruct (IH _ H) as [H1 H2]. split; [lia|]. replace (i - k) with (S (i - S k)) by lia. exact H2. }
  intro H. destruct (G l 0 H) as [_ H1]. now rewrite Nat.sub_0_r in H1.
Qed.
Lemma typed_split {X} (l : list X) l1 i x l2 : combine (seq 0 (length l)) l = l1 ++ (i, x) :: l2 -> i = length l1 /\ length l = length l1 + S (length l2).
Proof.
  intro E. assert (L : length (combine (seq 0 (length l)) l) = length l) by (rewrite combine_length, seq_length; lia). pose proof L as L'. rewrite E, app_length in L'. cbn [length] in L'. split; [|lia].
  assert (G : nth_error (map fst (combine (seq 0 (length l)) l)) (length l1) = Some i) by (rewrite nth_error_map, E, nth_error_app2, Nat.sub_diag by lia; reflexivity).
  assert (F : map fst (combine (seq 0 (length l)) l) = seq 0 (length l)).
  { clear. generalize 0. induction l as [|y l IH]; intro k; [reflexivity|]. cbn [length seq combine map fst]. now rewrite IH. }
  rewrite F, nth_error_seq in G by lia. injection G as <-. reflexivity.
Qed.
Lemma order_ok i t nn : nth_error types i = Some (t, nn) -> exists p, perm_vtk t (Z.of_nat nn) = Some p /\ transpose p = Some (vtk_order t nn) /\ is_permutation p (Z.of_nat nn) /\ is_permutation (vtk_order t nn) (Z.of_nat nn) /\ inverse p (vtk_order t nn).
Proof.
  intro E. destruct (Htypes i t nn E) as (d & Hl & Hd & Hn & _). destruct (perm_vtk_statement t (Z.of_nat d) (Z.of_nat nn) Hl ltac:(lia) Hn) as (p & q & E1 & E2 & P1 & P2 & I).
  exists p. unfold vtk_order. rewrite E1, E2. auto.
Qed.
Lemma node_ok r n : r < P -> n < size_local r + length (ghosts r) -> node_index size_local offset_g ghosts r n = Some (global_of size_local ghosts r n).
Proof.
  intros Hr Hn. unfold node_index, global_of. rewrite (Hoff r Hr). destruct (Nat.ltb_spec n (size_local r)); [reflexivity|]. apply nth_error_nth'. lia.
Qed.
Lemma cells_in r g : r < P -> In g (cells_of r) -> exists t nn, nth_error types (fst g) = Some (t, nn) /\ length (snd g) = nn.
Proof.
  intros Hr H. unfold cells_of in H. apply in_concat in H as (l & H1 & H2). apply in_map_iff in H1 as ([i [t nn]] & <- & Hi). apply typed_in in Hi. cbn [fst] in H2. apply in_map_iff in H2 as (row & <- & H2). cbn [fst snd].
  exists t, nn. split; [exact Hi|]. rewrite map_length. exact (proj1 (proj2 (proj2 (Hfit r i t nn Hr Hi)) row H2)).
Qed.
Lemma type_topology_ok r i t nn : r < P -> nth_error types i = Some (t, nn) ->
  type_topology size_local offset_g ghosts num_cells dofmap r i t nn = Some (concat (map vtk_row (map (fun row => (i, map (global_of size_local ghosts r) row)) (firstn (num_cells r i) (dofmap r i))))).
Proof.
  intros Hr Hi. destruct (Hfit r i t nn Hr Hi) as (H1 & _ & H2). destruct (order_ok i t nn Hi) as (p & E1 & E2 & _ & Pq & _). unfold type_topology. rewrite E1. cbn [obind]. rewrite E2. cbn [obind].
  pose proof (permutation_len (vtk_order t nn) (Z.of_nat nn) ltac:(lia) Pq) as Lq.
  rewrite (omap_map _ (fun j => row_to_vtk t nn (map (global_of size_local ghosts r) (nth j (dofmap r i) [])))).
  - cbn [obind]. do 2 f_equal. rewrite map_map. unfold vtk_row. cbn [fst snd]. rewrite Hi.
    assert (E : firstn (num_cells r i) (dofmap r i) = map (fun j => nth j (dofmap r i) []) (seq 0 (num_cells r i))).
    { apply nth_error_ext. intro k. destruct (Nat.lt_ge_cases k (num_cells r i)) as [Hk|Hk].
      - rewrite nth_firstn by exact Hk. rewrite nth_error_map, nth_error_seq by exact Hk. cbn [option_map Nat.add]. apply nth_error_nth'. lia.
      - rewrite !(proj2 (nth_error_None _ _)); [reflexivity|rewrite map_length, seq_length; exact Hk|rewrite firstn_length; lia]. }
    rewrite E, map_map. reflexivity.
  - intros j Hj. apply in_seq in Hj. destruct (nth_error_lt (dofmap r i) j ltac:(lia)) as (row & Er). rewrite Er. cbn [obind]. rewrite (nth_error_nth _ _ _ Er).
    assert (Hin : In row (firstn (num_cells r i) (dofmap r i))) by (apply (nth_error_In _ j); rewrite nth_firstn by lia; exact Er). destruct (H2 row Hin) as [Lr Hn].
    unfold row_to_vtk. apply omap_map. intros k Hk. apply in_seq in Hk. rewrite (nth_error_nth' (vtk_order t nn) 0%Z) by lia. cbn [obind].
    assert (Hx : (0 <= nth k (vtk_order t nn) 0 < Z.of_nat nn)%Z) by (apply (proj2 Pq), nth_In; lia). set (x := Z.to_nat (nth k (vtk_order t nn) 0%Z)) in *.
    destruct (nth_error_lt row x ltac:(lia)) as (n & En). rewrite En. cbn [obind]. rewrite (node_ok r n Hr (Hn n (nth_error_In _ _ En))). f_equal. symmetry. apply nth_error_nth. rewrite nth_error_map, En. reflexivity.
Qed.
Lemma concat_map_concat {X Y} (f : X -> list Y) (L : list (list X)) : concat (map f (concat L)) = concat (map (fun l => concat (map f l)) L).
Proof. induction L as [|l L IH]; [reflexivity|]. cbn [concat map]. now rewrite map_app, concat_app, IH. Qed.
Lemma local_topology_ok r : r < P -> local_topology size_local offset_g ghosts types num_cells dofmap r = Some (concat (map vtk_row (cells_of r))).
Proof.
  intro Hr. unfold local_topology, cells_of. rewrite concat_map_concat, map_map.
  rewrite (omap_map _ (fun x => concat (map vtk_row (map (fun row => (fst x, map (global_of size_local ghosts r) row)) (firstn (num_cells r (fst x)) (dofmap r (fst x))))))); [reflexivity|].
  intros [i [t nn]] Hi. apply typed_in in Hi. cbn [fst]. now apply type_topology_ok.
Qed.
Lemma const_rows {Y} r i t nn (f : nat * list nat -> Y) y : r < P -> nth_error types i = Some (t, nn) -> (forall row, f (i, row) = y) ->
  map f (map (fun row => (i, map (global_of size_local ghosts r) row)) (firstn (num_cells r i) (dofmap r i))) = repeat y (num_cells r i).
Proof.
  intros Hr Hi Hf. rewrite map_map. rewrite (map_ext _ (fun _ => y)) by (intro; apply Hf). rewrite map_const, firstn_length. f_equal. destruct (Hfit r i t nn Hr Hi) as (H1 & _). lia.
Qed.
Lemma local_codes_ok r : r < P -> local_codes types num_cells r = map code_of (cells_of r).
Proof.
  intro Hr. unfold local_codes, cells_of. rewrite concat_map, map_map. f_equal. apply map_ext_in. intros [i [t nn]] Hi. apply typed_in in Hi. cbn [fst]. symmetry. apply (const_rows r i t nn); auto.
  intro row. unfold code_of. cbn [fst]. now rewrite Hi.
Qed.
Lemma local_sizes_ok r : r < P -> exists j, local_sizes types dofmap r = map size_of (cells_of r) ++ j.
Proof.
  intro Hr. unfold local_sizes, cells_of. rewrite concat_map, map_map. apply concat_prefix. intros l1 [i [t nn]] l2 E. assert (Hi : nth_error types i = Some (t, nn)) by (apply typed_in; fold typed; rewrite E; apply in_elt).
  destruct (typed_split _ _ _ _ _ E) as [-> L]. cbn [fst]. destruct (Hfit r _ t nn Hr Hi) as (H1 & H2 & _). rewrite (const_rows r _ t nn _ nn Hr Hi) by (intro; unfold size_of; cbn [fst]; now rewrite Hi).
  exists (repeat nn (length (dofmap r (length l1)) - num_cells r (length l1))). split; [rewrite <- repeat_app; f_equal; lia|]. intro Hl. rewrite H2; [now rewrite Nat.sub_diag|]. destruct l2; [now elim Hl|]. cbn [length] in L. lia.
Qed.
Lemma vtk_row_length r g : r < P -> In g (cells_of r) -> length (vtk_row g) = size_of g.
Proof. intros Hr Hg. destruct (cells_in r g Hr Hg) as (t & nn & E & _). unfold vtk_row, size_of. rewrite E. unfold row_to_vtk. now rewrite map_length, seq_length. Qed.
Lemma num_ok r : r < P -> length (cells_of r) = lsum (map (fun x => 1 * num_cells r (fst x)) typed).
Proof.
  intro Hr. unfold cells_of. rewrite <- lsum_concat_length, map_map. f_equal. apply map_ext_in. intros [i [t nn]] Hi. apply typed_in in Hi. cbn [fst]. rewrite map_length, firstn_length. destruct (Hfit r i t nn Hr Hi) as (H1 & _). lia.
Qed.
Lemma topology_length r : r < P -> length (concat (map vtk_row (cells_of r))) = lsum (map (fun x => snd (snd x) * num_cells r (fst x)) typed).
Proof.
  intro Hr. unfold cells_of. rewrite concat_map_concat, map_map, <- lsum_concat_length, map_map. f_equal. apply map_ext_in. intros [i [t nn]] Hi. apply typed_in in Hi. cbn [fst snd].
  rewrite <- lsum_concat_length, map_map. rewrite (const_rows r i t nn (fun g => length (vtk_row g)) nn Hr Hi); [rewrite lsum_repeat; lia|]. intro row. unfold vtk_row. cbn [fst snd]. rewrite Hi. unfold row_to_vtk. now rewrite map_length, seq_length.
Qed.
Lemma sizes_sum r : r < P -> lsum (map size_of (cells_of r)) = length (concat (map vtk_row (cells_of r))).
Proof. intro Hr. rewrite <- lsum_concat_length, map_map. f_equal. apply map_ext_in. intros g Hg. symmetry. now apply (vtk_row_length r). Qed.
Lemma start_ok r : r <= P -> start_position types num_cells r = before (fun r => length (cells_of r)) r.
Proof.
  intro Hr. unfold start_position, cell_start. erewrite map_ext; [|intro x; rewrite <- (Nat.mul_1_l (exscan _ r)); reflexivity]. rewrite (sum_swap typed (fun _ => 1) (fun q x => num_cells q (fst x)) r).
  apply before_ext. intros q Hq. symmetry. apply num_ok. lia.
Qed.
Lemma stop_ok r : r < P -> stop_position types num_cells r - start_position types num_cells r = length (cells_of r).
Proof.
  intro Hr. rewrite (num_ok r Hr). unfold stop_position, start_position. clear. induction typed as [|x L IH]; [reflexivity|]. cbn [map]. rewrite !lsum_cons.
  assert (lsum (map (fun x => cell_start num_cells r (fst x)) L) <= lsum (map (fun x => cell_start num_cells r (fst x) + num_cells r (fst x)) L)).
  { clear. induction L as [|x L IH]; [reflexivity|]. cbn [map]. rewrite !lsum_cons. lia. }
  lia.
Qed.
Lemma topology_start_ok r : r <= P -> topology_start types num_cells r = before (fun r => length (concat (map vtk_row (cells_of r)))) r.
Proof.
  intro Hr. unfold topology_start, cell_start. rewrite (sum_swap typed (fun x => snd (snd x)) (fun q x => num_cells q (fst x)) r). apply before_ext. intros q Hq. symmetry. apply topology_length. lia.
Qed.
Notation tlen := (fun r => length (concat (map vtk_row (cells_of r)))).
Lemma local_offsets_ok r : r < P -> slice (local_offsets types num_cells dofmap r) 0 (stop_position types num_cells r - start_position types num_cells r) = Some (tl (psums_from (before tlen r) (map size_of (cells_of r)))).
Proof.
  intro Hr. destruct (local_sizes_ok r Hr) as (j & E). unfold local_offsets. rewrite E. unfold psums. rewrite map_tl, psums_from_shift, Nat.add_0_r, (topology_start_ok r ltac:(lia)), psums_from_app. apply slice_front. rewrite psums_tl_length, map_length. now apply stop_ok.
Qed.
Lemma gathered_offsets Q : Q <= P -> gathered Q (fun r => tl (psums_from (before tlen r) (map size_of (cells_of r)))) = tl (psums (map size_of (gathered Q cells_of))) /\ lsum (map size_of (gathered Q cells_of)) = before tlen Q.
Proof.
  induction Q as [|Q IH]; intro HQ; [split; reflexivity|]. destruct (IH ltac:(lia)) as [E1 E2]. rewrite !gathered_S, map_app, lsum_app, E2, sizes_sum, before_S by lia. split; [|reflexivity].
  rewrite E1. unfold psums. rewrite psums_from_app, E2. reflexivity.
Qed.
Lemma gathered_map {X Y} (f : X -> Y) (d : nat -> list X) Q : gathered Q (fun r => map f (d r)) = map f (gathered Q d).
Proof. unfold gathered. rewrite concat_map, map_map. reflexivity. Qed.
Lemma gathered_concat {X Y} (f : X -> list Y) (d : nat -> list X) Q : gathered Q (fun r => concat (map f (d r))) = concat (map f (gathered Q d)).
Proof. unfold gathered. rewrite concat_map_concat, map_map. reflexivity. Qed.
Lemma item_ext {A} order fill rows w o1 o2 (d1 d2 : nat -> list A) : (forall r, In r order -> o1 r = o2 r /\ d1 r = d2 r) -> add_data_item order fill rows w o1 d1 = add_data_item order fill rows w o2 d2.
Proof. intro H. unfold add_data_item. destruct (w =? 0); [reflexivity|]. apply ofold_ext. intros F r Hr. now destruct (H r Hr) as [-> ->]. Qed.
Lemma nth_map_seq_list {A} (f : nat -> list A) r : r < P -> nth r (map f (seq 0 P)) [] = f r.
Proof. intro Hr. rewrite (nth_indep _ [] (f 0)) by (rewrite map_length, seq_length; exact Hr). rewrite map_nth, seq_nth by exact Hr. reflexivity. Qed.

Lemma write_mesh_ok {U} order fill fillx (x : nat -> list U) : Permutation order (seq 0 P) -> fill 0 = 0 -> (forall r, r < P -> size_local r * 3 <= length (x r)) ->
  write_mesh size_local offset_g ghosts types num_cells dofmap P order fill fillx x =
  Some (mk_file (gathered P (fun r => firstn (size_local r * 3) (x r))) (psums (map size_of (gathered P cells_of))) (concat (map vtk_row (gathered P cells_of))) (map code_of (gathered P cells_of))).
Proof.
  intros Ho Hf Hx. assert (Hin : forall r, In r order -> r < P) by (intros r Hr; apply (Permutation_in _ Ho), in_seq in Hr; lia). unfold write_mesh.
  rewrite (omap_map _ (fun r => firstn (size_local r * 3) (x r))); [|intros r Hr; apply in_seq in Hr; apply slice_some; split; [lia|]; split; [apply Hx; lia|now rewrite Nat.sub_0_r]]. cbn [obind].
  rewrite (item_ext _ _ _ _ _ (before size_local) _ (fun r => firstn (size_local r * 3) (x r))) by (intros r Hr; split; [apply exscan_before|apply (nth_map_seq_list (fun r => firstn (size_local r * 3) (x r))); auto]).
  rewrite (add_data_item_ok P 3 size_local (fun r => firstn (size_local r * 3) (x r)) ltac:(intros r Hr; cbv beta; rewrite firstn_length; specialize (Hx r Hr); lia) order fillx _ (before size_local) Ho ltac:(lia) (exscan_before _ _) ltac:(reflexivity)). cbn [obind].
  rewrite (omap_map _ (fun r => tl (psums_from (before tlen r) (map size_of (cells_of r))))) by (intros r Hr; apply in_seq in Hr; apply local_offsets_ok; lia). cbn [obind]. rewrite (start_ok P (le_n P)).
  rewrite (item_ext _ _ _ _ _ (fun r => before (fun r => length (cells_of r)) r + 1) _ (fun r => tl (psums_from (before tlen r) (map size_of (cells_of r))))) by (intros r Hr; split; [rewrite start_ok by (apply Nat.lt_le_incl; auto); reflexivity|apply (nth_map_seq_list (fun r => tl (psums_from (before tlen r) (map size_of (cells_of r))))); auto]).
  rewrite (shifted_item P (fun r => length (cells_of r)) (fun r => tl (psums_from (before tlen r) (map size_of (cells_of r)))) order fill ltac:(intros r Hr; cbv beta; now rewrite psums_tl_length, map_length) Ho). cbn [obind].
  rewrite (proj1 (gathered_offsets P (le_n P))), Hf. replace (0 :: tl (psums (map size_of (gathered P cells_of)))) with (psums (map size_of (gathered P cells_of))) by (unfold psums; apply psums_head).
  rewrite (omap_map _ (fun r => concat (map vtk_row (cells_of r)))) by (intros r Hr; apply in_seq in Hr; apply local_topology_ok; lia). cbn [obind]. rewrite (topology_start_ok P (le_n P)).
  rewrite (item_ext _ _ _ _ _ (before tlen) _ (fun r => concat (map vtk_row (cells_of r)))) by (intros r Hr; split; [apply topology_start_ok; apply Nat.lt_le_incl; auto|apply (nth_map_seq_list (fun r => concat (map vtk_row (cells_of r)))); auto]).
  rewrite (add_data_item_ok P 1 tlen (fun r => concat (map vtk_row (cells_of r))) ltac:(intros r Hr; cbv beta; lia) order fill _ (before tlen) Ho ltac:(lia) eq_refl ltac:(reflexivity)). cbn [obind].
  rewrite (omap_map _ (fun r => map code_of (cells_of r))); [|intros r Hr; apply in_seq in Hr; rewrite local_codes_ok by lia; rewrite stop_ok by lia; rewrite <- (app_nil_r (map code_of (cells_of r))) at 1; apply slice_front; now rewrite map_length]. cbn [obind].
  rewrite (item_ext _ _ _ _ _ (before (fun r => length (cells_of r))) _ (fun r => map code_of (cells_of r))) by (intros r Hr; split; [apply start_ok; apply Nat.lt_le_incl; auto|apply (nth_map_seq_list (fun r => map code_of (cells_of r))); auto]).
  rewrite (add_data_item_ok P 1 (fun r => length (cells_of r)) (fun r => map code_of (cells_of r)) ltac:(intros r Hr; cbv beta; rewrite map_length; lia) order fill _ _ Ho ltac:(lia) eq_refl ltac:(reflexivity)). cbn [obind].
  now rewrite gathered_concat, gathered_map.
Qed.
End Write.
