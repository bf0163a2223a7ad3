(** Proofs about the discrete gradient and curl, for property C85. *)
From Verif Require Import Base BaseProofs InterpSpec InterpWrites AssembleSpec AsmSums DiscreteOps DiscreteOpsSpec DiscreteLinear DiscreteSet.
From Coq Require Import Ring.
Open Scope nat_scope.

Lemma ofold_app_concat {A B} (f : list B -> A -> option (list B)) (g : A -> list B) l : (forall M a, In a l -> f M a = Some (M ++ g a)) -> forall M, ofold f l M = Some (M ++ concat (map g l)).
Proof.
  induction l as [|a l IH]; intros H M; cbn [ofold map concat]; [now rewrite app_nil_r|]. rewrite H by now left. cbn [obind]. rewrite IH by (intros; apply H; now right). now rewrite app_assoc.
Qed.

Section Ring.
Variables (T : Type) (zero one : T) (add mul sub : T -> T -> T) (opp : T -> T).
Hypothesis Rth : ring_theory zero one add mul sub opp eq.
Add Ring Tr : Rth.
Notation tsum := (tsum zero add).
Notation linear := (linear T add mul).
Notation unit := (unit T zero one).
Notation r0l := (r0l T zero one add mul sub opp Rth).
Notation rcomm := (rcomm T zero one add mul sub opp Rth).
Notation rassoc := (rassoc T zero one add mul sub opp Rth).

Lemma sum_unit n i (f : nat -> T) : i < n -> tsum n (fun j => mul (nth j (unit n i) zero) (f j)) = f i.
Proof.
  intro Hi. rewrite (tsum_one zero add r0l rcomm rassoc n _ i Hi).
  - rewrite unit_nth, Nat.eqb_refl, (proj2 (Nat.ltb_lt i n) Hi). cbn [andb]. ring.
  - intros a Ha Na. rewrite unit_nth. destruct (Nat.eqb_spec a i) as [E|_]; [congruence|]. cbn [andb]. ring.
Qed.

Section Grad.
Variables (n0 n1 N0 ncells : nat) (dofmap0 dofmap1 : list (list nat)).
Hypothesis Hmaps : maps_fit ncells n0 n1 N0 dofmap0 dofmap1.

(** Entries of a cell with given columns *)
Lemma cell_entries_ok (op : nat -> list T -> list T) c : c < ncells ->
  exists rows cols, nth_error dofmap1 c = Some rows /\ nth_error dofmap0 c = Some cols /\
  block_entries T 1 1 rows cols (of_columns T zero n1 n0 (fun i => op c (unit n0 i))) = Some (cell_entries T zero one 1 dofmap0 n0 1 dofmap1 op c).
Proof.
  intro Hc. destruct (proj1 Hmaps c Hc) as (cols & Ec & Lc & _). destruct (proj2 Hmaps c Hc) as (rows & Er & Lr). exists rows, cols. split; [exact Er|]. split; [exact Ec|].
  unfold cell_entries. rewrite Er, Ec. apply block_entries_ok; [lia|lia|]. intros m i Hm Hi. exists (map (fun i => nth m (op c (unit n0 i)) zero) (seq 0 n0)). split; [apply of_columns_nth; lia|].
  rewrite (nth_error_map_seq (fun i => nth m (op c (unit n0 i)) zero)) by lia. reflexivity.
Qed.
Lemma set_dofs (op : nat -> list T -> list T) u c m d : (forall c, c < ncells -> linear n0 n1 (op c)) ->
  conforming T zero ncells n0 N0 dofmap0 dofmap1 op -> length u = N0 -> c < ncells -> cell_dof 1 dofmap1 c m = Some d ->
  times T zero add mul (set_entry T zero (concat (map (cell_entries T zero one 1 dofmap0 n0 1 dofmap1 op) (seq 0 ncells)))) u d
    = nth m (op c (cell_coefficients T zero 1 dofmap0 n0 u c)) zero.
Proof.
  intros Hop Hconf Lu Hc Hm. apply (set_ok T zero one add mul sub opp Rth 1 dofmap0 n0 N0 ltac:(lia) 1 dofmap1 n1 ncells op ltac:(lia) Hop); auto.
  - intros c' Hc'. destruct (proj1 Hmaps c' Hc') as (cols & Ec & Lc & ND & Hd). exists cols. split; [exact Ec|]. split; [lia|]. split; [exact ND|]. intros x Hx. specialize (Hd x Hx). lia.
  - intros c' Hc'. destruct (proj2 Hmaps c' Hc') as (rows & Er & Lr). exists rows. split; [exact Er|]. lia.
Qed.

Variables (Pi : list (list T)) (transform1 : nat -> list T -> list T).
Hypothesis HPi : length Pi = n1.
Hypothesis Htr : forall c, c < ncells -> linear n1 n1 (transform1 c).

Section Gradient.
Variable dphi : list (list T).
Hypothesis HPr : forall row, In row Pi -> length row = length dphi.
Hypothesis Hdphi : forall row, In row dphi -> length row = n0.
Definition grad_op (c : nat) (u : list T) : list T := transform1 c (gradient_dofs T zero add mul n0 Pi dphi u).
Lemma gradient_linear : linear n0 n1 (gradient_dofs T zero add mul n0 Pi dphi).
Proof.
  rewrite <- HPi. unfold gradient_dofs. apply (linear_map T add mul n0 Pi (fun row u => tsum (length dphi) (fun q => mul (nth q row zero) (tsum n0 (fun i => mul (nth i u zero) (nth i (nth q dphi []) zero)))))).
  intros row _. apply (lfun_sum T zero one add mul sub opp Rth). intros q _. apply (lfun_sum' T zero one add mul sub opp Rth). intros i _. apply (lfun_entry T zero one add mul sub opp Rth).
Qed.
Lemma gradient_ok : discrete_gradient T zero add mul n0 Pi dphi transform1 ncells dofmap0 dofmap1 = Some (concat (map (cell_entries T zero one 1 dofmap0 n0 1 dofmap1 grad_op) (seq 0 ncells))).
Proof.
  unfold discrete_gradient.
  rewrite (omap_map _ (fun row => map (fun i => tsum (length dphi) (fun q => mul (nth q row zero) (nth i (nth q dphi []) zero))) (seq 0 n0))).
  2:{ intros row Hrow. apply omap_map. intros i Hi. apply in_seq in Hi. rewrite (sum_loop T zero one add mul sub opp Rth _ (fun q => mul (nth q row zero) (nth i (nth q dphi []) zero))); [reflexivity|].
      intros q s Hq. apply in_seq in Hq. pose proof (HPr row Hrow). rewrite (nth_error_nth' row zero), (nth_error_nth' dphi []) by lia. cbn [obind].
      assert (Ld : length (nth q dphi []) = n0) by (apply Hdphi, nth_In; lia). rewrite (nth_error_nth' (nth q dphi []) zero) by lia. reflexivity. }
  cbn [obind].
  assert (EA : map (fun row => map (fun i => tsum (length dphi) (fun q => mul (nth q row zero) (nth i (nth q dphi []) zero))) (seq 0 n0)) Pi
     = of_columns T zero n1 n0 (fun i => gradient_dofs T zero add mul n0 Pi dphi (unit n0 i))).
  { apply nth_error_ext. intro m. destruct (Nat.lt_ge_cases m n1) as [Hm|Hm].
    - rewrite of_columns_nth by exact Hm. destruct (nth_error_lt Pi m ltac:(lia)) as (row & Er). rewrite nth_error_map, Er. cbn [option_map]. f_equal. apply map_ext_in. intros i Hi. apply in_seq in Hi.
      unfold gradient_dofs. rewrite (nth_map_default T zero _ Pi m row Er). apply tsum_ext. intros q _. f_equal. symmetry. apply (sum_unit n0 i (fun j => nth j (nth q dphi []) zero)). lia.
    - rewrite (proj2 (nth_error_None _ _)) by (rewrite map_length; lia). symmetry. apply nth_error_None. rewrite of_columns_length. lia. }
  rewrite EA. apply (ofold_app_concat _ (cell_entries T zero one 1 dofmap0 n0 1 dofmap1 grad_op) (seq 0 ncells)) with (M := []).
  intros M c Hc. apply in_seq in Hc. rewrite (apply_columns_ok T zero (transform1 c) n1 n0 (fun i => gradient_dofs T zero add mul n0 Pi dphi (unit n0 i))).
  - cbn [obind]. destruct (cell_entries_ok grad_op c ltac:(lia)) as (rows & cols & -> & -> & E). cbn [obind]. unfold grad_op in E at 1. rewrite E. reflexivity.
  - intros i _. apply (proj1 gradient_linear), unit_length.
  - exact (proj1 (Htr c ltac:(lia))).
Qed.
Lemma gradient_dofs_ok u c m d : conforming T zero ncells n0 N0 dofmap0 dofmap1 grad_op -> length u = N0 -> c < ncells -> cell_dof 1 dofmap1 c m = Some d ->
  times T zero add mul (set_entry T zero (concat (map (cell_entries T zero one 1 dofmap0 n0 1 dofmap1 grad_op) (seq 0 ncells)))) u d = nth m (grad_op c (cell_coefficients T zero 1 dofmap0 n0 u c)) zero.
Proof.
  apply set_dofs. intros c' Hc'. apply (linear_comp T add mul n0 n1 n1 _ _ gradient_linear (Htr c' Hc')).
Qed.
End Gradient.

Section Curl.
Variables (np : nat) (Phi0 : list (list (list (list T)))) (transform0 : nat -> list T -> list T).
Hypothesis HPr : forall row, In row Pi -> length row = 3 * np.
Hypothesis HPhi : derivatives_fit T np n0 Phi0.
Hypothesis Htr0 : forall c x, c < ncells -> length x = n0 -> length (transform0 c x) = n0.
Definition curl_op (c : nat) (u : list T) : list T := transform1 c (curl_dofs T zero add mul sub (transform0 c) n0 np Pi Phi0 u).
Lemma curl_linear c : linear n0 n1 (curl_dofs T zero add mul sub (transform0 c) n0 np Pi Phi0).
Proof.
  unfold curl_dofs. apply (local_dofs_linear T zero one add mul sub opp Rth false 1 3 np Pi n0 (fun u p k => curl_value T sub (derivative T zero add mul (transform0 c) n0 Phi0 u p) k)).
  - intros p k _ _.
    assert (H : forall dx d, lfun T add mul n0 (fun u => derivative T zero add mul (transform0 c) n0 Phi0 u p dx d)).
    { intros dx d. unfold derivative. apply (lfun_sum' T zero one add mul sub opp Rth n0 n0 (fun i x => mul (nth i x zero) (nth i (transform0 c (map (fun phi => nth d (nth phi (nth p (nth (dx + 1) Phi0 []) []) []) zero) (seq 0 n0))) zero))). intros i _. apply (lfun_entry T zero one add mul sub opp Rth). }
    unfold curl_value. destruct k as [|[|k]]; apply (lfun_sub T zero one add mul sub opp Rth); apply H.
  - intros _ H. now destruct H.
  - cbn [Nat.eqb]. now rewrite HPi.
Qed.
Lemma curl_at_ok c p : c < ncells -> p < np ->
  curl_at T sub (transform0 c) n0 Phi0 p = Some (map (fun i => map (curl_value T sub (derivative T zero add mul (transform0 c) n0 Phi0 (unit n0 i) p)) (seq 0 3)) (seq 0 n0)).
Proof.
  intros Hc Hp. unfold curl_at.
  set (col := fun q => map (fun phi => nth (q mod 3) (nth phi (nth p (nth (q / 3 + 1) Phi0 []) []) []) zero) (seq 0 n0)).
  rewrite (omap_map _ (fun phi => map (fun q => nth phi (col q) zero) (seq 0 9))).
  - cbn [obind]. change (map (fun phi => map (fun q => nth phi (col q) zero) (seq 0 9)) (seq 0 n0)) with (of_columns T zero n0 9 col).
    rewrite (apply_columns_ok T zero (transform0 c) n0 9 col) by (first [intros; unfold col; now rewrite map_length, seq_length|intros x Hx; now apply Htr0]).
    cbn [obind]. unfold of_columns at 1.
    assert (D : forall i dx d, i < n0 -> d < 3 -> derivative T zero add mul (transform0 c) n0 Phi0 (unit n0 i) p dx d = nth i (transform0 c (col (dx * 3 + d))) zero).
    { intros i dx d Hi Hd. unfold derivative. rewrite (sum_unit n0 i (fun j => nth j (transform0 c (map (fun phi => nth d (nth phi (nth p (nth (dx + 1) Phi0 []) []) []) zero) (seq 0 n0))) zero) Hi).
      unfold col. rewrite Nat.div_add_l, Nat.div_small, Nat.add_0_r by lia. rewrite (Nat.add_comm (dx * 3) d), Nat.mod_add, Nat.mod_small by lia. reflexivity. }
    rewrite (omap_map _ (fun row => [sub (nth 5 row zero) (nth 7 row zero); sub (nth 6 row zero) (nth 2 row zero); sub (nth 1 row zero) (nth 3 row zero)])).
    + f_equal. rewrite map_map. apply map_ext_in. intros i Hi. apply in_seq in Hi. cbn [seq map nth curl_value]. rewrite !D by lia. reflexivity.
    + intros row Hrow. apply in_map_iff in Hrow as (i & <- & Hi). reflexivity.
  - intros phi Hphi. apply in_seq in Hphi. change (list_prod (seq 0 3) (seq 0 3)) with (map (fun q => (q / 3, q mod 3)) (seq 0 9)).
    assert (G : forall q, q < 9 -> (D <- nth_error Phi0 (q / 3 + 1);; P <- nth_error D p;; r <- nth_error P phi;; nth_error r (q mod 3)) = Some (nth phi (col q) zero)).
    { intros q Hq. destruct (HPhi (q / 3) p phi (q mod 3)) as (D & P & r & v & E1 & E2 & E3 & E4); [apply Nat.div_lt_upper_bound; lia|exact Hp|lia|apply Nat.mod_upper_bound; lia|].
      rewrite E1. cbn [obind]. rewrite E2. cbn [obind]. rewrite E3. cbn [obind]. rewrite E4. f_equal. unfold col. rewrite nth_map_seq by lia. rewrite (nth_error_nth _ _ _ E1), (nth_error_nth _ _ _ E2), (nth_error_nth _ _ _ E3). symmetry. exact (nth_error_nth _ _ _ E4). }
    cbn [seq map]. cbn [omap Nat.div Nat.modulo Nat.divmod fst snd Nat.sub].
    pose proof (G 0 ltac:(lia)) as G0. pose proof (G 1 ltac:(lia)) as G1. pose proof (G 2 ltac:(lia)) as G2. pose proof (G 3 ltac:(lia)) as G3. pose proof (G 4 ltac:(lia)) as G4.
    pose proof (G 5 ltac:(lia)) as G5. pose proof (G 6 ltac:(lia)) as G6. pose proof (G 7 ltac:(lia)) as G7. pose proof (G 8 ltac:(lia)) as G8.
    cbn [Nat.div Nat.modulo Nat.divmod fst snd Nat.sub] in G0, G1, G2, G3, G4, G5, G6, G7, G8. rewrite G0, G1, G2, G3, G4, G5, G6, G7, G8. reflexivity.
Qed.
Lemma curl_ok : discrete_curl T zero add mul sub n0 np Pi Phi0 transform0 transform1 ncells dofmap0 dofmap1 = Some (concat (map (cell_entries T zero one 1 dofmap0 n0 1 dofmap1 curl_op) (seq 0 ncells))).
Proof.
  unfold discrete_curl. apply (ofold_app_concat _ (cell_entries T zero one 1 dofmap0 n0 1 dofmap1 curl_op) (seq 0 ncells)) with (M := []).
  intros M c Hc. apply in_seq in Hc.
  rewrite (omap_map _ (fun p => map (fun i => map (curl_value T sub (derivative T zero add mul (transform0 c) n0 Phi0 (unit n0 i) p)) (seq 0 3)) (seq 0 n0))) by (intros p Hp; apply in_seq in Hp; apply curl_at_ok; lia).
  cbn [obind].
  rewrite (local_matrix_ok T zero one add mul sub opp Rth false 1 3 np n0 Pi _ (fun i p k => curl_value T sub (derivative T zero add mul (transform0 c) n0 Phi0 (unit n0 i) p) k) n1).
  - cbn [obind]. rewrite (apply_columns_ok T zero (transform1 c) n1 n0 (fun i => local_dofs T zero add mul false 1 3 np Pi (fun p k => curl_value T sub (derivative T zero add mul (transform0 c) n0 Phi0 (unit n0 i) p) k))).
    + cbn [obind]. destruct (cell_entries_ok curl_op c ltac:(lia)) as (rows & cols & -> & -> & E). cbn [obind]. change (fun i => transform1 c (local_dofs T zero add mul false 1 3 np Pi (fun p k => curl_value T sub (derivative T zero add mul (transform0 c) n0 Phi0 (unit n0 i) p) k))) with (fun i => curl_op c (unit n0 i)). rewrite E. reflexivity.
    + intros i _. apply (proj1 (curl_linear c)), unit_length.
    + exact (proj1 (Htr c ltac:(lia))).
  - intros p i k Hp Hi Hk. eexists _, _. rewrite nth_error_map_seq by exact Hp. split; [reflexivity|]. rewrite nth_error_map_seq by exact Hi. split; [reflexivity|]. now rewrite nth_error_map_seq by exact Hk.
  - intros _ row Hrow. cbn [Nat.eqb]. rewrite HPr by exact Hrow. lia.
  - intros _ H. now destruct H.
  - cbn [Nat.eqb]. now rewrite HPi.
Qed.
Lemma curl_dofs_ok u c m d : conforming T zero ncells n0 N0 dofmap0 dofmap1 curl_op -> length u = N0 -> c < ncells -> cell_dof 1 dofmap1 c m = Some d ->
  times T zero add mul (set_entry T zero (concat (map (cell_entries T zero one 1 dofmap0 n0 1 dofmap1 curl_op) (seq 0 ncells)))) u d = nth m (curl_op c (cell_coefficients T zero 1 dofmap0 n0 u c)) zero.
Proof.
  apply set_dofs. intros c' Hc'. apply (linear_comp T add mul n0 n1 n1 _ _ (curl_linear c') (Htr c' Hc')).
Qed.
End Curl.
End Grad.
End Ring.
