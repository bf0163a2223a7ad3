(** Proofs about the coordinates of dofs, for property C83. *)
From Verif Require Import Base BaseProofs Algo AlgoProofs Interp InterpSpec InterpWrites InterpProofs PointOwnerProofs NonMatching NonMatchingSpec NonMatchingScatter NonMatchingProofs NonMatchingCoords DofCoords DofCoordsSpec.
Open Scope nat_scope.

Section Proofs.
Variables (T : Type) (zero : T) (add mul : T -> T -> T) (gdim : nat) (x_g : list T).
Hypothesis Hg : gdim <= 3.

Lemma cell_points_ok scalar_dofs num_dofs t c : cells_fit T x_g scalar_dofs num_dofs t -> c < dc_ncells T t ->
  exists nodes x, nth_error (dc_xd T t) c = Some nodes /\ cell_points T zero add mul gdim x_g scalar_dofs t c = Some x /\
  forall j row k, nth_error (dc_phi T t) j = Some row -> k < gdim -> nth_error x (j * gdim + k) = Some (node_sum T zero add mul row nodes x_g k).
Proof.
  intros (_ & Htr & Hs & nd & Hphi & Hc) Hcn. destruct (Hc c Hcn) as (nodes & dofs & En & Ed & Ln & Hn & _).
  exists nodes. unfold cell_points. rewrite En. cbn [obind].
  destruct (coordinate_dofs_spec T zero gdim nd x_g Hg nodes Ln Hn) as (cd & -> & Hcd). cbn [obind].
  set (g := fun ij : nat * nat => match nth_error (dc_phi T t) (fst ij) with Some row => node_sum T zero add mul row nodes x_g (snd ij) | None => zero end).
  set (ws := map (fun ij : nat * nat => (fst ij * gdim + snd ij, g ij)) (list_prod (seq 0 (length (dc_phi T t))) (seq 0 gdim))).
  assert (Ew : ofold (fun x ij => let '(i, j) := ij in
      row <- nth_error (dc_phi T t) i ;;
      acc <- ofold (fun s k => f <- nth_error row k ;; y <- nth_error cd (k * gdim + j) ;; Some (add s (mul f y))) (seq 0 (length row)) zero ;;
      upd x (i * gdim + j) acc)
    (list_prod (seq 0 (length (dc_phi T t))) (seq 0 gdim)) (repeat zero (scalar_dofs * gdim)) = wr ws (repeat zero (scalar_dofs * gdim))).
  { unfold ws. rewrite <- concat_singles. apply ofold_writes. intros [i j] arr Hin. apply in_prod_iff in Hin as [Hi Hj]. apply in_seq in Hi, Hj.
    destruct (nth_error_lt (dc_phi T t) i ltac:(lia)) as (row & Hrow). unfold g. cbn [fst snd]. rewrite Hrow. cbn [obind].
    rewrite (ofold_sum T add mul _ (fun k => nth k row zero) (fun k => nth k (map (fun d => nth (3 * d + j) x_g zero) nodes) zero)).
    - cbn [obind]. rewrite wr_one. f_equal. unfold node_sum, dot. f_equal; [apply map_nth_seq|].
      replace (length row) with (length (map (fun d => nth (3 * d + j) x_g zero) nodes)); [apply map_nth_seq|]. rewrite map_length, Ln. symmetry. apply Hphi. eapply nth_error_In; eauto.
    - intros s k Hk. apply in_seq in Hk. rewrite (nth_error_nth' row zero) by lia. cbn [obind]. rewrite Hcd; [reflexivity| |lia]. rewrite <- (Hphi row (nth_error_In _ _ Hrow)). lia. }
  rewrite Ew. clear Ew.
  assert (Hws : forall a v, In (a, v) ws <-> exists i j, i < length (dc_phi T t) /\ j < gdim /\ a = i * gdim + j /\ v = g (i, j)).
  { intros a v. unfold ws. rewrite in_map_iff. split.
    - intros ([i j] & E & Hin). injection E as <- <-. apply in_prod_iff in Hin as [Hi Hj]. apply in_seq in Hi, Hj. exists i, j. cbn [fst snd]. split; [lia|]. split; [lia|]. auto.
    - intros (i & j & Hi & Hj & -> & ->). exists (i, j). split; [reflexivity|]. apply in_prod_iff. split; apply in_seq; lia. }
  destruct (wr_spec ws (repeat zero (scalar_dofs * gdim))) as (x & Ex & Lx & Nx).
  { intros [a v] Hin. apply Hws in Hin as (i & j & Hi & Hj & -> & _). cbn [fst]. rewrite repeat_length. nia. }
  rewrite Ex. cbn [obind]. exists x. rewrite Htr. split; [reflexivity|]. split; [reflexivity|].
  intros j row k Hrow Hk. rewrite Nx. pose proof (nth_error_bound _ _ _ Hrow) as Hj.
  rewrite (lastv_fun _ (node_sum T zero add mul row nodes x_g k) ws); [reflexivity| |].
  - apply Hws. exists j, k. split; [exact Hj|]. split; [exact Hk|]. split; [reflexivity|]. unfold g. cbn [fst snd]. now rewrite Hrow.
  - intros v Hv. apply Hws in Hv as (i' & j' & Hi' & Hj' & E & ->). destruct (digits_inj _ _ _ _ _ Hk Hj' E) as [<- <-]. unfold g. cbn [fst snd]. now rewrite Hrow.
Qed.

Lemma coord_at_lt tr n d k : d < n -> k < 3 -> coord_at tr n d k < 3 * n.
Proof. intros Hd Hk. unfold coord_at. destruct tr; nia. Qed.
Lemma coord_at_inj tr n d k d' k' : d < n -> k < 3 -> d' < n -> k' < 3 -> coord_at tr n d k = coord_at tr n d' k' -> d = d' /\ k = k'.
Proof.
  intros Hd Hk Hd' Hk' E. unfold coord_at in E. destruct tr.
  - destruct (digits_inj n k d k' d' Hd Hd' E) as [-> ->]. auto.
  - destruct (digits_inj 3 d k d' k' Hk Hk' E) as [-> ->]. auto.
Qed.

(** The writes of a cell *)
Definition cell_writes (tr : bool) (n : nat) (t : dof_cells T) (c : nat) : list (nat * T) :=
  match nth_error (dc_xd T t) c, nth_error (dc_dofs T t) c with
  | Some nodes, Some dofs => map (fun jk : nat * nat => (coord_at tr n (nth (fst jk) dofs 0) (snd jk), node_sum T zero add mul (nth (fst jk) (dc_phi T t) []) nodes x_g (snd jk)))
      (list_prod (seq 0 (length dofs)) (seq 0 gdim))
  | _, _ => []
  end.

Lemma cell_coords_ok tr n scalar_dofs t c arr : cells_fit T x_g scalar_dofs n t -> c < dc_ncells T t ->
  cell_coords T zero add mul gdim x_g tr n scalar_dofs t arr c = wr (cell_writes tr n t c) arr.
Proof.
  intros Hf Hc. destruct (cell_points_ok scalar_dofs n t c Hf Hc) as (nodes & x & En & Ex & Hx).
  destruct Hf as (_ & _ & _ & nd & _ & H). destruct (H c Hc) as (nodes' & dofs & _ & Ed & _ & _ & Ld & _).
  unfold cell_coords, cell_writes. rewrite Ex, Ed, En. cbn [obind]. rewrite <- concat_singles. apply ofold_writes.
  intros [j k] a Hin. apply in_prod_iff in Hin as [Hj Hk]. apply in_seq in Hj, Hk.
  rewrite (nth_error_nth' dofs 0) by lia. cbn [obind fst snd].
  rewrite (Hx j (nth j (dc_phi T t) []) k) by (try (apply nth_error_nth'); lia). cbn [obind]. now rewrite wr_one.
Qed.

Variables (tr : bool) (types : list (dof_cells T)) (scalar_dofs n : nat).
Hypothesis Hfit : forall t, In t types -> cells_fit T x_g scalar_dofs n t.
Hypothesis Hag : points_agree T zero add mul gdim x_g types.

Definition all_writes : list (nat * T) := concat (map (fun t => concat (map (cell_writes tr n t) (seq 0 (dc_ncells T t)))) types).
Lemma all_writes_in a v : In (a, v) all_writes <-> exists d p k, has_point T zero add mul x_g types d p /\ k < gdim /\ d < n /\ a = coord_at tr n d k /\ v = p k.
Proof.
  unfold all_writes. rewrite in_concat. split.
  - intros (l & Hl & Hin). apply in_map_iff in Hl as (t & <- & Ht). apply in_concat in Hin as (l' & Hl' & Hin). apply in_map_iff in Hl' as (c & <- & Hc). apply in_seq in Hc.
    destruct (Hfit t Ht) as (_ & _ & _ & nd & _ & H). destruct (H c ltac:(lia)) as (nodes & dofs & En & Ed & _ & _ & Ld & Hd).
    unfold cell_writes in Hin. rewrite En, Ed in Hin. apply in_map_iff in Hin as ([j k] & E & Hjk). injection E as <- <-. apply in_prod_iff in Hjk as [Hj Hk]. apply in_seq in Hj, Hk.
    cbn [fst snd]. exists (nth j dofs 0), (node_sum T zero add mul (nth j (dc_phi T t) []) nodes x_g), k.
    assert (Ej : nth_error dofs j = Some (nth j dofs 0)) by (apply nth_error_nth'; lia).
    split; [|split; [lia|split; [apply Hd; eapply nth_error_In; exact Ej|auto]]].
    exists t, c, j, nodes, dofs, (nth j (dc_phi T t) []). split; [exact Ht|]. split; [lia|]. do 3 (split; [assumption|]). split; [apply nth_error_nth'; lia|reflexivity].
  - intros (d & p & k & (t & c & j & nodes & dofs & row & Ht & Hc & En & Ed & Ej & Er & Hp) & Hk & Hdn & -> & ->).
    eexists. split; [apply in_map_iff; exists t; split; [reflexivity|exact Ht]|]. apply in_concat. exists (cell_writes tr n t c). split; [apply in_map, in_seq; lia|].
    unfold cell_writes. rewrite En, Ed. apply in_map_iff. exists (j, k). cbn [fst snd]. rewrite (nth_error_nth _ _ _ Ej), (nth_error_nth _ _ _ Er), Hp. split; [reflexivity|].
    apply in_prod_iff. split; apply in_seq; [|lia]. pose proof (nth_error_bound _ _ _ Ej). lia.
Qed.

Lemma tabulate_ok index_map_bs num_indices dofmap_bs space_dimension block_size :
  0 < dofmap_bs -> 0 < block_size -> scalar_dofs = space_dimension / block_size -> n = index_map_bs * num_indices / dofmap_bs ->
  exists coords, tabulate_dof_coordinates T zero add mul gdim x_g tr false false index_map_bs num_indices dofmap_bs space_dimension block_size types = Some coords /\
  length coords = 3 * n /\
  forall d k, d < n -> k < 3 ->
    (forall p, has_point T zero add mul x_g types d p -> k < gdim -> nth_error coords (coord_at tr n d k) = Some (p k)) /\
    ((forall p, ~ has_point T zero add mul x_g types d p) \/ gdim <= k -> nth_error coords (coord_at tr n d k) = Some zero).
Proof.
  intros Hb1 Hb2 Es En. unfold tabulate_dof_coordinates. cbn [orb].
  destruct (Nat.eqb_spec dofmap_bs 0) as [E|_]; [lia|]. destruct (Nat.eqb_spec block_size 0) as [E|_]; [lia|]. cbn [orb]. cbv zeta. rewrite <- Es, <- En.
  assert (Ew : ofold (fun coords t => if negb (dc_ident T t) then None else ofold (cell_coords T zero add mul gdim x_g tr n scalar_dofs t) (seq 0 (dc_ncells T t)) coords) types (repeat zero (3 * n)) = wr all_writes (repeat zero (3 * n))).
  { unfold all_writes. apply ofold_writes. intros t arr Ht. pose proof (Hfit t Ht) as Hf. rewrite (proj1 Hf). cbn [negb]. apply ofold_writes.
    intros c a Hc. apply in_seq in Hc. apply cell_coords_ok; [exact Hf|lia]. }
  rewrite Ew. clear Ew.
  destruct (wr_spec all_writes (repeat zero (3 * n))) as (x & Ex & Lx & Nx).
  { intros [a v] Hin. apply all_writes_in in Hin as (d & p & k & _ & Hk & Hd & -> & _). cbn [fst]. rewrite repeat_length. apply coord_at_lt; lia. }
  exists x. split; [exact Ex|]. rewrite repeat_length in Lx. split; [exact Lx|]. intros d k Hd Hk. split.
  - intros p Hp Hkg. rewrite Nx, (lastv_fun _ (p k) all_writes); [reflexivity| |].
    + apply all_writes_in. exists d, p, k. auto.
    + intros v Hv. apply all_writes_in in Hv as (d' & p' & k' & Hp' & Hk' & Hd' & E & ->). destruct (coord_at_inj tr n d k d' k') as [<- <-]; [exact Hd|exact Hk|exact Hd'|lia|exact E|]. exact (Hag d p' p Hp' Hp k Hkg).
  - intro Hno. rewrite Nx, (proj2 (lastv_none _ _)); [apply nth_error_repeat; apply coord_at_lt; assumption|].
    intros v Hv. apply all_writes_in in Hv as (d' & p' & k' & Hp' & Hk' & Hd' & E & ->). destruct (coord_at_inj tr n d k d' k') as [<- <-]; [exact Hd|exact Hk|exact Hd'|lia|exact E|].
    destruct Hno as [Hno|Hno]; [exact (Hno p' Hp')|lia].
Qed.
End Proofs.

Lemma marked_fold (l : list bool) : forall s acc, fold_left (fun dofs '(i, m) => if (m : bool) then dofs ++ [i] else dofs) (combine (seq s (length l)) l) acc = acc ++ map fst (filter snd (combine (seq s (length l)) l)).
Proof.
  induction l as [|m l IH]; intros s acc; cbn [length seq combine fold_left filter map snd fst]; [now rewrite app_nil_r|].
  rewrite IH. destruct m; [cbn [map fst]; now rewrite <- app_assoc|reflexivity].
Qed.
Lemma marked_ok (l : list bool) : StronglySorted lt (marked_indices l) /\ forall i, In i (marked_indices l) <-> nth_error l i = Some true.
Proof.
  unfold marked_indices. rewrite marked_fold. cbn [app].
  assert (G : forall l s, StronglySorted lt (map fst (filter snd (combine (seq s (length l)) l))) /\ forall i, In i (map fst (filter snd (combine (seq s (length l)) l))) <-> s <= i /\ nth_error l (i - s) = Some true).
  { clear. induction l as [|m l IH]; intro s; cbn [length seq combine filter map].
    - split; [constructor|]. intro i. split; [intros []|]. intros [_ H]. destruct (i - s); discriminate.
    - destruct (IH (S s)) as [I1 I2].
      assert (Hs : forall i, In i (map fst (filter snd (combine (seq (S s) (length l)) l))) <-> S s <= i /\ nth_error (m :: l) (i - s) = Some true).
      { intro i. rewrite I2. split; intros [H E]; (split; [exact H|]); replace (i - s) with (S (i - S s)) in * by lia; exact E. }
      cbn [snd]. destruct m; cbn [map fst].
      + split; [constructor; [exact I1|]; apply Forall_forall; intros i Hi; apply Hs in Hi; lia|]. intro i. cbn [In]. rewrite Hs. split.
        * intros [<-|[H E]]; [rewrite Nat.sub_diag; split; [lia|reflexivity]|split; [lia|exact E]].
        * intros [H E]. destruct (Nat.eq_dec s i) as [->|N]; [now left|right; split; [lia|exact E]].
      + split; [exact I1|]. intro i. rewrite Hs. split; intros [H E]; [split; [lia|exact E]|]. split; [|exact E]. destruct (Nat.eq_dec s i) as [->|N]; [rewrite Nat.sub_diag in E; discriminate|lia]. }
  destruct (G l 0) as [G1 G2]. split; [exact G1|]. intro i. rewrite G2, Nat.sub_0_r. intuition lia.
Qed.

(** Flags of a pointwise marker *)
Lemma pointwise_nth {T} (zero : T) marker_fn f x n d : pointwise zero marker_fn f -> length x = 3 * n ->
  nth_error (marker_fn x) d = Some true <-> d < n /\ f (nth d x zero) (nth (n + d) x zero) (nth (2 * n + d) x zero) = true.
Proof.
  intros Hp Lx. rewrite (Hp x n Lx). rewrite nth_error_map_some. split.
  - intro H. destruct (nth_error (seq 0 n) d) as [i|] eqn:E; [|discriminate]. pose proof (nth_error_bound _ _ _ E) as Hd. rewrite seq_length in Hd.
    rewrite nth_error_seq in E by exact Hd. injection E as <-. cbn in H. injection H as H. split; [exact Hd|exact H].
  - intros [Hd H]. rewrite nth_error_seq by exact Hd. cbn [option_map plus]. now rewrite H.
Qed.

Lemma cell_pairs_ok element_bs bs0 bs1 marked dofs0 dofs1 : 0 < bs0 -> 0 < bs1 ->
  bs0 * length dofs0 = element_bs * length dofs1 -> bs1 * length dofs1 = element_bs * length dofs1 -> (forall d, In d dofs1 -> d < length marked) ->
  exists l, cell_pairs element_bs bs0 bs1 marked dofs0 dofs1 = Some l /\
  forall x, In x l <-> exists i k d a b, nth_error dofs1 i = Some d /\ nth_error marked d = Some true /\ k < element_bs /\
    nth_error dofs0 ((element_bs * i + k) / bs0) = Some a /\ nth_error dofs1 ((element_bs * i + k) / bs1) = Some b /\
    x = (bs0 * a + (element_bs * i + k) mod bs0, bs1 * b + (element_bs * i + k) mod bs1).
Proof.
  intros H0 H1 L0 L1 Hd.
  set (pr := fun p => (bs0 * nth (p / bs0) dofs0 0 + p mod bs0, bs1 * nth (p / bs1) dofs1 0 + p mod bs1)).
  assert (Hin : forall i k, i < length dofs1 -> k < element_bs -> (element_bs * i + k) / bs0 < length dofs0 /\ (element_bs * i + k) / bs1 < length dofs1).
  { intros i k Hi Hk. split; apply Nat.div_lt_upper_bound; try lia; [rewrite L0|rewrite L1]; nia. }
  set (g := fun id : nat * nat => if nth (snd id) marked false then map (fun k => pr (element_bs * fst id + k)) (seq 0 element_bs) else []).
  exists (concat (map g (combine (seq 0 (length dofs1)) dofs1))). split.
  - unfold cell_pairs. rewrite (omap_map _ g); [reflexivity|]. intros [i d] Hid. pose proof (enum_in dofs1 i d Hid) as Ei.
    rewrite (nth_error_nth' marked false) by (apply Hd; eapply nth_error_In; exact Ei). cbn [obind]. unfold g. cbn [fst snd]. destruct (nth d marked false); [|reflexivity].
    apply omap_map. intros k Hk. apply in_seq in Hk. destruct (Hin i k (nth_error_bound _ _ _ Ei) ltac:(lia)) as [Ha Hb].
    cbv zeta. rewrite (nth_error_nth' dofs0 0 Ha), (nth_error_nth' dofs1 0 Hb). reflexivity.
  - intro x. rewrite in_concat. split.
    + intros (l & Hl & Hx). apply in_map_iff in Hl as ([i d] & <- & Hid). apply enum_in in Hid. unfold g in Hx. cbn [fst snd] in Hx.
      destruct (nth d marked false) eqn:Em; [|destruct Hx]. apply in_map_iff in Hx as (k & <- & Hk). apply in_seq in Hk.
      destruct (Hin i k (nth_error_bound _ _ _ Hid) ltac:(lia)) as [Ha Hb].
      exists i, k, d, (nth ((element_bs * i + k) / bs0) dofs0 0), (nth ((element_bs * i + k) / bs1) dofs1 0).
      split; [exact Hid|]. split; [rewrite <- Em; apply nth_error_nth', Hd; eapply nth_error_In; exact Hid|]. split; [lia|].
      split; [apply nth_error_nth'; exact Ha|]. split; [apply nth_error_nth'; exact Hb|]. reflexivity.
    + intros (i & k & d & a & b & Ei & Em & Hk & Ea & Eb & ->). exists (g (i, d)). split; [apply in_map; apply (nth_error_In _ i); exact (nth_error_enum dofs1 0 i d Ei)|].
      unfold g. cbn [fst snd]. rewrite (nth_error_nth _ _ _ Em). apply in_map_iff. exists k. split; [|apply in_seq; lia]. unfold pr. now rewrite (nth_error_nth _ _ _ Ea), (nth_error_nth _ _ _ Eb).
Qed.

Lemma combine_map {A B C} (f : A -> B) (g : A -> C) l : combine (map f l) (map g l) = map (fun x => (f x, g x)) l.
Proof. induction l as [|x l IH]; cbn; congruence. Qed.

Lemma locate_pair_ok {T} element_bs bs0 bs1 (x : list T) marker_fn ncells dofmap0 dofmap1 : 0 < bs0 -> 0 < bs1 ->
  (forall c, c < ncells -> exists dofs0 dofs1, nth_error dofmap0 c = Some dofs0 /\ nth_error dofmap1 c = Some dofs1 /\
     bs0 * length dofs0 = element_bs * length dofs1 /\ bs1 * length dofs1 = element_bs * length dofs1 /\ forall d, In d dofs1 -> d < length (marker_fn x)) ->
  exists l0 l1, locate_dofs_pair T true true element_bs bs0 bs1 (Some x) marker_fn ncells dofmap0 dofmap1 = Some (l0, l1) /\
    length l0 = length l1 /\ StronglySorted pair_lt (combine l0 l1) /\
    forall a b, In (a, b) (combine l0 l1) <-> exists c i k dofs1 d, c < ncells /\ nth_error dofmap1 c = Some dofs1 /\ nth_error dofs1 i = Some d /\
      nth_error (marker_fn x) d = Some true /\ k < element_bs /\ cell_dof bs0 dofmap0 c (element_bs * i + k) = Some a /\ cell_dof bs1 dofmap1 c (element_bs * i + k) = Some b.
Proof.
  intros H0 H1 Hc. unfold locate_dofs_pair. cbn [negb orb]. destruct (Nat.eqb_spec bs0 0) as [E|_]; [lia|]. destruct (Nat.eqb_spec bs1 0) as [E|_]; [lia|]. cbn [orb obind]. cbv zeta.
  set (f := fun c => dofs0 <- nth_error dofmap0 c ;; dofs1 <- nth_error dofmap1 c ;; cell_pairs element_bs bs0 bs1 (marker_fn x) dofs0 dofs1).
  assert (Hf : forall c, c < ncells -> exists l, f c = Some l /\ forall a b, In (a, b) l <-> exists i k dofs1 d, nth_error dofmap1 c = Some dofs1 /\ nth_error dofs1 i = Some d /\
      nth_error (marker_fn x) d = Some true /\ k < element_bs /\ cell_dof bs0 dofmap0 c (element_bs * i + k) = Some a /\ cell_dof bs1 dofmap1 c (element_bs * i + k) = Some b).
  { intros c Hcn. destruct (Hc c Hcn) as (dofs0 & dofs1 & E0 & E1 & L0 & L1 & Hd). unfold f. rewrite E0, E1. cbn [obind].
    destruct (cell_pairs_ok element_bs bs0 bs1 (marker_fn x) dofs0 dofs1 H0 H1 L0 L1 Hd) as (l & El & Hl). exists l. split; [exact El|]. intros a b. rewrite Hl. unfold cell_dof. rewrite E0, E1. split.
    - intros (i & k & d & a' & b' & Ei & Em & Hk & Ea & Eb & E). injection E as -> ->. exists i, k, dofs1, d. rewrite Ea, Eb. auto 8.
    - intros (i & k & dofs1' & d & E & Ei & Em & Hk & Ea & Eb). injection E as <-.
      destruct (nth_error dofs0 _) as [a'|] eqn:Ea'; [|discriminate]. destruct (nth_error dofs1 ((element_bs * i + k) / bs1)) as [b'|] eqn:Eb'; [|discriminate].
      injection Ea as <-. injection Eb as <-. exists i, k, d, a', b'. auto 8. }
  set (g := fun c => match f c with Some l => l | None => [] end).
  rewrite (omap_map f g) by (intros c Hcc; apply in_seq in Hcc; destruct (Hf c ltac:(lia)) as (l & El & _); unfold g; now rewrite El).
  cbn [obind]. eexists _, _. split; [reflexivity|]. split; [now rewrite !map_length|].
  rewrite combine_map. replace (map (fun x0 : nat * nat => (fst x0, snd x0)) (sort_uniq_pairs (concat (map g (seq 0 ncells))))) with (sort_uniq_pairs (concat (map g (seq 0 ncells)))) by (symmetry; rewrite <- (map_id (sort_uniq_pairs _)) at 2; apply map_ext; now intros []).
  split; [apply sort_uniq_pairs_sorted|]. intros a b. rewrite sort_uniq_pairs_in, in_concat. split.
  - intros (l & Hl & Hab). apply in_map_iff in Hl as (c & <- & Hcc). apply in_seq in Hcc. destruct (Hf c ltac:(lia)) as (l & El & Hl). unfold g in Hab. rewrite El in Hab. apply Hl in Hab as (i & k & dofs1 & d & H). exists c, i, k, dofs1, d. split; [lia|exact H].
  - intros (c & i & k & dofs1 & d & Hcn & H). destruct (Hf c Hcn) as (l & El & Hl). exists l. split; [apply in_map_iff; exists c; split; [unfold g; now rewrite El|apply in_seq; lia]|]. apply Hl. exists i, k, dofs1, d. exact H.
Qed.
