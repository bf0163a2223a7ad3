(** Proofs about the values in VTK files. *)
From Verif Require Import Base BaseProofs Vtx VtxProofs VtkFile VtkFileSpec.
Open Scope nat_scope.

Section Values.
Variables (T : Type) (zero : T).

Lemma block_ok (src : list T) from to : forall m dst, from + m <= length src -> to + m <= length dst ->
  exists dst', ofold (fun dst k => v <- nth_error src (from + k) ;; upd dst (to + k) v) (seq 0 m) dst = Some dst' /\ length dst' = length dst /\
  (forall k, k < m -> nth_error dst' (to + k) = nth_error src (from + k)) /\ (forall q, q < to \/ to + m <= q -> nth_error dst' q = nth_error dst q).
Proof.
  induction m as [|m IH]; intros dst Hs Hd.
  - exists dst. repeat split; auto. intros k Hk. lia.
  - destruct (IH dst ltac:(lia) ltac:(lia)) as (d1 & E & L & H1 & H2). rewrite seq_S, ofold_app, E. cbn [obind ofold Nat.add].
    destruct (nth_error src (from + m)) as [v|] eqn:Ev. 2:{ apply nth_error_None in Ev. lia. }
    cbn [obind]. destruct (upd_some d1 (to + m) v ltac:(lia)) as (d2 & E2). rewrite E2. cbn [obind]. exists d2. split; [reflexivity|]. split; [rewrite (upd_length _ _ _ _ E2); exact L|]. split.
    + intros k Hk. destruct (Nat.eq_dec k m) as [->|N].
      * rewrite (upd_nth_eq _ _ _ _ E2). now symmetry.
      * rewrite (upd_nth_neq _ _ _ _ _ E2) by lia. apply H1. lia.
    + intros q Hq. rewrite (upd_nth_neq _ _ _ _ _ E2) by lia. apply H2. lia.
Qed.

Lemma row_apart stride a b k l : k < stride -> l < stride -> stride * a + k = stride * b + l -> a = b /\ k = l.
Proof. intros. assert (a = b) by nia. subst. lia. Qed.

Lemma copy_ok bs stride (src : list T) : bs <= stride -> forall pairs dst,
  (forall t s, In (t, s) pairs -> stride * t + stride <= length dst /\ bs * s + bs <= length src) ->
  (forall t s s', In (t, s) pairs -> In (t, s') pairs -> s = s') ->
  exists dst', copy_blocks T bs stride src pairs dst = Some dst' /\ length dst' = length dst /\
  forall t k, k < stride -> (forall s, In (t, s) pairs -> k < bs -> nth_error dst' (stride * t + k) = nth_error src (bs * s + k)) /\
    ((forall s, ~ In (t, s) pairs) \/ bs <= k -> nth_error dst' (stride * t + k) = nth_error dst (stride * t + k)).
Proof.
  intros Hb. induction pairs as [|(t0, s0) pairs IH] using rev_ind; intros dst Hp Hf.
  - exists dst. split; [reflexivity|]. split; [reflexivity|]. intros t k Hk. split; [intros s []|reflexivity].
  - destruct (IH dst) as (d1 & E & L & H).
    { intros t s Hi. apply Hp. apply in_or_app. now left. }
    { intros t s s' H1 H2. apply (Hf t); apply in_or_app; now left. }
    assert (H0 : In (t0, s0) (pairs ++ [(t0, s0)])) by (apply in_or_app; right; now left).
    destruct (Hp t0 s0 H0) as (B1 & B2). unfold copy_blocks in *. rewrite ofold_app, E. cbn [obind ofold fst snd].
    destruct (block_ok src (bs * s0) (stride * t0) bs d1 ltac:(lia) ltac:(lia)) as (d2 & E2 & L2 & G1 & G2). rewrite E2. cbn [obind]. exists d2. split; [reflexivity|]. split; [lia|].
    intros t k Hk. specialize (H t k Hk) as (H1 & H2). destruct (Nat.eq_dec t t0) as [->|N].
    + split.
      * intros s Hi Hkb. rewrite (Hf t0 s s0 Hi H0). apply G1. exact Hkb.
      * intros [Hn|Hkb]; [exfalso; exact (Hn s0 H0)|]. rewrite G2 by lia. apply H2. now right.
    + assert (G : nth_error d2 (stride * t + k) = nth_error d1 (stride * t + k)).
      { apply G2. destruct (Nat.lt_total t t0) as [Q|[Q|Q]]; [left; nia|contradiction|right; nia]. }
      rewrite G. split.
      * intros s Hi. apply H1. apply in_app_or in Hi as [Hi|[Hi|[]]]; [exact Hi|congruence].
      * intros [Hn|Hkb]; apply H2; [left|now right]. intros s Hi. apply (Hn s). apply in_or_app. now left.
Qed.

Lemma in_combine_nodes (l0 l : list nat) a b : In (a, b) (combine l0 l) -> exists i, nth_error l0 i = Some a /\ nth_error l i = Some b.
Proof.
  revert l. induction l0 as [|x l0 IH]; intros [|y l] H; cbn in H; try contradiction. destruct H as [H|H].
  - injection H as <- <-. now exists 0.
  - destruct (IH l H) as (i & H1 & H2). now exists (S i).
Qed.
Lemma nodes_in_combine (l0 l : list nat) i a b : nth_error l0 i = Some a -> nth_error l i = Some b -> In (a, b) (combine l0 l).
Proof.
  revert l i. induction l0 as [|x l0 IH]; intros [|y l] [|i] H1 H2; cbn in *; try discriminate.
  - injection H1 as <-. injection H2 as <-. now left.
  - right. now apply (IH l i).
Qed.

Lemma reorder_ok num_cells n bs dofmap0 dofmap (u : list T) : length u = bs * n -> same_nodes num_cells n dofmap0 dofmap ->
  exists v, reorder T zero num_cells bs dofmap0 dofmap u = Some v /\ length v = length u /\
  forall c i d0 d, c < num_cells -> node dofmap0 c i d0 -> node dofmap c i d -> forall j, j < bs -> nth_error v (d0 * bs + j) = nth_error u (d * bs + j).
Proof.
  intros Lu (Hr & Hn & Hf). unfold reorder.
  rewrite (omap_map _ (fun c => combine (nth c dofmap0 []) (nth c dofmap []))).
  2:{ intros c Hc. apply in_seq in Hc. destruct (Hr c ltac:(lia)) as (r0 & r & E0 & E & L). rewrite E0, E. cbn [obind]. rewrite (nth_error_nth _ _ _ E0), (nth_error_nth _ _ _ E). destruct (Nat.ltb_spec (length r) (length r0)); [lia|reflexivity]. }
  cbn [obind]. set (pairs := concat _).
  assert (Hp : forall t s, In (t, s) pairs -> exists c i, node dofmap0 c i t /\ node dofmap c i s).
  { intros t s Hi. apply in_concat in Hi as (l & Hl & Hi). apply in_map_iff in Hl as (c & <- & Hc). apply in_seq in Hc. destruct (Hr c ltac:(lia)) as (r0 & r & E0 & E & L).
    rewrite (nth_error_nth _ _ _ E0), (nth_error_nth _ _ _ E) in Hi. destruct (in_combine_nodes _ _ _ _ Hi) as (i & H1 & H2). exists c, i. split; [now exists r0|now exists r]. }
  destruct (copy_ok bs bs u (le_n bs) pairs (repeat zero (length u))) as (v & E & L & H).
  - intros t s Hi. destruct (Hp t s Hi) as (c & i & H1 & H2). destruct (Hn c i t s H1 H2). rewrite repeat_length. nia.
  - intros t s s' H1 H2. destruct (Hp t s H1) as (c & i & A1 & A2). destruct (Hp t s' H2) as (c' & i' & B1 & B2). exact (Hf c c' i i' t s s' A1 B1 A2 B2).
  - exists v. split; [exact E|]. split; [rewrite L; apply repeat_length|]. intros c i d0 d Hc N0 N j Hj. rewrite (Nat.mul_comm d0), (Nat.mul_comm d). apply (proj1 (H d0 j Hj)); [|exact Hj].
    destruct N0 as (r0 & E0 & I0), N as (r & E1 & I1). apply in_concat. exists (combine r0 r). split; [|exact (nodes_in_combine _ _ _ _ _ I0 I1)].
    apply in_map_iff. exists c. rewrite (nth_error_nth _ _ _ E0), (nth_error_nth _ _ _ E1). split; [reflexivity|apply in_seq; lia].
Qed.

Lemma cell_data_ok num_cells n bs value_shape dofmap (u : list T) : bs <= num_components value_shape -> length u = bs * n ->
  (forall c, c < num_cells -> exists d, nth_error dofmap c = Some [d] /\ d < n) ->
  exists data, vtk_cell_data T zero num_cells bs value_shape dofmap u = Some data /\ length data = num_cells * num_components value_shape /\
  forall c d, c < num_cells -> node dofmap c 0 d -> row_holds zero (num_components value_shape) bs u data c d.
Proof.
  intros Hb Lu Hr. set (nc := num_components value_shape) in *. unfold vtk_cell_data. fold nc.
  rewrite (omap_map _ (fun c => map (pair c) (nth c dofmap []))).
  2:{ intros c Hc. apply in_seq in Hc. destruct (Hr c ltac:(lia)) as (d & E & _). rewrite E. cbn [obind]. now rewrite (nth_error_nth _ _ _ E). }
  cbn [obind]. set (pairs := concat _).
  assert (Hp : forall t s, In (t, s) pairs -> t < num_cells /\ nth_error dofmap t = Some [s] /\ s < n).
  { intros t s Hi. apply in_concat in Hi as (l & Hl & Hi). apply in_map_iff in Hl as (c & <- & Hc). apply in_seq in Hc. destruct (Hr c ltac:(lia)) as (d & E & Hd).
    rewrite (nth_error_nth _ _ _ E) in Hi. destruct Hi as [Hi|[]]. injection Hi as <- <-. split; [lia|]. now split. }
  destruct (copy_ok bs nc u Hb pairs (repeat zero (num_cells * nc))) as (data & E & L & H).
  - intros t s Hi. destruct (Hp t s Hi) as (H1 & _ & H2). rewrite repeat_length. nia.
  - intros t s s' H1 H2. destruct (Hp t s H1) as (_ & A & _). destruct (Hp t s' H2) as (_ & B & _). congruence.
  - exists data. split; [exact E|]. split; [rewrite L; apply repeat_length|]. intros c d Hc (r & E1 & I1) j Hj. rewrite (Nat.mul_comm c), (Nat.mul_comm d). destruct (H c j Hj) as (H1 & H2).
    destruct (Hr c Hc) as (d' & E' & _). rewrite E1 in E'. injection E' as ->. injection I1 as ->. destruct (Nat.ltb_spec j bs) as [Q|Q].
    + apply H1; [|exact Q]. apply in_concat. exists [(c, d)]. split; [|now left]. apply in_map_iff. exists c. rewrite (nth_error_nth _ _ _ E1). split; [reflexivity|apply in_seq; lia].
    + rewrite H2 by now right. apply nth_error_repeat. nia.
Qed.

Lemma point_data_ok gdim same_space num_cells n bs value_shape dofmap0 dofmap (u : list T) : 0 < bs -> bs <= num_components value_shape -> length u = bs * n ->
  same_nodes num_cells n dofmap0 dofmap -> (same_space = true -> dofmap = dofmap0) -> (gdim = 3 -> num_components value_shape = bs) -> (gdim <> 3 -> same_space = true) ->
  exists data, vtk_point_data T zero gdim same_space true num_cells bs n bs value_shape dofmap0 dofmap u = Some data /\ length data = n * num_components value_shape /\
  point_values zero num_cells (num_components value_shape) bs dofmap0 dofmap u data.
Proof.
  intros Hb Hc Lu Hs Hsame H3 H2. unfold vtk_point_data. destruct same_space.
  - assert (Hd : forall c i d0 d, node dofmap0 c i d0 -> node dofmap c i d -> d0 = d /\ d < n).
    { rewrite (Hsame eq_refl). intros c i d0 d (r & E & I) (r' & E' & I'). rewrite E in E'. injection E' as <-. rewrite I in I'. injection I' as <-. split; [reflexivity|].
      destruct Hs as (_ & Hn & _). rewrite (Hsame eq_refl) in Hn. apply (Hn c i d0 d0); now exists r. }
    destruct (Nat.eqb_spec gdim 3) as [E|N].
    + exists u. specialize (H3 E). split; [reflexivity|]. split; [rewrite Lu, H3; lia|]. intros c i d0 d _ N0 N1 j Hj. destruct (Hd c i d0 d N0 N1) as (-> & _). destruct (Nat.ltb_spec j bs); [|lia]. now rewrite H3.
    + destruct (vtx_data_ok T zero bs n value_shape u Hb Hc Lu) as (data & E & L & H). exists data. split; [exact E|]. split; [exact L|].
      intros c i d0 d _ N0 N1 j Hj. destruct (Hd c i d0 d N0 N1) as (-> & Hlt). now apply H.
  - destruct (Nat.eqb_spec gdim 3) as [E|N]; [|discriminate (H2 N)]. specialize (H3 E).
    destruct (reorder_ok num_cells n bs dofmap0 dofmap u Lu Hs) as (v & Ev & L & H). rewrite Ev. cbn [obind]. exists v. split; [reflexivity|]. split; [rewrite L, Lu, H3; lia|].
    intros c i d0 d Hlt N0 N1 j Hj. rewrite H3 in Hj |- *. destruct (Nat.ltb_spec j bs); [|lia]. exact (H c i d0 d Hlt N0 N1 j Hj).
Qed.
End Values.
