(** The points at which a function of another mesh is needed. *)
From Verif Require Import Base BaseProofs BucketProofs Interp InterpSpec InterpWrites InterpProofs InterpEval PointOwnerProofs NonMatching NonMatchingSpec NonMatchingScatter NonMatchingProofs.

Section Coords.
Variables (T : Type) (zero : T) (add mul : T -> T -> T).

Lemma ofold_sum {I} (f : T -> I -> option T) (a b : I -> T) l : (forall s i, In i l -> f s i = Some (add s (mul (a i) (b i)))) ->
  forall s, ofold f l s = Some (dot_from T add mul s (map a l) (map b l)).
Proof.
  induction l as [|i l IH]; intros H s; [reflexivity|]. cbn [ofold map dot_from]. rewrite (H s i (or_introl eq_refl)). cbn [obind]. apply IH. intros s' i' Hi. apply H. now right.
Qed.

Variables (gdim nd : nat) (phi : list (list T)) (x_dofmap : list (list nat)) (x_g : list T) (cells : list nat).
Hypothesis dim_ok : gdim <= 3.
Hypothesis phi_ok : forall row, In row phi -> length row = nd.
Hypothesis nodes_ok : forall c, In c cells -> exists nodes, nth_error x_dofmap c = Some nodes /\ length nodes = nd /\ forall d, In d nodes -> 3 * d + 3 <= length x_g.

Lemma coordinate_dofs_spec nodes : length nodes = nd -> (forall d, In d nodes -> 3 * d + 3 <= length x_g) ->
  exists cd, coordinate_dofs T gdim x_g nodes = Some cd /\ forall k j, k < nd -> j < gdim -> nth_error cd (k * gdim + j) = Some (nth k (map (fun d => nth (3 * d + j) x_g zero) nodes) zero).
Proof.
  intros L H. unfold coordinate_dofs. rewrite (omap_map _ (fun d => firstn gdim (skipn (3 * d) x_g))).
  2: { intros d Hd. specialize (H d Hd). apply slice_some. split; [lia|]. split; [lia|]. f_equal. lia. }
  cbn [obind]. eexists. split; [reflexivity|]. intros k j Hk Hj. destruct (nth_error_lt nodes k ltac:(lia)) as (d & Hd).
  assert (Hlen : forall row, In row (map (fun d => firstn gdim (skipn (3 * d) x_g)) nodes) -> length row = gdim).
  { intros row Hr. apply in_map_iff in Hr as (d' & <- & Hd'). specialize (H d' Hd'). rewrite firstn_length_le; [reflexivity|]. rewrite skipn_length. lia. }
  rewrite (nth_error_uniform _ gdim k j (firstn gdim (skipn (3 * d) x_g)) Hlen); [|now rewrite nth_error_map_some, Hd|exact Hj].
  rewrite (nth_error_nth (map (fun d => nth (3 * d + j) x_g zero) nodes) k zero (x := nth (3 * d + j) x_g zero)) by (now rewrite nth_error_map_some, Hd).
  assert (E : forall (l : list T) m i, i < m -> nth_error (firstn m l) i = nth_error l i).
  { clear. induction l as [|x l IH]; intros [|m] [|i] Hl; cbn; auto; try lia. apply IH. lia. }
  rewrite E by exact Hj. rewrite nth_error_skipn. apply nth_error_nth'. specialize (H d (nth_error_In _ _ Hd)). lia.
Qed.

Definition point_at (o p j : nat) : T :=
  match nth_error cells o with
  | Some c => match nth_error x_dofmap c, nth_error phi p with Some nodes, Some row => node_sum T zero add mul row nodes x_g j | _, _ => zero end
  | None => zero
  end.
Let N := length cells * length phi.

Lemma coords_spec : exists x, interpolation_coords T zero add mul gdim phi x_dofmap x_g cells = Some x /\ length x = 3 * N /\
  forall o p j, o < length cells -> p < length phi -> j < 3 -> nth_error x (j * N + o * length phi + p) = Some (if j <? gdim then point_at o p j else zero).
Proof.
  unfold interpolation_coords. cbv zeta. fold N.
  set (W := fun oc : nat * nat => map (fun pj => (snd pj * N + fst oc * length phi + fst pj, point_at (fst oc) (fst pj) (snd pj))) (list_prod (seq 0 (length phi)) (seq 0 gdim))).
  assert (Ew : ofold (fun x oc => let '(offset, c) := oc in
      x_dofs <- nth_error x_dofmap c ;;
      cd <- coordinate_dofs T gdim x_g x_dofs ;;
      ofold (fun x pj => let '(p, j) := pj in
          row <- nth_error phi p ;;
          acc <- ofold (fun s k => f <- nth_error row k ;; y <- nth_error cd (k * gdim + j) ;; Some (add s (mul f y))) (seq 0 (length row)) zero ;;
          upd x (j * N + offset * length phi + p) acc)
        (list_prod (seq 0 (length phi)) (seq 0 gdim)) x)
    (combine (seq 0 (length cells)) cells) (repeat zero (3 * N)) = wr (concat (map W (combine (seq 0 (length cells)) cells))) (repeat zero (3 * N))).
  { apply ofold_writes. intros [o c] arr Hin. pose proof (enum_in cells o c Hin) as Ho. destruct (nodes_ok c (nth_error_In _ _ Ho)) as (nodes & Hn & Ln & Hd). rewrite Hn. cbn [obind].
    destruct (coordinate_dofs_spec nodes Ln Hd) as (cd & -> & Hcd). cbn [obind]. unfold W. cbn [fst snd]. rewrite <- concat_singles. apply ofold_writes.
    intros [p j] arr' Hpj. apply in_prod_iff in Hpj as (Hp & Hj). apply in_seq in Hp, Hj. destruct (nth_error_lt phi p ltac:(lia)) as (row & Hrow). rewrite Hrow. cbn [obind fst snd].
    rewrite (ofold_sum _ (fun k => nth k row zero) (fun k => nth k (map (fun d => nth (3 * d + j) x_g zero) nodes) zero)).
    - cbn [obind]. rewrite wr_one. f_equal. unfold point_at, node_sum, dot. rewrite Ho, Hn, Hrow. f_equal; [apply map_nth_seq|].
      replace (length row) with (length (map (fun d => nth (3 * d + j) x_g zero) nodes)); [apply map_nth_seq|]. rewrite map_length, Ln. symmetry. apply phi_ok. eapply nth_error_In; eauto.
    - intros s k Hk. apply in_seq in Hk. rewrite (nth_error_nth' row zero) by lia. cbn [obind]. rewrite Hcd; [reflexivity| |lia]. rewrite <- (phi_ok row (nth_error_In _ _ Hrow)). lia. }
  rewrite Ew. clear Ew. set (ws := concat _).
  assert (Hws : forall a v, In (a, v) ws <-> exists o p j, o < length cells /\ p < length phi /\ j < gdim /\ a = j * N + o * length phi + p /\ v = point_at o p j).
  { intros a v. unfold ws. rewrite in_concat. split.
    - intros (l & Hl & Hin). apply in_map_iff in Hl as ([o c] & <- & Ho). apply enum_in in Ho. unfold W in Hin. apply in_map_iff in Hin as ([p j] & E & Hpj). cbn in E. injection E as <- <-.
      apply in_prod_iff in Hpj as (Hp & Hj). apply in_seq in Hp, Hj. exists o, p, j. split; [eapply nth_error_bound; eauto|]. split; [lia|]. split; [lia|]. auto.
    - intros (o & p & j & Ho & Hp & Hj & -> & ->). destruct (nth_error_lt cells o Ho) as (c & Hc). exists (W (o, c)). split.
      + apply in_map. apply (nth_error_In _ o). exact (nth_error_enum cells 0 o c Hc).
      + unfold W. apply in_map_iff. exists (p, j). split; [reflexivity|]. apply in_prod_iff. split; apply in_seq; lia. }
  assert (HN : forall o p, o < length cells -> p < length phi -> o * length phi + p < N). { intros o p Ho Hp. unfold N. nia. }
  destruct (wr_spec ws (repeat zero (3 * N))) as (x & Ex & Lx & Nx).
  { intros [a v] Hin. apply Hws in Hin as (o & p & j & Ho & Hp & Hj & -> & _). cbn [fst]. rewrite repeat_length. specialize (HN o p Ho Hp). nia. }
  exists x. split; [exact Ex|]. rewrite repeat_length in Lx. split; [exact Lx|]. intros o p j Ho Hp Hj. pose proof (HN o p Ho Hp) as Hop. rewrite Nx. destruct (Nat.ltb_spec j gdim) as [L|G].
  - rewrite (lastv_fun _ (point_at o p j) ws); [reflexivity|apply Hws; exists o, p, j; auto 8|].
    intros v' Hv. apply Hws in Hv as (o' & p' & j' & Ho' & Hp' & Hj' & E & ->). pose proof (HN o' p' Ho' Hp') as Hop'. rewrite <- !Nat.add_assoc in E.
    destruct (digits_inj _ _ _ _ _ Hop Hop' E) as (<- & E'). destruct (digits_inj _ _ _ _ _ Hp Hp' E') as (<- & <-). reflexivity.
  - rewrite (proj2 (lastv_none _ _)); [apply nth_error_repeat; nia|]. intros v' Hv. apply Hws in Hv as (o' & p' & j' & Ho' & Hp' & Hj' & E & ->). pose proof (HN o' p' Ho' Hp') as Hop'. rewrite <- !Nat.add_assoc in E.
    destruct (digits_inj _ _ _ _ _ Hop Hop' E) as (<- & _). lia.
Qed.

Lemma data_points_spec (coords : list T) n : length coords = 3 * n ->
  exists pts, data_points T zero coords = Some pts /\ length pts = n /\ forall i, i < n -> nth_error pts i = Some (nth i coords zero, nth (n + i) coords zero, nth (2 * n + i) coords zero).
Proof.
  intro L. unfold data_points. rewrite L. replace (3 * n / 3) with n by (rewrite Nat.mul_comm, Nat.div_mul; lia).
  assert (Ew : ofold (fun x ij => let '(i, j) := ij in v <- nth_error coords (i + j * n) ;; upd x (3 * i + j) v) (list_prod (seq 0 n) (seq 0 3)) (repeat zero (3 * n))
    = wr (concat (map (fun ij => [(3 * fst ij + snd ij, nth (fst ij + snd ij * n) coords zero)]) (list_prod (seq 0 n) (seq 0 3)))) (repeat zero (3 * n))).
  { apply ofold_writes. intros [i j] arr Hin. apply in_prod_iff in Hin as (Hi & Hj). apply in_seq in Hi, Hj. cbn [fst snd]. rewrite (nth_error_nth' coords zero) by nia. cbn [obind]. now rewrite wr_one. }
  rewrite Ew, concat_singles, (list_prod_seq n 3), map_map by lia. clear Ew. cbn [fst snd].
  rewrite wr_all.
  2: { rewrite map_map, repeat_length. cbn [fst]. rewrite (Nat.mul_comm 3 n). rewrite <- (map_id (seq 0 (n * 3))) at 2. apply map_ext. intro m. symmetry. now apply Nat.div_mod. }
  cbn [obind]. rewrite map_map. cbn [snd].
  assert (Hn : forall i j, i < n -> j < 3 -> nth_error (map (fun m => nth (m / 3 + m mod 3 * n) coords zero) (seq 0 (n * 3))) (3 * i + j) = Some (nth (j * n + i) coords zero)).
  { intros i j Hi Hj. rewrite nth_error_map_some, nth_error_seq by lia. cbn [option_map plus]. do 2 f_equal.
    replace ((3 * i + j) / 3) with i by (apply (Nat.div_unique _ 3 _ j); lia). replace ((3 * i + j) mod 3) with j by (apply (Nat.mod_unique _ 3 i); lia). lia. }
  rewrite (omap_map _ (fun i => (nth i coords zero, nth (n + i) coords zero, nth (2 * n + i) coords zero))).
  - eexists. split; [reflexivity|]. split; [now rewrite map_length, seq_length|]. intros i Hi. rewrite nth_error_map_some, nth_error_seq by exact Hi. reflexivity.
  - intros i Hi. apply in_seq in Hi. pose proof (Hn i 0 ltac:(lia) ltac:(lia)) as H0. rewrite Nat.add_0_r in H0. rewrite H0, (Hn i 1), (Hn i 2) by lia. cbn [obind]. do 3 f_equal. f_equal. f_equal; lia.
Qed.

Lemma points_spec : exists x pts, interpolation_coords T zero add mul gdim phi x_dofmap x_g cells = Some x /\ data_points T zero x = Some pts /\ length pts = length cells * length phi /\
  forall o c nodes p row, nth_error cells o = Some c -> nth_error x_dofmap c = Some nodes -> nth_error phi p = Some row ->
    let coordinate j := if j <? gdim then node_sum T zero add mul row nodes x_g j else zero in
    nth_error pts (o * length phi + p) = Some (coordinate 0, coordinate 1, coordinate 2).
Proof.
  destruct coords_spec as (x & Ex & Lx & Nx). destruct (data_points_spec x N Lx) as (pts & Ep & Lp & Np). exists x, pts. split; [exact Ex|]. split; [exact Ep|]. split; [exact Lp|].
  intros o c nodes p row Ho Hn Hp coordinate. assert (Lo := nth_error_bound _ _ _ Ho). assert (Lphi := nth_error_bound _ _ _ Hp).
  rewrite Np by (unfold N; nia).
  assert (G : forall j, j < 3 -> nth (j * N + (o * length phi + p)) x zero = coordinate j).
  { intros j Hj. apply nth_error_nth. rewrite Nat.add_assoc, (Nx o p j Lo Lphi Hj). unfold coordinate, point_at. now rewrite Ho, Hn, Hp. }
  rewrite <- (G 0), <- (G 1), <- (G 2) by lia. cbn [Nat.mul plus]. now rewrite Nat.add_0_r.
Qed.
End Coords.
