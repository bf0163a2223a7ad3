(** Function::eval computes the expansion at each point. *)
From Verif Require Import Base BaseProofs Interp InterpSpec InterpWrites InterpProofs.

Section Eval.
Variables (T : Type) (zero : T) (add mul : T -> T -> T).

Lemma fold_expansion {I} (a b : I -> T) l : forall s, fold_left add (map (fun i => mul (a i) (b i)) l) s = dot_from T add mul s (map a l) (map b l).
Proof. induction l as [|i l IH]; intro s; cbn; auto. Qed.

Lemma adds_nil {I} q (G : I -> list (nat * T)) l : (forall i, In i l -> adds_at q (G i) = []) -> adds_at q (concat (map G l)) = [].
Proof.
  induction l as [|k l IH]; intro H; [reflexivity|]. cbn [map concat]. rewrite adds_app, (H k (or_introl eq_refl)), IH; [reflexivity|]. intros; apply H; now right.
Qed.
Lemma adds_grid q (G : nat * nat -> list (nat * T)) (e : nat -> T) sd vs j0 : j0 < vs ->
  (forall i j, i < sd -> j < vs -> adds_at q (G (i, j)) = if j =? j0 then [e i] else []) ->
  adds_at q (concat (map G (list_prod (seq 0 sd) (seq 0 vs)))) = map e (seq 0 sd).
Proof.
  intros Hj H. assert (K : forall l, (forall i, In i l -> i < sd) -> adds_at q (concat (map G (list_prod l (seq 0 vs)))) = map e l).
  { induction l as [|i l IH]; intro Hl; [reflexivity|]. cbn [list_prod map]. rewrite map_app, concat_app, adds_app, IH by (intros; apply Hl; now right).
    rewrite map_map. rewrite (adds_concat_one q (fun j => G (i, j)) vs j0 Hj).
    - rewrite H, Nat.eqb_refl by (try apply Hl; cbn; auto). reflexivity.
    - intros j Lj Nj. rewrite H by (try apply Hl; cbn; auto). destruct (Nat.eqb_spec j j0); congruence. }
  apply K. intros i Hi. apply in_seq in Hi. lia.
Qed.

Variables (bs sd vs : nat) (symmetric : bool) (n width : nat).
Hypothesis shape : if symmetric then vs = 1 /\ width = n * n /\ 2 * bs = n * (n + 1) else width = bs * vs.

Definition ent (coefficients : list T) (B : list (list T)) (k i j : nat) : T := mul (nth (bs * i + k) coefficients zero) (nth j (nth i B []) zero).
Definition targets (base k j : nat) : list nat :=
  if symmetric then (base + (j * bs + fst (rr k) * n + k - snd (rr k))) ::
    (if k - snd (rr k) =? fst (rr k) then [] else [base + (j * bs + fst (rr k) + n * (k - snd (rr k)))])
  else [base + (j * bs + k)].
Definition adds (base : nat) (coefficients : list T) (B : list (list T)) (k : nat) : list (nat * T) :=
  concat (map (fun ij => map (fun t => (t, ent coefficients B k (fst ij) (snd ij))) (targets base k (snd ij))) (list_prod (seq 0 sd) (seq 0 vs))).

Lemma targets_bound base k j t : k < bs -> j < vs -> In t (targets base k j) -> base <= t < base + width.
Proof.
  intros Hk Hj. unfold targets. destruct symmetric.
  - destruct shape as (-> & -> & Hb). assert (j = 0) as -> by lia. destruct (component_rr n k ltac:(lia)) as (L & (r & c & H1 & H2 & H3 & H4)).
    destruct (rr_component k n r c H1 H3) as (E & E2). rewrite E in *. cbn [fst snd] in *.
    assert (Ek : k - (k - c) = c) by (clear -H1 H3; nia). rewrite Ek. clear Ek. cbn [Nat.mul plus]. intros [<-|Hin].
    + assert (n * r + c < n * n) by (clear -H1 H2; nia). lia.
    + destruct (Nat.eqb_spec c r); [destruct Hin|]. destruct Hin as [<-|[]]. assert (r + n * c < n * n) by (clear -H1 H2; nia). lia.
  - intros [<-|[]]. rewrite shape. nia.
Qed.

(** Which component of which coefficient ends where. *)
Lemma targets_hit base comp k0 j0 k j : comp < width -> holds symmetric n bs comp k0 j0 -> k < bs -> j < vs ->
  filter (fun t => t =? base + comp) (targets base k j) = if (k =? k0) && (j =? j0) then [base + comp] else [].
Proof.
  intros Hc Hh Hk Hj. unfold targets, holds in *. destruct symmetric.
  - destruct shape as (-> & -> & Hb). assert (j = 0) as -> by lia. destruct Hh as (-> & r0 & c0 & R1 & R2 & -> & R4).
    destruct (component_rr n k ltac:(lia)) as (L & (r & c & H1 & H2 & H3 & H4)).
    destruct (rr_component k n r c H1 H3) as (E & E2). rewrite E in *. cbn [fst snd] in *.
    assert (Ek : k - (k - c) = c) by (clear -H1 H3; nia). rewrite Ek. clear Ek. cbn [Nat.mul plus]. rewrite E2. rewrite andb_true_r.
    assert (U : forall a b, a < n -> b < n -> n * a + b = n * r0 + c0 -> a = r0 /\ b = c0) by (clear -R1 R2; intros a b Ha Hb' Hab; assert (a = r0) by nia; subst a; lia).
    assert (V : (k =? k0) = true -> (r = r0 /\ c = c0) \/ (r = c0 /\ c = r0)).
    { intro K. apply Nat.eqb_eq in K. subst k0. destruct (Nat.le_ge_cases c0 r0) as [Q|Q].
      - rewrite Nat.max_l, Nat.min_r in R4 by exact Q. left. assert (r = r0) by nia. split; nia.
      - rewrite Nat.max_r, Nat.min_l in R4 by exact Q. right. assert (r = c0) by nia. split; nia. }
    assert (X : forall a b, a = b -> base + a = base + b) by (intros; lia).
    cbn [filter]. destruct (Nat.eqb_spec (base + (n * r + c)) (base + (n * r0 + c0))) as [E3|N3].
    + destruct (U r c ltac:(lia) ltac:(lia) ltac:(lia)) as (-> & ->).
      rewrite Nat.max_l, Nat.min_r in R4 by exact H1. assert (k = k0) as -> by lia. rewrite Nat.eqb_refl. f_equal.
      destruct (Nat.eqb_spec c0 r0) as [|Ne]; [reflexivity|]. cbn [filter]. destruct (Nat.eqb_spec (base + (r0 + n * c0)) (base + (n * r0 + c0))) as [E4|]; [|reflexivity].
      destruct (U c0 r0 ltac:(lia) ltac:(lia) ltac:(lia)). lia.
    + destruct (Nat.eqb_spec c r) as [->|Ne]; cbn [filter].
      * destruct (k =? k0) eqn:K; [|reflexivity]. destruct (V eq_refl) as [[-> ->]|[-> ->]]; exfalso; apply N3; lia.
      * destruct (Nat.eqb_spec (base + (r + n * c)) (base + (n * r0 + c0))) as [E4|N4].
        -- destruct (U c r ltac:(lia) ltac:(lia) ltac:(lia)) as (-> & ->). rewrite Nat.max_r, Nat.min_l in R4 by lia. assert (k = k0) as -> by lia.
           rewrite Nat.eqb_refl. now rewrite E4.
        -- destruct (k =? k0) eqn:K; [|reflexivity]. destruct (V eq_refl) as [[-> ->]|[-> ->]]; exfalso; [apply N3|apply N4]; lia.
  - destruct Hh as (Hk0 & ->). cbn [filter]. destruct (Nat.eqb_spec (base + (j * bs + k)) (base + (j0 * bs + k0))) as [E|N].
    + assert (j = j0 /\ k = k0) as (-> & ->) by (assert (X : j * bs + k = j0 * bs + k0) by lia; clear -X Hk Hk0; assert (j = j0) by nia; subst j; lia). now rewrite !Nat.eqb_refl.
    + destruct (Nat.eqb_spec k k0) as [->|]; [|reflexivity]. destruct (Nat.eqb_spec j j0) as [->|]; [|reflexivity]. congruence.
Qed.

Lemma holds_range comp k j : comp < width -> holds symmetric n bs comp k j -> k < bs /\ j < vs.
Proof.
  unfold holds. intros Hc H. destruct symmetric.
  - destruct shape as (-> & -> & Hb). destruct H as (-> & r & c & R1 & R2 & -> & R4). split; [|lia].
    destruct (Nat.le_ge_cases c r) as [Q|Q]; [rewrite Nat.max_l, Nat.min_r in R4 by exact Q|rewrite Nat.max_r, Nat.min_l in R4 by exact Q]; nia.
  - destruct H as (H & ->). split; [exact H|]. rewrite shape in Hc. nia.
Qed.

Lemma adds_filter base coefficients B comp k0 j0 : comp < width -> holds symmetric n bs comp k0 j0 ->
  adds_at (base + comp) (concat (map (adds base coefficients B) (seq 0 bs))) = map (fun i => ent coefficients B k0 i j0) (seq 0 sd).
Proof.
  intros Hc Hh. destruct (holds_range _ _ _ Hc Hh) as (Hk & Hj).
  assert (F : forall k i j, k < bs -> j < vs ->
     adds_at (base + comp) (map (fun t => (t, ent coefficients B k i j)) (targets base k j)) = if (k =? k0) && (j =? j0) then [ent coefficients B k i j] else []).
  { intros k i j Lk Lj. pose proof (targets_hit base comp k0 j0 k j Hc Hh Lk Lj) as Q. unfold adds_at.
    assert (Z : forall l, filter (fun pv : nat * T => fst pv =? base + comp) (map (fun t => (t, ent coefficients B k i j)) l) = map (fun t => (t, ent coefficients B k i j)) (filter (fun t => t =? base + comp) l)).
    { induction l as [|t l IH]; [reflexivity|]. cbn. destruct (t =? base + comp); cbn; now rewrite IH. }
    rewrite Z, Q. now destruct ((k =? k0) && (j =? j0)). }
  rewrite (adds_concat_one (base + comp) (adds base coefficients B) bs k0 Hk).
  - unfold adds. apply (adds_grid (base + comp) _ (fun i => ent coefficients B k0 i j0) sd vs j0 Hj).
    intros i j Hi Lj. cbn [fst snd]. rewrite (F k0 i j Hk Lj), Nat.eqb_refl. cbn [andb]. destruct (Nat.eqb_spec j j0) as [->|]; reflexivity.
  - intros k Lk Nk. unfold adds. apply adds_nil. intros [i j] Hin. apply in_prod_iff in Hin as (Hi & Lj). apply in_seq in Lj. cbn [fst snd].
    rewrite (F k i j Lk ltac:(lia)). destruct (Nat.eqb_spec k k0); [congruence|reflexivity].
Qed.

Lemma eval_point_acc p coefficients B u : length coefficients = sd * bs -> length B = sd -> (forall row, In row B -> length row = vs) ->
  eval_point T add mul bs sd vs symmetric p width coefficients B u = acc add (concat (map (adds (p * width) coefficients B) (seq 0 bs))) u.
Proof.
  intros Hc HB Hrow. unfold eval_point.
  assert (A1 : forall k i j u t, k < bs -> i < sd -> j < vs -> add_to T add mul bs coefficients B k i j u t = acc add [(t, ent coefficients B k i j)] u).
  { intros k i j a t Hk Hi Hj. unfold add_to. rewrite (nth_error_nth' coefficients zero) by nia. cbn [obind].
    assert (Li : i < length B) by lia. rewrite (nth_error_nth' B []) by exact Li. cbn [obind]. rewrite (nth_error_nth' _ zero) by (rewrite Hrow; [exact Hj|now apply nth_In]).
    unfold acc. cbn [ofold fst snd obind]. unfold ent. now destruct (modify a t _). }
  assert (G : forall m s a, s + m <= bs ->
     ofold (fun st k => let '(rr, u) := st in
        let '(row, rowstart) := next_row k rr in
        u' <- ofold (fun u ij => let '(i, j) := ij in
            if symmetric then
              u' <- add_to T add mul bs coefficients B k i j u (p * width + (j * bs + row * matrix_size width + k - rowstart)) ;;
              if k - rowstart =? row then Some u'
              else add_to T add mul bs coefficients B k i j u' (p * width + (j * bs + row + matrix_size width * (k - rowstart)))
            else add_to T add mul bs coefficients B k i j u (p * width + (j * bs + k)))
          (list_prod (seq 0 sd) (seq 0 vs)) u ;;
        Some ((row, rowstart), u')) (seq s m) (match s with 0 => (0, 0) | S s' => rr s' end, a)
     = (a' <- acc add (concat (map (adds (p * width) coefficients B) (seq s m))) a ;;
        Some (match s + m with 0 => (0, 0) | S s' => rr s' end, a'))).
  { induction m as [|m IH]; intros s a Hj.
    - cbn. now rewrite Nat.add_0_r.
    - cbn [seq ofold map concat]. rewrite acc_app.
      assert (R : next_row s (match s with 0 => (0, 0) | S s' => rr s' end) = rr s). { destruct s; [reflexivity|]. symmetry. apply rr_S. }
      rewrite R. destruct (rr s) as [row start] eqn:Er.
      rewrite (ofold_accs add _ (fun ij => map (fun t => (t, ent coefficients B s (fst ij) (snd ij))) (targets (p * width) s (snd ij)))).
      + fold (adds (p * width) coefficients B s). destruct (acc add (adds (p * width) coefficients B s) a) as [a1|]; cbn [obind]; [|reflexivity].
        specialize (IH (S s) a1 ltac:(lia)). cbn beta iota in IH. rewrite Er in IH. etransitivity; [exact IH|]. now replace (s + S m) with (S s + m) by lia.
      + intros [i j] b Hin. apply in_prod_iff in Hin as (Hi & Lj). apply in_seq in Hi, Lj. cbn [fst snd]. unfold targets. rewrite Er. cbn [fst snd].
        assert (M : symmetric = true -> matrix_size width = n). { intro Q. rewrite Q in shape. destruct shape as (_ & -> & _). apply matrix_size_square. }
        destruct symmetric.
        * rewrite (M eq_refl). rewrite A1 by lia. cbn [map]. destruct (s - start =? row) eqn:E.
          -- now destruct (acc add _ b).
          -- change ((p * width + (j * bs + row * n + s - start), ent coefficients B s i j) :: map _ _) with
               ([(p * width + (j * bs + row * n + s - start), ent coefficients B s i j)] ++ [(p * width + (j * bs + row + n * (s - start)), ent coefficients B s i j)]).
             rewrite acc_app. destruct (acc add [_] b) as [b'|]; [|reflexivity]. cbn [obind]. apply A1; lia.
        * apply A1; lia. }
  specialize (G bs 0 u ltac:(lia)). cbn beta iota in G. etransitivity; [apply (f_equal (fun z => '(_, a') <- z ;; Some a')); exact G|].
  destruct (acc add _ u) as [a'|]; reflexivity.
Qed.

Lemma eval_point_spec p coefficients B u : length coefficients = sd * bs -> length B = sd -> (forall row, In row B -> length row = vs) ->
  p * width + width <= length u -> (forall comp, comp < width -> nth_error u (p * width + comp) = Some zero) ->
  exists u', eval_point T add mul bs sd vs symmetric p width coefficients B u = Some u' /\ length u' = length u /\
    (forall q, (q < p * width \/ p * width + width <= q) -> nth_error u' q = nth_error u q) /\
    (forall comp k j, comp < width -> holds symmetric n bs comp k j -> nth_error u' (p * width + comp) = Some (expansion T zero add mul bs sd coefficients B k j)).
Proof.
  intros Hc HB Hrow Hu Hz. rewrite eval_point_acc by assumption.
  assert (Hr : forall pv, In pv (concat (map (adds (p * width) coefficients B) (seq 0 bs))) -> p * width <= fst pv < p * width + width).
  { intros pv H. apply in_concat in H as (l & Hl & H). apply in_map_iff in Hl as (k & <- & Hk). unfold adds in H. apply in_concat in H as (l & Hl & H).
    apply in_map_iff in Hl as ([i j] & <- & Hij). apply in_map_iff in H as (t & <- & Ht). cbn [fst snd] in *. apply in_prod_iff in Hij as (Hi & Hj). apply in_seq in Hj, Hk.
    eapply targets_bound; [| |exact Ht]; lia. }
  destruct (acc_spec add (concat (map (adds (p * width) coefficients B) (seq 0 bs))) u) as (u' & E & L & N).
  { intros pv H. specialize (Hr _ H). lia. }
  exists u'. split; [exact E|]. split; [exact L|]. split.
  - intros q Hq. rewrite N. assert (Z : adds_at q (concat (map (adds (p * width) coefficients B) (seq 0 bs))) = []).
    { unfold adds_at. destruct (filter _ _) as [|pv l] eqn:F; [reflexivity|]. exfalso. assert (In pv (pv :: l)) as I by now left. rewrite <- F in I.
      apply filter_In in I as (I & K). apply Nat.eqb_eq in K. specialize (Hr _ I). lia. }
    rewrite Z. cbn [fold_left]. now destruct (nth_error u q).
  - intros comp k j Hcomp Hh. rewrite N, (Hz comp Hcomp). cbn [option_map]. rewrite (adds_filter _ _ _ _ _ _ Hcomp Hh). unfold ent. now rewrite fold_expansion.
Qed.

Variables (A : Type) (basis : nat -> A -> list (list T)) (bs_dof : nat) (dofmap : list (list nat)) (v : list T).

Lemma eval_spec points cells u :
  length points = length cells -> length u = length points * width ->
  dofmap_fits bs_dof dofmap (sd * bs) (length v) (concat (map (fun oc : option nat => match oc with Some c => [c] | None => [] end) cells)) ->
  (forall c x, length (basis c x) = sd /\ forall row, In row (basis c x) -> length row = vs) ->
  exists u', eval T zero add mul A basis bs sd vs bs_dof symmetric dofmap v points cells u width = Some u' /\ length u' = length u /\
    forall p x oc, nth_error points p = Some x -> nth_error cells p = Some oc -> forall comp k j, comp < width -> holds symmetric n bs comp k j ->
      nth_error u' (p * width + comp) = Some (match oc with
        | Some c => expansion T zero add mul bs sd (cell_coefficients T zero bs_dof dofmap (sd * bs) v c) (basis c x) k j
        | None => zero
        end).
Proof.
  intros Hlen Hu (Hb & Hf) HB. unfold eval. destruct cells as [|oc0 cells0].
  - exists u. split; [reflexivity|]. split; [reflexivity|]. intros [|p] x oc _ H; discriminate.
  - set (cells := oc0 :: cells0) in *. rewrite Hu, Nat.eqb_refl, Hlen, Nat.eqb_refl. cbn [negb orb].
    set (items := combine (seq 0 (length cells)) (combine points cells)).
    assert (HI : forall p x oc, nth_error points p = Some x -> nth_error cells p = Some oc -> nth_error items p = Some (p, (x, oc))).
    { intros p x oc H1 H2. unfold items.
      assert (C : nth_error (combine points cells) p = Some (x, oc)).
      { clear -H1 H2. revert p H1 H2. generalize cells as ll. induction points as [|y ps IH]; intros [|z cs] [|p] H1 H2; try discriminate; cbn in *; [congruence|]. now apply IH. }
      replace (length cells) with (length (combine points cells)) by (rewrite combine_length; lia). now rewrite (nth_error_enum _ 0 _ _ C). }
    assert (Litems : length items = length cells). { unfold items. rewrite !combine_length, seq_length. lia. }
    destruct (ofold_prefix_ind (fun u pxc => let '(p, (x, oc)) := pxc in
        match oc with
        | None => Some u
        | Some c =>
          dofs <- nth_error dofmap c ;;
          coefficients <- gather T zero bs_dof dofs (sd * bs) v ;;
          eval_point T add mul bs sd vs symmetric p width coefficients (basis c x) u
        end)
      (fun pre u' => length u' = length cells * width /\
        (forall p comp, length pre <= p -> p < length cells -> comp < width -> nth_error u' (p * width + comp) = Some zero) /\
        (forall p x oc, p < length pre -> nth_error points p = Some x -> nth_error cells p = Some oc -> forall comp k j, comp < width -> holds symmetric n bs comp k j ->
          nth_error u' (p * width + comp) = Some (match oc with
            | Some c => expansion T zero add mul bs sd (cell_coefficients T zero bs_dof dofmap (sd * bs) v c) (basis c x) k j
            | None => zero
            end))) items (repeat zero (length cells * width))) as (u' & E & H1 & _ & H3).
    + split; [apply repeat_length|]. split; [|intros p x oc H; cbn in H; lia].
      intros p comp _ Hp Hc. apply nth_error_repeat. nia.
    + intros pre [p [x oc]] q a Hsplit (I1 & I2 & I3).
      assert (Hp : nth_error items (length pre) = Some (p, (x, oc))). { rewrite Hsplit, nth_error_app2, Nat.sub_diag by lia. reflexivity. }
      assert (Lp : length pre < length cells). { rewrite <- Litems. eapply nth_error_bound; eauto. }
      destruct (nth_error_lt points (length pre) ltac:(lia)) as (x' & Hx'). destruct (nth_error_lt cells (length pre) Lp) as (oc' & Hoc').
      pose proof (HI _ _ _ Hx' Hoc') as Q. rewrite Hp in Q. injection Q as -> -> ->.
      destruct oc' as [c|].
      * assert (Hc : In c (concat (map (fun oc : option nat => match oc with Some c => [c] | None => [] end) cells))).
        { apply in_concat. exists [c]. split; [|now left]. apply in_map_iff. exists (Some c). split; [reflexivity|]. eapply nth_error_In; eauto. }
        destruct (Hf c Hc) as (dofs & Hn & Hl & Hd). rewrite Hn. cbn [obind]. rewrite (gather_spec T zero bs_dof dofmap c dofs (sd * bs) v Hn Hb Hl Hd). cbn [obind].
        destruct (HB c x') as (HB1 & HB2).
        destruct (eval_point_spec (length pre) (cell_coefficients T zero bs_dof dofmap (sd * bs) v c) (basis c x') a) as (a' & E & L & S1 & S2); auto.
        { unfold cell_coefficients. now rewrite map_length, seq_length. }
        { rewrite I1. nia. }
        exists a'. split; [exact E|]. rewrite app_length. cbn [length]. split; [now rewrite L|]. split.
        -- intros p comp Hp1 Hp2 Hcomp. rewrite S1 by (right; nia). apply I2; lia.
        -- intros p y oc Hlt Hy Hoc comp k j Hcomp Hh. destruct (Nat.eq_dec p (length pre)) as [->|Ne].
           ++ rewrite Hx' in Hy. injection Hy as <-. rewrite Hoc' in Hoc. injection Hoc as <-. now apply S2.
           ++ rewrite S1 by (left; nia). apply (I3 p y oc); auto. lia.
      * exists a. split; [reflexivity|]. rewrite app_length. cbn [length]. split; [exact I1|]. split.
        -- intros p comp Hp1 Hp2 Hcomp. apply I2; lia.
        -- intros p y oc Hlt Hy Hoc comp k j Hcomp Hh. destruct (Nat.eq_dec p (length pre)) as [->|Ne].
           ++ rewrite Hoc' in Hoc. injection Hoc as <-. apply I2; auto.
           ++ apply (I3 p y oc); auto. lia.
    + exists u'. split; [exact E|]. split; [lia|]. intros p x oc Hx Hoc. apply (H3 p x oc); auto. rewrite Litems. eapply nth_error_bound; eauto.
Qed.
End Eval.
