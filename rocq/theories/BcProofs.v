(** Proofs about Dirichlet boundary conditions. *)
From Coq Require Import Ring.
From Verif Require Import Base BaseProofs Algo AlgoProofs DirichletBC.
Open Scope nat_scope.

(** The dofs of the blocks [dofs]. *)
Definition blocks (bs : nat) (dofs : list nat) : list nat := concat (map (fun d => map (fun k => bs * d + k) (seq 0 bs)) dofs).
Lemma blocks_length bs dofs : length (blocks bs dofs) = bs * length dofs.
Proof. unfold blocks. induction dofs as [|d dofs IH]; cbn [map concat length]; [lia|]. rewrite app_length, IH, map_length, seq_length. lia. Qed.
Lemma blocks_in bs dofs x : In x (blocks bs dofs) <-> exists d c, In d dofs /\ c < bs /\ x = bs * d + c.
Proof.
  unfold blocks. rewrite in_concat. split.
  - intros (l & Hl & Hx). apply in_map_iff in Hl as (d & <- & Hd). apply in_map_iff in Hx as (c & <- & Hc). apply in_seq in Hc. exists d, c. repeat split; auto; lia.
  - intros (d & c & Hd & Hc & ->). eexists. split; [apply in_map_iff; exists d; split; [reflexivity|exact Hd]|]. apply in_map_iff. exists c. split; [reflexivity|]. apply in_seq. lia.
Qed.
Lemma SS_app {X} (R : X -> X -> Prop) a b : StronglySorted R a -> StronglySorted R b -> (forall x y, In x a -> In y b -> R x y) -> StronglySorted R (a ++ b).
Proof.
  induction a as [|x a IH]; intros Ha Hb H; [exact Hb|]. inversion Ha as [|? ? Ha' Hf]; subst. cbn. constructor.
  - apply IH; auto. intros; apply H; [now right|assumption].
  - apply Forall_app. split; [exact Hf|]. apply Forall_forall. intros y Hy. apply H; [now left|exact Hy].
Qed.
Lemma blocks_sorted bs dofs : StronglySorted lt dofs -> StronglySorted lt (blocks bs dofs).
Proof.
  unfold blocks. induction 1 as [|d dofs Hs IH Hf]; cbn [map concat]; [constructor|]. apply SS_app; [|exact IH|].
  - clear. generalize 0. induction bs as [|bs IH] using nat_ind; intro s; [constructor|]. generalize (S bs) at 1 as B. intro B. clear IH. revert s. generalize (S bs). intro n. induction n as [|n IH]; intro s; cbn [seq map]; [constructor|]. constructor; [apply IH|]. apply Forall_forall. intros x Hx. apply in_map_iff in Hx as (k & <- & Hk). apply in_seq in Hk. lia.
  - intros x y Hx Hy. apply in_map_iff in Hx as (k & <- & Hk). apply in_seq in Hk. fold (blocks bs dofs) in Hy. apply blocks_in in Hy as (d' & c & Hd' & Hc & ->). rewrite Forall_forall in Hf. specialize (Hf d' Hd').
    assert (bs * S d <= bs * d') by (apply Nat.mul_le_mono_l; lia). lia.
Qed.

Lemma upd_mid {X} (a : list X) y b v : upd (a ++ y :: b) (length a) v = Some (a ++ v :: b).
Proof. induction a as [|x a IH]; [reflexivity|]. cbn [app length upd]. rewrite IH. reflexivity. Qed.
Lemma unroll_ok dofs bs : unroll_dofs dofs bs = Some (blocks bs dofs).
Proof.
  unfold unroll_dofs.
  destruct (ofold_prefix_ind (fun out i => ofold (fun out k => d <- nth_error dofs i ;; upd out (bs * i + k) (bs * d + k)) (seq 0 bs) out)
    (fun p out => out = blocks bs (firstn (length p) dofs) ++ repeat 0 (bs * (length dofs - length p))) (seq 0 (length dofs)) (repeat 0 (bs * length dofs))) as (out & E & ->).
  - cbn. now rewrite Nat.sub_0_r.
  - intros p i q out Eq ->. assert (Hi : i = length p /\ i < length dofs).
    { assert (El : length (seq 0 (length dofs)) = length (p ++ i :: q)) by now rewrite Eq. rewrite seq_length, app_length in El. cbn in El. assert (En : nth_error (seq 0 (length dofs)) (length p) = Some i) by (rewrite Eq, nth_error_app2, Nat.sub_diag by lia; reflexivity).
      rewrite (nth_error_nth' _ 0) in En by (rewrite seq_length; lia). rewrite seq_nth in En by lia. injection En as <-. lia. }
    destruct Hi as (-> & Hi). destruct (nth_error_lt dofs (length p) Hi) as (d & Ed). rewrite app_length. cbn [length].
    destruct (ofold_prefix_ind (fun out k => d <- nth_error dofs (length p) ;; upd out (bs * length p + k) (bs * d + k))
      (fun ks out => out = (blocks bs (firstn (length p) dofs) ++ map (fun k => bs * d + k) ks) ++ repeat 0 (bs * (length dofs - length p) - length ks)) (seq 0 bs) (blocks bs (firstn (length p) dofs) ++ repeat 0 (bs * (length dofs - length p)))) as (out & E & ->).
    + cbn. now rewrite Nat.sub_0_r, app_nil_r.
    + intros ks k q' out Ek ->. assert (Hk : k = length ks /\ k < bs).
      { assert (El : length (seq 0 bs) = length (ks ++ k :: q')) by now rewrite Ek. rewrite seq_length, app_length in El. cbn in El. assert (En : nth_error (seq 0 bs) (length ks) = Some k) by (rewrite Ek, nth_error_app2, Nat.sub_diag by lia; reflexivity).
        rewrite (nth_error_nth' _ 0) in En by (rewrite seq_length; lia). rewrite seq_nth in En by lia. injection En as <-. lia. }
      destruct Hk as (-> & Hk). rewrite Ed. cbn [obind].
      assert (Hb : bs * 1 <= bs * (length dofs - length p)) by (apply Nat.mul_le_mono_l; lia). remember (bs * (length dofs - length p) - length ks) as n eqn:En. destruct n as [|n]; [lia|]. cbn [repeat].
      replace (bs * length p + length ks) with (length (blocks bs (firstn (length p) dofs) ++ map (fun k => bs * d + k) ks)) by (rewrite app_length, map_length, blocks_length, firstn_length_le by lia; reflexivity).
      rewrite upd_mid. eexists. split; [reflexivity|]. rewrite map_app. cbn [map]. rewrite (app_length ks [length ks]). cbn [length]. rewrite <- !app_assoc. cbn [app].
      assert (Ez : bs * (length dofs - length p) - (length ks + 1) = n) by lia. rewrite Ez. reflexivity.
    + rewrite seq_length in E. eexists. split; [exact E|]. rewrite Nat.add_1_r.
      assert (Ef : firstn (S (length p)) dofs = firstn (length p) dofs ++ [d]).
      { clear -Ed. revert Ed. generalize (length p) as n. induction dofs as [|y dofs IH]; intros [|n] E; try discriminate; cbn in E; [injection E as ->; reflexivity|]. cbn [firstn app]. f_equal. now apply IH. }
      rewrite Ef. unfold blocks at 2. rewrite map_app, concat_app. cbn [map concat]. rewrite app_nil_r. fold (blocks bs (firstn (length p) dofs)). f_equal. f_equal. assert (length dofs - length p = S (length dofs - S (length p))) as -> by lia. generalize (length dofs - S (length p)) as z. intro z. rewrite Nat.mul_succ_r. lia.
  - rewrite E. now rewrite seq_length, Nat.sub_diag, Nat.mul_0_r, firstn_all, app_nil_r.
Qed.
Lemma unroll_if_ok dofs bs : 0 < bs -> unroll_if dofs bs = Some (blocks bs dofs).
Proof.
  intro H. unfold unroll_if. destruct (Nat.ltb_spec 1 bs); [apply unroll_ok|]. assert (bs = 1) as -> by lia. f_equal. unfold blocks. cbn [seq map]. induction dofs as [|d dofs IH]; [reflexivity|]. cbn [map concat app]. rewrite <- IH. f_equal. lia.
Qed.
Lemma num_owned_ok s dofs : StronglySorted lt dofs -> Forall (fun d => d < sp_index_bs s * sp_owned s) (firstn (num_owned s dofs) dofs) /\ Forall (fun d => sp_index_bs s * sp_owned s <= d) (skipn (num_owned s dofs) dofs).
Proof.
  unfold num_owned, lower_bound, lower_bound_by. set (n := sp_index_bs s * sp_owned s). induction 1 as [|d dofs Hs IH Hf]; cbn [prefix_len]; [split; constructor|]. destruct (Nat.ltb_spec d n) as [Hd|Hd].
  - cbn [firstn skipn]. destruct IH as (H1 & H2). split; [now constructor|exact H2].
  - cbn [firstn skipn]. split; [constructor|]. constructor; [exact Hd|]. eapply Forall_impl; [|exact Hf]. intros. lia.
Qed.

Section S.
Context {T : Type}.
(** [k] is the last position of [d] in [l]. *)
Definition last_at (l : list nat) (d k : nat) : Prop := nth_error l k = Some d /\ forall k', k < k' -> nth_error l k' <> Some d.

Lemma apply_ok (b : bc T) x set_fn : (forall k d, nth_error (bc_dofs0 b) k = Some d -> d < length x -> exists v, set_fn k = Some v) ->
  exists x', bc_apply b x set_fn = Some x' /\ length x' = length x /\
    (forall d, ~ In d (bc_dofs0 b) -> nth_error x' d = nth_error x d) /\
    (forall d k, d < length x -> last_at (bc_dofs0 b) d k -> nth_error x' d = set_fn k).
Proof.
  intro Hv. unfold bc_apply. set (ds := bc_dofs0 b) in *.
  destruct (ofold_prefix_ind (fun x' i => d <- nth_error ds i ;; if d <? length x then v <- set_fn i ;; upd x' d v else Some x')
    (fun p x' => length x' = length x /\ (forall d, ~ In d (firstn (length p) ds) -> nth_error x' d = nth_error x d) /\ (forall d k, d < length x -> last_at (firstn (length p) ds) d k -> nth_error x' d = set_fn k)) (seq 0 (length ds)) x) as (x' & E & I1 & I2 & I3).
  - split; [reflexivity|]. split; [reflexivity|]. intros d k _ (H & _). destruct k; discriminate.
  - intros p i q x' Eq (I1 & I2 & I3). assert (Hi : i = length p /\ i < length ds).
    { assert (El : length (seq 0 (length ds)) = length (p ++ i :: q)) by now rewrite Eq. rewrite seq_length, app_length in El. cbn in El. assert (En : nth_error (seq 0 (length ds)) (length p) = Some i) by (rewrite Eq, nth_error_app2, Nat.sub_diag by lia; reflexivity).
      rewrite (nth_error_nth' _ 0) in En by (rewrite seq_length; lia). rewrite seq_nth in En by lia. injection En as <-. lia. }
    destruct Hi as (-> & Hi). destruct (nth_error_lt ds (length p) Hi) as (d & Ed). rewrite Ed. cbn [obind]. rewrite app_length. cbn [length]. rewrite Nat.add_1_r.
    assert (Ef : firstn (S (length p)) ds = firstn (length p) ds ++ [d]).
    { clear -Ed. revert Ed. generalize (length p) as n. induction ds as [|y ds' IH]; intros [|n] E; try discriminate; cbn in E; [injection E as ->; reflexivity|]. cbn [firstn app]. f_equal. now apply IH. }
    assert (Elen : length (firstn (length p) ds) = length p) by (apply firstn_length_le; lia).
    assert (Hlast : forall d' k, last_at (firstn (length p) ds ++ [d]) d' k -> (d' = d /\ k = length p) \/ (d' <> d /\ last_at (firstn (length p) ds) d' k)).
    { intros d' k (H1 & H2). destruct (Nat.eq_dec k (length p)) as [->|N].
      - left. rewrite nth_error_app2, Elen, Nat.sub_diag in H1 by lia. injection H1 as <-. auto.
      - right. assert (k < length p). { assert (k < length (firstn (length p) ds ++ [d])) by (apply nth_error_Some; congruence). rewrite app_length, Elen in H. cbn in H. lia. }
        split; [intros ->; apply (H2 (length p)); [lia|]; rewrite nth_error_app2, Elen, Nat.sub_diag by lia; reflexivity|]. rewrite nth_error_app1 in H1 by lia. split; [exact H1|].
        intros k' Hk' E'. apply (H2 k' Hk'). rewrite nth_error_app1; [exact E'|]. apply nth_error_Some. congruence. }
    rewrite Ef. destruct (Nat.ltb_spec d (length x)) as [Hd|Hd].
    + destruct (Hv (length p) d Ed Hd) as (v & Ev). rewrite Ev. cbn [obind]. destruct (upd_some x' d v ltac:(lia)) as (x'' & Eu). rewrite Eu. exists x''. split; [reflexivity|].
      split; [rewrite <- I1; eapply upd_length; exact Eu|]. split.
      * intros d' Hn. rewrite in_app_iff in Hn. cbn [In] in Hn. rewrite (upd_nth _ _ _ d' _ Eu), (Nat.eqb_sym d d'). destruct (Nat.eqb_spec d' d); [subst; tauto|]. apply I2. tauto.
      * intros d' k Hd' H. rewrite (upd_nth _ _ _ d' _ Eu), (Nat.eqb_sym d d'). destruct (Hlast d' k H) as [(-> & ->)|(N & H')]; [rewrite Nat.eqb_refl; now rewrite Ev|]. destruct (Nat.eqb_spec d' d); [contradiction|]. now apply I3.
    + exists x'. split; [reflexivity|]. split; [exact I1|]. split.
      * intros d' Hn. apply I2. rewrite in_app_iff in Hn. tauto.
      * intros d' k Hd' H. destruct (Hlast d' k H) as [(-> & ->)|(N & H')]; [lia|]. now apply I3.
  - rewrite seq_length in *. rewrite firstn_all in *. exists x'. auto.
Qed.
Lemma last_exists l d : In d l -> exists k, last_at l d k.
Proof.
  induction l as [|y l IH] using rev_ind; [intros []|]. intro H. apply in_app_or in H. destruct (Nat.eq_dec y d) as [->|N].
  - exists (length l). split; [rewrite nth_error_app2, Nat.sub_diag by lia; reflexivity|]. intros k' Hk'. rewrite nth_error_app2 by lia. destruct (k' - length l) as [|[|]] eqn:E; [lia|discriminate|discriminate].
  - destruct H as [H|[H|[]]]; [|contradiction]. destruct (IH H) as (k & H1 & H2). exists k. split; [rewrite nth_error_app1; [exact H1|apply nth_error_Some; congruence]|].
    intros k' Hk' E. destruct (Nat.lt_ge_cases k' (length l)) as [Hl|Hl]; [rewrite nth_error_app1 in E by exact Hl; now apply (H2 k')|]. rewrite nth_error_app2 in E by exact Hl. destruct (k' - length l) as [|[|]]; cbn in E; [congruence|discriminate|discriminate].
Qed.
Lemma mark_ok (b : bc T) markers : Forall (fun d => d < length markers) (bc_dofs0 b) ->
  exists m, mark_dofs b markers = Some m /\ length m = length markers /\ forall d, d < length markers -> nth_error m d = if mem d (bc_dofs0 b) then Some true else nth_error markers d.
Proof.
  unfold mark_dofs. generalize (bc_dofs0 b) as ds. intro ds. revert markers. induction ds as [|d ds IH]; intros m H; cbn [ofold]; [exists m; repeat split|]. inversion H as [|? ? Hd H']; subst.
  destruct (upd_some m d true Hd) as (m' & E). rewrite E. cbn [obind]. pose proof (upd_length _ _ _ _ E) as El. destruct (IH m') as (m'' & E1 & E2 & E3); [rewrite El; exact H'|]. exists m''. split; [exact E1|]. split; [congruence|].
  intros d' Hd'. rewrite E3 by lia. unfold mem. cbn [existsb]. rewrite (upd_nth _ _ _ d' _ E), (Nat.eqb_sym d d'). destruct (Nat.eqb_spec d' d) as [->|N]; cbn [orb]; [|reflexivity]. now destruct (existsb (Nat.eqb d) ds).
Qed.
End S.

Section R.
Context {T : Type}.
Variables (zero one : T) (add mul sub : T -> T -> T) (opp : T -> T).
Hypothesis Rth : ring_theory zero one add mul sub opp eq.
Add Ring R : Rth.
Variable eqb : T -> T -> bool.
Hypothesis eqb_ok : forall x y, eqb x y = true <-> x = y.

(** The value of the optional array. *)
Definition opt_at (x0 : option (list T)) (d : nat) : T := match x0 with Some l => nth d l zero | None => zero end.
Definition opt_long (x0 : option (list T)) (x : list T) : Prop := match x0 with Some l => length x <= length l | None => True end.

(** [g k v]: the boundary value at position [k]. *)
Definition bc_value (b : bc T) (k : nat) : option T :=
  match bc_g b with
  | GFun values => j <- nth_error (match bc_dofs1 b with [] => bc_dofs0 b | _ => bc_dofs1 b end) k ;; nth_error values j
  | GConst value => d <- nth_error (bc_dofs0 b) k ;; nth_error value (d mod sp_bs (bc_space b))
  end.
Lemma set_general (b : bc T) x x0 alpha : opt_long x0 x -> (forall k d, nth_error (bc_dofs0 b) k = Some d -> d < length x -> bc_value b k <> None) ->
  exists x', bc_set zero mul sub eqb b x x0 alpha = Some x' /\ length x' = length x /\
    (forall d, ~ In d (bc_dofs0 b) -> nth_error x' d = nth_error x d) /\
    (forall d k g, d < length x -> last_at (bc_dofs0 b) d k -> bc_value b k = Some g -> nth_error x' d = Some (mul alpha (sub g (opt_at x0 d)))).
Proof.
  intros Hx Hg. unfold bc_set. destruct (eqb alpha zero) eqn:Ea.
  { apply eqb_ok in Ea. subst alpha. destruct (apply_ok b x (fun _ => Some zero)) as (x' & E & L & I1 & I2); [eauto|]. exists x'. do 3 (split; [assumption|]). intros d k g Hd Hl _. rewrite (I2 d k Hd Hl). f_equal. ring. }
  clear Ea. pose (f := fun i => d <- nth_error (bc_dofs0 b) i ;; v <- bc_value b i ;; if (match x0 with Some l => d <? length l | None => true end) then Some (mul alpha (sub v (opt_at x0 d))) else None).
  assert (Hf : forall k d, nth_error (bc_dofs0 b) k = Some d -> d < length x -> exists v, bc_value b k = Some v /\ f k = Some (mul alpha (sub v (opt_at x0 d)))).
  { intros k d Ed Hd. specialize (Hg k d Ed Hd). destruct (bc_value b k) as [v|] eqn:Ev; [|congruence]. exists v. split; [reflexivity|]. unfold f. rewrite Ed, Ev. cbn [obind]. destruct x0 as [l|]; [|reflexivity]. cbn in Hx. now rewrite (proj2 (Nat.ltb_lt d (length l)) ltac:(lia)). }
  assert (Hext : forall g1, (forall k d, nth_error (bc_dofs0 b) k = Some d -> d < length x -> g1 k = f k) ->
    exists x', bc_apply b x g1 = Some x' /\ length x' = length x /\ (forall d, ~ In d (bc_dofs0 b) -> nth_error x' d = nth_error x d) /\
    (forall d k g, d < length x -> last_at (bc_dofs0 b) d k -> bc_value b k = Some g -> nth_error x' d = Some (mul alpha (sub g (opt_at x0 d))))).
  { intros g1 H1. destruct (apply_ok b x g1) as (x' & E & L & I1 & I2). { intros k d Ed Hd. rewrite (H1 k d Ed Hd). destruct (Hf k d Ed Hd) as (v & _ & ->). eauto. }
    exists x'. do 3 (split; [assumption|]). intros d k g Hd Hl Hv. rewrite (I2 d k Hd Hl). destruct Hl as (Ed & _). rewrite (H1 k d Ed Hd). destruct (Hf k d Ed Hd) as (v & E1 & ->). congruence. }
  destruct (bc_g b) as [values|value] eqn:Eg; destruct x0 as [l|]; apply Hext; intros k d Ed Hd; specialize (Hg k d Ed Hd); unfold f; unfold bc_value in *; rewrite Eg, ?Ed in *; cbn [obind opt_at] in *.
  - destruct (nth_error match bc_dofs1 b with [] => bc_dofs0 b | _ => bc_dofs1 b end k) as [j|]; cbn [obind] in *; [|congruence]. destruct (nth_error values j) as [v|]; cbn [obind] in *; [|congruence].
    cbn in Hx. rewrite (nth_error_nth' l zero) by lia. cbn [obind]. now rewrite (proj2 (Nat.ltb_lt d (length l)) ltac:(lia)).
  - destruct (nth_error match bc_dofs1 b with [] => bc_dofs0 b | _ => bc_dofs1 b end k) as [j|]; cbn [obind] in *; [|congruence]. destruct (nth_error values j) as [v|]; cbn [obind] in *; [|congruence]. f_equal. ring.
  - destruct (nth_error value (d mod sp_bs (bc_space b))) as [v|]; cbn [obind] in *; [|congruence]. cbn in Hx. rewrite (nth_error_nth' l zero) by lia. cbn [obind]. now rewrite (proj2 (Nat.ltb_lt d (length l)) ltac:(lia)).
  - destruct (nth_error value (d mod sp_bs (bc_space b))) as [v|]; cbn [obind] in *; [|congruence]. f_equal. ring.
Qed.

Lemma set_fun_ok V values dofs x x0 alpha : 0 < sp_bs V -> opt_long x0 x -> (forall d c, In d dofs -> c < sp_bs V -> sp_bs V * d + c < length x -> sp_bs V * d + c < length values) ->
  exists b x', bc_fun values dofs V = Some b /\ bc_set zero mul sub eqb b x x0 alpha = Some x' /\ length x' = length x /\
    (forall d c, In d dofs -> c < sp_bs V -> sp_bs V * d + c < length x -> nth_error x' (sp_bs V * d + c) = Some (mul alpha (sub (nth (sp_bs V * d + c) values zero) (opt_at x0 (sp_bs V * d + c))))) /\
    (forall i, (forall d c, In d dofs -> c < sp_bs V -> i <> sp_bs V * d + c) -> nth_error x' i = nth_error x i).
Proof.
  intros Hbs Hx Hv. unfold bc_fun. rewrite unroll_if_ok by exact Hbs. cbn [obind]. set (b := mkBC _ _ _ _ _).
  assert (Hval : forall k i, nth_error (blocks (sp_bs V) dofs) k = Some i -> bc_value b k = nth_error values i) by (intros k i E; unfold bc_value, b; cbn [bc_g bc_dofs1 bc_dofs0]; now rewrite E).
  destruct (set_general b x x0 alpha Hx) as (x' & E & L & I1 & I2).
  { intros k i Ei Hi. cbn [bc_dofs0 b] in Ei. rewrite (Hval k i Ei). apply nth_error_Some. apply nth_error_In, blocks_in in Ei as (d & c & Hd & Hc & ->). now apply Hv. }
  exists b, x'. do 3 (split; [first [reflexivity|assumption]|]). split.
  - intros d c Hd Hc Hi. assert (Hin : In (sp_bs V * d + c) (blocks (sp_bs V) dofs)) by (apply blocks_in; eauto). destruct (last_exists _ _ Hin) as (k & Hk). apply (I2 _ k); [exact Hi|exact Hk|]. rewrite (Hval k _ (proj1 Hk)). apply nth_error_nth'. now apply Hv.
  - intros i Hn. apply I1. cbn [bc_dofs0 b]. intro H. apply blocks_in in H as (d & c & Hd & Hc & ->). now apply (Hn d c Hd Hc).
Qed.
Lemma set_const_ok V rank value dofs b x x0 alpha : 0 < sp_bs V -> opt_long x0 x -> bc_const rank value dofs V = Some b ->
  exists x', bc_set zero mul sub eqb b x x0 alpha = Some x' /\ length x' = length x /\
    (forall d c, In d dofs -> c < sp_bs V -> sp_bs V * d + c < length x -> nth_error x' (sp_bs V * d + c) = Some (mul alpha (sub (nth c value zero) (opt_at x0 (sp_bs V * d + c))))) /\
    (forall i, (forall d c, In d dofs -> c < sp_bs V -> i <> sp_bs V * d + c) -> nth_error x' i = nth_error x i).
Proof.
  intros Hbs Hx. unfold bc_const. destruct (rank =? sp_rank V); [|discriminate]. cbn [negb]. destruct (Nat.eqb_spec (length value) (sp_bs V)) as [Hlen|]; [|discriminate]. cbn [negb]. destruct (sp_point_eval V); [|discriminate]. cbn [negb]. rewrite unroll_if_ok by exact Hbs. cbn [obind]. intro Eb. injection Eb as <-. set (b := mkBC _ _ _ _ _).
  assert (Hval : forall k d c, c < sp_bs V -> nth_error (blocks (sp_bs V) dofs) k = Some (sp_bs V * d + c) -> bc_value b k = Some (nth c value zero)).
  { intros k d c Hc E. unfold bc_value, b. cbn [bc_g bc_dofs0 bc_space]. rewrite E. cbn [obind]. assert (Em : (sp_bs V * d + c) mod sp_bs V = c) by (rewrite Nat.mul_comm, Nat.add_comm, Nat.mod_add, Nat.mod_small; lia). rewrite Em. apply nth_error_nth'. lia. }
  destruct (set_general b x x0 alpha Hx) as (x' & E & L & I1 & I2).
  { intros k i Ei Hi. cbn [bc_dofs0 b] in Ei. pose proof Ei as Ei'. apply nth_error_In, blocks_in in Ei as (d & c & Hd & Hc & ->). now rewrite (Hval k d c Hc Ei'). }
  exists x'. do 2 (split; [assumption|]). split.
  - intros d c Hd Hc Hi. assert (Hin : In (sp_bs V * d + c) (blocks (sp_bs V) dofs)) by (apply blocks_in; eauto). destruct (last_exists _ _ Hin) as (k & Hk). apply (I2 _ k); [exact Hi|exact Hk|]. exact (Hval k d c Hc (proj1 Hk)).
  - intros i Hn. apply I1. cbn [bc_dofs0 b]. intro H. apply blocks_in in H as (d & c & Hd & Hc & ->). now apply (Hn d c Hd Hc).
Qed.
Lemma set_pair_ok V values dofs0 dofs1 x x0 alpha : length dofs0 = length dofs1 -> opt_long x0 x -> Forall (fun j => j < length values) dofs1 ->
  exists x', bc_set zero mul sub eqb (bc_pair values dofs0 dofs1 V) x x0 alpha = Some x' /\ length x' = length x /\
    (forall k d j, nth_error dofs0 k = Some d -> nth_error dofs1 k = Some j -> (forall k', k < k' -> nth_error dofs0 k' <> Some d) -> d < length x ->
       nth_error x' d = Some (mul alpha (sub (nth j values zero) (opt_at x0 d)))) /\
    (forall i, ~ In i dofs0 -> nth_error x' i = nth_error x i).
Proof.
  intros Hl Hx Hv. set (b := bc_pair _ _ _ _).
  assert (Hval : forall k d, nth_error dofs0 k = Some d -> exists j, nth_error dofs1 k = Some j /\ bc_value b k = Some (nth j values zero)).
  { intros k d Ed. destruct (nth_error_lt dofs1 k) as (j & Ej); [rewrite <- Hl; apply nth_error_Some; congruence|]. exists j. split; [exact Ej|]. unfold bc_value, b, bc_pair. cbn [bc_g bc_dofs1 bc_dofs0].
    destruct dofs1 as [|j0 dofs1]; [destruct k; discriminate|]. rewrite Ej. cbn [obind]. apply nth_error_nth'. rewrite Forall_forall in Hv. apply Hv. now apply nth_error_In in Ej. }
  destruct (set_general b x x0 alpha Hx) as (x' & E & L & I1 & I2). { intros k d Ed _. destruct (Hval k d Ed) as (j & _ & ->). discriminate. }
  exists x'. do 2 (split; [assumption|]). split; [|exact I1]. intros k d j Ed Ej Hlast Hd. apply (I2 d k); [exact Hd|split; assumption|]. destruct (Hval k d Ed) as (j' & Ej' & ->). congruence.
Qed.
Lemma indices_ok V values dofs b : 0 < sp_bs V -> StronglySorted lt dofs -> (bc_fun values dofs V = Some b \/ exists rank, bc_const rank values dofs V = Some b) ->
  let '(ds, n) := dof_indices (T := T) b in StronglySorted lt ds /\ (forall i, In i ds <-> exists d c, In d dofs /\ c < sp_bs V /\ i = sp_bs V * d + c) /\ n <= length ds /\
    forall k i, nth_error ds k = Some i -> (k < n <-> i < sp_index_bs V * sp_owned V).
Proof.
  intros Hbs Hs Hb. assert (H : bc_dofs0 b = blocks (sp_bs V) dofs /\ bc_num_owned b = num_owned V (blocks (sp_bs V) dofs)).
  { destruct Hb as [Hb|(rank & Hb)].
    - unfold bc_fun in Hb. rewrite unroll_if_ok in Hb by exact Hbs. injection Hb as <-. auto.
    - unfold bc_const in Hb. destruct (rank =? sp_rank V), (length values =? sp_bs V), (sp_point_eval V); try discriminate. cbn [negb] in Hb. rewrite unroll_if_ok in Hb by exact Hbs. injection Hb as <-. auto. }
  unfold dof_indices. destruct H as (-> & ->). pose proof (blocks_sorted (sp_bs V) dofs Hs) as Hs'. split; [exact Hs'|]. split; [apply blocks_in|]. destruct (num_owned_ok V _ Hs') as (H1 & H2). set (ds := blocks _ _) in *. set (n := num_owned V ds) in *.
  assert (Hn : n <= length ds) by apply prefix_len_le. split; [exact Hn|]. intros k i Ei. rewrite Forall_forall in H1, H2. rewrite <- (firstn_skipn n ds) in Ei. assert (El : length (firstn n ds) = n) by now apply firstn_length_le. split.
  - intro Hk. rewrite nth_error_app1 in Ei by lia. apply H1. now apply nth_error_In in Ei.
  - intro Hi. destruct (Nat.lt_ge_cases k n) as [|Hk]; [assumption|]. rewrite nth_error_app2 in Ei by lia. apply nth_error_In in Ei. apply H2 in Ei. lia.
Qed.
End R.
