(** Collapse of a view with blocks: a new dofmap is built. *)
From Verif Require Import Base BaseProofs Algo AlgoProofs Nbx World IndexMap IndexMapSpec IndexMapProofs ImSharedProofs SparsityProofs CellTypes DofBuilder DofSpec DofReq DofCells DofBasic RenumSpec DofWorld DofUse SubDofs SubDofsSpec SubDofsProofs CollapseProofs.
Open Scope nat_scope.

Section Blocked.
Variables (P : nat) (tps : nat -> topo) (L S : layout) (bs : nat).
Variables (pm : nat -> imap) (pdofs : nat -> list (list nat)) (pnum : nat -> nat -> nat -> nat -> nat -> nat).
Variables (view : nat -> dmap) (pos : list nat) (J : nat -> cell_type -> nat -> nat -> nat).
Hypothesis HS : dof_world P tps [S].
Hypothesis Hone : forall r, r < P -> length (tp_types (tps r) (tp_dim (tps r))) = 1.
Hypothesis Hpar : dofmap_ok P tps [L] pm (fun r => [pdofs r]) pnum.
Hypothesis Hpos : forall r, r < P -> same_places (tps r) L S bs pos J.
Hypothesis Hlen : length pos = bs * ly_num S.
Hypothesis Hview : forall r, r < P -> view_of (pdofs r) pos (dp_rows (view r)).

Variables (dm : nat -> imap) (rows : nat -> list (list nat)) (num : nat -> nat -> nat -> nat -> nat -> nat).
Hypothesis Hnew : dofmap_ok P tps [S] dm (fun r => [rows r]) num.
Notation cells r := (map_size (tp_map (tps r) (tp_dim (tps r)) 0)).

Lemma ctype r : r < P -> exists ct, nth_error (tp_types (tps r) (tp_dim (tps r))) 0 = Some ct.
Proof. intro Hr. apply nth_error_lt. rewrite Hone by exact Hr. lia. Qed.

(** The place of a dof of the new dofmap and of the old one *)
Lemma place r c i x : r < P -> entry (rows r) c i x -> exists d et t y j n, nth_error (tp_types (tps r) d) et = Some t /\ carries (tps r) [S] d et n /\ j < n /\
  y < map_size (tp_map (tps r) d et) /\ x = num r d et y j /\
  forall k v, k < bs -> entry (dp_rows (view r)) c (bs * i + k) v -> exists n', carries (tps r) [L] d et n' /\ J d t j k < n' /\ v = pnum r d et y (J d t j k).
Proof.
  intros Hr (row & Hrow & Hi). destruct (do_shape _ _ _ _ _ _ Hnew r Hr) as (_ & Hsh). destruct (Hsh 0 S (rows r) eq_refl eq_refl) as (Hn & Hw).
  pose proof (nth_error_bound _ _ _ Hrow) as Hc. rewrite Hn in Hc. pose proof (nth_error_bound _ _ _ Hi) as Hib. rewrite (Hw row (nth_error_In _ _ Hrow)) in Hib.
  destruct (ctype r Hr) as (ct & Ect).
  destruct (position_slot (tps r) [S] (dw_ok _ _ _ HS r Hr) 0 c i ct S Ect eq_refl Hc Hib) as (d & t & y & j & Hslot).
  destruct (do_slot _ _ _ _ _ _ Hnew r 0 c i d t y j Hr Hc Hslot) as (et & n & Et & Hcar & Hy & Hj & Hat).
  exists d, et, t, y, j, n. split; [exact Et|]. split; [exact Hcar|]. split; [exact Hj|]. split; [exact Hy|]. split.
  { destruct Hat as (rs & rw & A & B & C). cbn in A. injection A as <-. congruence. }
  intros k v Hk (vrow & Hvr & Hvk). destruct Hslot as (e & ds & Hon & Hj' & Hatt).
  destruct (proj1 (Hpos r Hr) d e t ds j i k Hon Hj' Hk) as (ds' & q & Hon' & Hq & Hp).
  destruct (do_slot _ _ _ _ _ _ Hpar r 0 c q d t y (J d t j k) Hr Hc) as (et' & n' & Et' & Hcar' & _ & HJ & Hat').
  { exists e, ds'. auto. }
  assert (et' = et) as ->.
  { assert (d <= tp_dim (tps r)) as Hd.
    { destruct Hon as (ct' & ly & eds & A1 & A2 & A3 & _). destruct (tk_shape _ _ (dw_ok _ _ _ HS r Hr) 0 ct' ly A1 A2) as (B & _). apply nth_error_bound in A3. lia. }
    eapply NoDup_nth_error_inj; [exact (tk_types _ _ (dw_ok _ _ _ HS r Hr) d Hd)|exact Et'|exact Et]. }
  exists n'. split; [exact Hcar'|]. split; [exact HJ|]. destruct Hat' as (rs & prow & A & B & C). cbn in A. injection A as <-.
  destruct (Hview r Hr) as (_ & Hvw). destruct (Hvw c prow B) as (vrow' & Hvr' & Hom). rewrite Hvr in Hvr'. injection Hvr' as <-.
  destruct (BaseProofs.omap_nth _ _ _ Hom _ _ Hp) as (v' & Hv' & Hf). congruence.
Qed.

(** Equal global numbers on any two ranks *)
Lemma same_dof r r' c i x k v c' i' x' k' v' N N' G G' : r < P -> r' < P ->
  entry (rows r) c i x -> k < bs -> entry (dp_rows (view r)) c (bs * i + k) v ->
  entry (rows r') c' i' x' -> k' < bs -> entry (dp_rows (view r')) c' (bs * i' + k') v' ->
  local_to_global (dm r) x = Some N -> local_to_global (dm r') x' = Some N' -> local_to_global (pm r) v = Some G -> local_to_global (pm r') v' = Some G' ->
  (N = N' /\ k = k' <-> G = G').
Proof.
  intros Hr Hr' Hx Hk Hv Hx' Hk' Hv' EN EN' EG EG'.
  destruct (place r c i x Hr Hx) as (d & et & t & y & j & n & Et & Hcar & Hj & Hy & -> & Hold). destruct (Hold k v Hk Hv) as (m & Hcm & HJ & ->).
  destruct (place r' c' i' x' Hr' Hx') as (d' & et' & t' & y' & j' & n' & Et' & Hcar' & Hj' & Hy' & -> & Hold'). destruct (Hold' k' v' Hk' Hv') as (m' & Hcm' & HJ' & ->).
  assert (HP0 : 0 < P) by lia.
  assert (Hg : forall q dd ee nn yy, q < P -> carries (tps q) [S] dd ee nn -> yy < map_size (tp_map (tps q) dd ee) -> exists g, local_to_global (tp_map (tps q) dd ee) yy = Some g).
  { intros q dd ee nn yy Hq Hc Hyy. assert (Hc0 : carries (tps 0) [S] dd ee nn).
    { destruct Hc as (H0 & i0 & e0 & t0 & ds0 & (ct0 & ly0 & eds0 & B1 & B2 & B3 & B4 & B5) & Ht & Hl). split; [exact H0|]. exists i0, e0, t0, ds0. split; [|split; [|exact Hl]].
      - exists ct0, ly0, eds0. rewrite <- (dw_dim _ _ _ HS q Hq), <- (dw_types _ _ _ HS q _ Hq). auto.
      - rewrite <- (dw_types _ _ _ HS q _ Hq). exact Ht. }
    apply (proj1 (l2g_all P (fun r => tp_map (tps r) dd ee) (dw_maps _ _ _ HS dd ee nn Hc0) q Hq)). exact Hyy. }
  destruct (Hg r d et n y Hr Hcar Hy) as (g & Eg). destruct (Hg r' d' et' n' y' Hr' Hcar' Hy') as (g' & Eg').
  rewrite (do_same _ _ _ _ _ _ Hnew r r' d et n y j g N d' et' n' y' j' g' N' Hr Hr' Hcar Eg Hj EN Hcar' Eg' Hj' EN').
  rewrite (do_same _ _ _ _ _ _ Hpar r r' d et m y (J d t j k) g G d' et' m' y' (J d' t' j' k') g' G' Hr Hr' Hcm Eg HJ EG Hcm' Eg' HJ' EG').
  assert (Htt : d = d' -> et = et' -> t = t').
  { intros <- <-. rewrite (dw_types _ _ _ HS r d Hr) in Et. rewrite (dw_types _ _ _ HS r' d Hr') in Et'. congruence. }
  split.
  - intros ((<- & <- & <- & <-) & <-). rewrite (Htt eq_refl eq_refl). auto.
  - intros (<- & <- & <- & EJ). rewrite (Htt eq_refl eq_refl) in EJ. destruct (proj2 (Hpos r Hr) _ _ _ _ _ _ Hk Hk' EJ) as (<- & <-). auto.
Qed.

Lemma new_range r c i x : r < P -> entry (rows r) c i x -> x < map_size (dm r).
Proof.
  intros Hr Hx. destruct (place r c i x Hr Hx) as (d & et & t & y & j & n & _ & Hcar & Hj & Hy & -> & _). exact (do_range _ _ _ _ _ _ Hnew r d et n y j Hr Hcar Hy Hj).
Qed.
Lemma old_range r c i x k v : r < P -> entry (rows r) c i x -> k < bs -> entry (dp_rows (view r)) c (bs * i + k) v -> v < map_size (pm r).
Proof.
  intros Hr Hx Hk Hv. destruct (place r c i x Hr Hx) as (d & et & t & y & j & n & _ & Hcar & Hj & Hy & -> & Hold). destruct (Hold k v Hk Hv) as (m & Hcm & HJ & ->).
  exact (do_range _ _ _ _ _ _ Hpar r d et m y _ Hr Hcm Hy HJ).
Qed.

Lemma new_shape r : r < P -> blocked_shape bs (rows r) (dp_rows (view r)).
Proof.
  intro Hr. destruct (do_shape _ _ _ _ _ _ Hnew r Hr) as (_ & Hsh). destruct (Hsh 0 S (rows r) eq_refl eq_refl) as (Hn & Hw).
  destruct (do_shape _ _ _ _ _ _ Hpar r Hr) as (_ & Hsh'). destruct (Hsh' 0 L (pdofs r) eq_refl eq_refl) as (Hn' & _).
  destruct (Hview r Hr) as (Hl & Hvw). split; [lia|]. intros c row vrow Hc Hv.
  assert (Hlt : c < length (pdofs r)) by (apply nth_error_bound in Hc; lia). apply nth_error_lt in Hlt. destruct Hlt as (prow & Hp).
  destruct (Hvw c prow Hp) as (vrow' & Hv' & Hom). rewrite Hv in Hv'. injection Hv' as <-. apply omap_length in Hom. rewrite (Hw row (nth_error_In _ _ Hc)). lia.
Qed.
Lemma view_entry r c i x k : r < P -> entry (rows r) c i x -> k < bs -> exists v, entry (dp_rows (view r)) c (bs * i + k) v.
Proof.
  intros Hr (row & H1 & H2) Hk. destruct (new_shape r Hr) as (Hl & Hs). pose proof (nth_error_bound _ _ _ H1) as Hc. rewrite <- Hl in Hc.
  apply nth_error_lt in Hc. destruct Hc as (vrow & Hv). apply nth_error_bound in H2. assert (bs * i + k < length vrow) as Hlt by (rewrite (Hs c row vrow H1 Hv); nia).
  apply nth_error_lt in Hlt. destruct Hlt as (v & Hvv). exists v, vrow. auto.
Qed.
Lemma new_entry r c q v : r < P -> entry (dp_rows (view r)) c q v -> exists i x k, entry (rows r) c i x /\ k < bs /\ q = bs * i + k.
Proof.
  intros Hr (vrow & H1 & H2). destruct (new_shape r Hr) as (Hl & Hs). pose proof (nth_error_bound _ _ _ H1) as Hc. rewrite Hl in Hc.
  apply nth_error_lt in Hc. destruct Hc as (row & Hrow). apply nth_error_bound in H2. rewrite (Hs c row vrow Hrow H1) in H2.
  assert (Hb : 0 < bs) by (destruct bs; lia). pose proof (Nat.div_mod q bs ltac:(lia)) as Eq. pose proof (Nat.mod_upper_bound q bs ltac:(lia)) as Hk.
  assert (q / bs < length row) as Hi by (apply Nat.div_lt_upper_bound; lia). apply nth_error_lt in Hi. destruct Hi as (x & Hx).
  exists (q / bs), x, (q mod bs). split; [exists row; auto|]. split; [exact Hk|exact Eq].
Qed.

Lemma blocked_map r : r < P -> exists cm, collapsed_map bs (map_size (dm r) * bs) (rows r) (dp_rows (view r)) = Some cm /\ length cm = map_size (dm r) * bs /\
  forall c i x k v, entry (rows r) c i x -> k < bs -> entry (dp_rows (view r)) c (bs * i + k) v -> nth_error cm (bs * x + k) = Some v.
Proof.
  intro Hr. apply collapsed_map_ok.
  - exact (new_shape r Hr).
  - intros c i x Hx. eapply new_range; eauto.
  - intros c i c' i' x k v v' Hx Hx' Hk Hv Hv'.
    assert (exists N, local_to_global (dm r) x = Some N) as (N & EN) by (apply (proj1 (l2g_all P dm (do_maps _ _ _ _ _ _ Hnew) r Hr)); eapply new_range; eauto).
    assert (exists G, local_to_global (pm r) v = Some G) as (G & EG) by (apply (proj1 (l2g_all P pm (do_maps _ _ _ _ _ _ Hpar) r Hr)); exact (old_range r c i x k v Hr Hx Hk Hv)).
    assert (exists G, local_to_global (pm r) v' = Some G) as (G' & EG') by (apply (proj1 (l2g_all P pm (do_maps _ _ _ _ _ _ Hpar) r Hr)); exact (old_range r c' i' x k v' Hr Hx' Hk Hv')).
    pose proof (proj1 (same_dof r r c i x k v c' i' x k v' N N G G' Hr Hr Hx Hk Hv Hx' Hk Hv' EN EN EG EG') (conj eq_refl eq_refl)) as E. subst G'.
    exact (l2g_inj P pm r v v' G (do_maps _ _ _ _ _ _ Hpar) Hr EG EG').
Qed.

Lemma blocked_bijective r cm : r < P -> length cm = map_size (dm r) * bs ->
  (forall c i x k v, entry (rows r) c i x -> k < bs -> entry (dp_rows (view r)) c (bs * i + k) v -> nth_error cm (bs * x + k) = Some v) ->
  (forall x, x < map_size (dm r) -> exists c i, entry (rows r) c i x) ->
  NoDup cm /\ forall d, In d cm <-> exists c i, entry (dp_rows (view r)) c i d.
Proof.
  intros Hr Hl Hcm Hcov.
  assert (G : forall a v, nth_error cm a = Some v -> exists c i x k, entry (rows r) c i x /\ k < bs /\ a = bs * x + k /\ entry (dp_rows (view r)) c (bs * i + k) v).
  { intros a v Ha. pose proof (nth_error_bound _ _ _ Ha) as Hlt. rewrite Hl in Hlt. assert (Hb : 0 < bs) by (destruct bs; lia).
    pose proof (Nat.div_mod a bs ltac:(lia)) as Ea. pose proof (Nat.mod_upper_bound a bs ltac:(lia)) as Hk.
    destruct (Hcov (a / bs)) as (c & i & Hx); [apply Nat.div_lt_upper_bound; lia|]. destruct (view_entry r c i _ (a mod bs) Hr Hx Hk) as (v' & Hv').
    exists c, i, (a / bs), (a mod bs). split; [exact Hx|]. split; [exact Hk|]. split; [exact Ea|]. pose proof (Hcm c i _ _ v' Hx Hk Hv') as E. rewrite <- Ea in E. congruence. }
  split.
  - apply NoDup_nth_error. intros a b Ha E. apply nth_error_lt in Ha. destruct Ha as (v & Ha). rewrite Ha in E. symmetry in E.
    destruct (G a v Ha) as (c & i & x & k & Hx & Hk & -> & Hv). destruct (G b v E) as (c' & i' & x' & k' & Hx' & Hk' & -> & Hv').
    destruct (proj2 (proj1 (l2g_all P dm (do_maps _ _ _ _ _ _ Hnew) r Hr) x)) as (N & EN); [eapply new_range; eauto|].
    destruct (proj2 (proj1 (l2g_all P dm (do_maps _ _ _ _ _ _ Hnew) r Hr) x')) as (N' & EN'); [eapply new_range; eauto|].
    destruct (proj2 (proj1 (l2g_all P pm (do_maps _ _ _ _ _ _ Hpar) r Hr) v)) as (V & EV); [exact (old_range r c i x k v Hr Hx Hk Hv)|].
    destruct (proj2 (same_dof r r c i x k v c' i' x' k' v N N' V V Hr Hr Hx Hk Hv Hx' Hk' Hv' EN EN' EV EV) eq_refl) as (<- & <-).
    now rewrite (l2g_inj P dm r x x' N (do_maps _ _ _ _ _ _ Hnew) Hr EN EN').
  - intro d. split.
    + intro Hd. apply In_nth_error in Hd. destruct Hd as (a & Ha). destruct (G a d Ha) as (c & i & x & k & _ & _ & _ & Hv). eauto.
    + intros (c & q & Hv). destruct (new_entry r c q d Hr Hv) as (i & x & k & Hx & Hk & ->). eapply nth_error_In, (Hcm c i x k d Hx Hk Hv).
Qed.
End Blocked.

Lemma collapse_blocked_ok P nbx tps L S bs pm pdofs pnum view pos J reorder order :
  nbx_oracle P nbx -> 0 < P -> dof_world P tps [S] ->
  (forall r, r < P -> length (tp_types (tps r) (tp_dim (tps r))) = 1) ->
  dofmap_ok P tps [L] pm (fun r => [pdofs r]) pnum ->
  (forall r, r < P -> lay_core (dp_lay (view r)) = S /\ lay_bs (dp_lay (view r)) = bs) ->
  (forall r, r < P -> same_places (tps r) L S bs pos J) -> length pos = bs * ly_num S ->
  (forall r, r < P -> view_of (pdofs r) pos (dp_rows (view r))) ->
  (forall rq q, required (tps 0) [S] = Some rq -> q < P ->
     Permutation (order q) (seq 0 (length rq)) /\
     forall f, reorder q = Some f -> reorder_wf f (lsum (map (fun r => snd r * size_local (req_map (tps q) r)) rq))) ->
  exists dm rows num cmap, (forall r, r < P -> collapse_blocked P nbx tps view reorder order r = Some (dm r, rows r, cmap r)) /\
    dofmap_ok P tps [S] dm (fun r => [rows r]) num /\
    (forall r, r < P -> length (cmap r) = map_size (dm r) * bs) /\
    (forall r c i x k v, r < P -> entry (rows r) c i x -> k < bs -> entry (dp_rows (view r)) c (bs * i + k) v -> nth_error (cmap r) (bs * x + k) = Some v) /\
    (forall r, r < P -> (forall x, x < map_size (dm r) -> exists c i, entry (rows r) c i x) ->
       NoDup (cmap r) /\ forall d, In d (cmap r) <-> exists c i, entry (dp_rows (view r)) c i d) /\
    (forall r r' c i x k v c' i' x' k' v' N N' G G', r < P -> r' < P ->
       entry (rows r) c i x -> k < bs -> entry (dp_rows (view r)) c (bs * i + k) v ->
       entry (rows r') c' i' x' -> k' < bs -> entry (dp_rows (view r')) c' (bs * i' + k') v' ->
       local_to_global (dm r) x = Some N -> local_to_global (dm r') x' = Some N' -> local_to_global (pm r) v = Some G -> local_to_global (pm r') v' = Some G' ->
       (N = N' /\ k = k' <-> G = G')).
Proof.
  intros Hn HP HS Hone Hpar Hlay Hpos Hlen Hview Hre.
  destruct (global_dofs_ok P nbx tps [S] reorder order Hn HP HS Hre) as (dm & dofs & num & Hb & Hok).
  assert (Hd : forall r, r < P -> exists rows, dofs r = [rows]).
  { intros r Hr. destruct (do_shape _ _ _ _ _ _ Hok r Hr) as (Hl & _). destruct (dofs r) as [|a [|b l]]; try discriminate. eauto. }
  set (rows := fun r => nth 0 (dofs r) []).
  assert (Hok' : dofmap_ok P tps [S] dm (fun r => [rows r]) num).
  { destruct Hok as [h1 h2 h3 h4 h5 h6 h7]. constructor; auto.
    - intros r Hr. unfold rows. destruct (Hd r Hr) as (w & E). specialize (h2 r Hr). rewrite E in h2 |- *. exact h2.
    - intros r i c p d t x j Hr Hc Hs. destruct (h3 r i c p d t x j Hr Hc Hs) as (et & n & A1 & A2 & A3 & A4 & A5). exists et, n. repeat (split; [assumption|]).
      unfold rows. destruct (Hd r Hr) as (w & E). rewrite E in A5 |- *. exact A5. }
  pose (cm := fun r => match collapsed_map bs (map_size (dm r) * bs) (rows r) (dp_rows (view r)) with Some c => c | None => [] end).
  exists dm, rows, num, cm. split; [|split; [exact Hok'|split; [|split; [|split]]]].
  - intros r Hr. unfold collapse_blocked. destruct (Hlay r Hr) as (-> & ->). rewrite (Hb r Hr). cbn [obind]. destruct (Hd r Hr) as (w & E).
    unfold cm, rows. rewrite E. cbn [nth_error obind nth].
    destruct (blocked_map P tps L S bs pm pdofs pnum view pos J HS Hone Hpar Hpos Hlen Hview dm rows num Hok' r Hr) as (c & Ec & _).
    unfold rows in Ec. rewrite E in Ec. cbn [nth] in Ec. rewrite Ec. reflexivity.
  - intros r Hr. destruct (blocked_map P tps L S bs pm pdofs pnum view pos J HS Hone Hpar Hpos Hlen Hview dm rows num Hok' r Hr) as (c & Ec & Hc & _). unfold cm. now rewrite Ec.
  - intros r c i x k v Hr. destruct (blocked_map P tps L S bs pm pdofs pnum view pos J HS Hone Hpar Hpos Hlen Hview dm rows num Hok' r Hr) as (c0 & Ec & _ & Hc). unfold cm. rewrite Ec. apply Hc.
  - intros r Hr. destruct (blocked_map P tps L S bs pm pdofs pnum view pos J HS Hone Hpar Hpos Hlen Hview dm rows num Hok' r Hr) as (c & Ec & Hl & Hc).
    unfold cm. rewrite Ec. exact (blocked_bijective P tps L S bs pm pdofs pnum view pos J HS Hone Hpar Hpos Hlen Hview dm rows num Hok' r c Hr Hl Hc).
  - exact (same_dof P tps L S bs pm pdofs pnum view pos J HS Hone Hpar Hpos Hlen Hview dm rows num Hok').
Qed.
