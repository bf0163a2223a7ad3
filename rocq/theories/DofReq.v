(** The required entities. *)
From Verif Require Import Base BaseProofs Algo AlgoProofs CellTypes IndexMap IndexMapSpec OrientProofs DofBuilder DofSpec.
Open Scope nat_scope.

Lemma cell_eqb_iff a b : cell_eqb a b = true <-> a = b.
Proof. split; [|intros ->; destruct b; reflexivity]. destruct a, b; cbn; intros H; try reflexivity; discriminate H. Qed.

Lemma find_type_some t l et : find_type t l = Some et -> nth_error l et = Some t.
Proof.
  revert et. induction l as [|x r IH]; intros et; cbn [find_type]; [discriminate|].
  destruct (cell_eqb x t) eqn:E.
  - intros [= <-]. apply cell_eqb_iff in E. now rewrite E.
  - destruct (find_type t r) as [k|]; [|discriminate]. cbn [obind]. intros [= <-]. now apply IH.
Qed.
Lemma find_type_in t l : In t l -> exists et, find_type t l = Some et.
Proof.
  induction l as [|x r IH]; intros H; cbn [find_type]; [destruct H|].
  destruct (cell_eqb x t) eqn:E; [eauto|]. destruct H as [->|H].
  - assert (cell_eqb t t = true) by now apply cell_eqb_iff. congruence.
  - destruct (IH H) as (k & ->). cbn [obind]. eauto.
Qed.
Lemma find_type_spec t l et : NoDup l -> (find_type t l = Some et <-> nth_error l et = Some t).
Proof.
  intros ND. split; [apply find_type_some|]. intros H. destruct (find_type_in t l (nth_error_In _ _ H)) as (k & E). rewrite E.
  f_equal. apply find_type_some in E. eapply NoDup_nth_error_inj; eauto.
Qed.

Lemma find_req_some de rq n : find_req de rq = Some n -> In (de, n) rq.
Proof.
  unfold find_req. destruct (find _ rq) as [[de' n']|] eqn:E; [|discriminate]. cbn [option_map snd]. intros [= ->].
  apply find_some in E as [Hin E]. apply peqb_iff in E. cbn in E. now subst.
Qed.
Lemma find_req_none de rq : find_req de rq = None -> ~ In de (map fst rq).
Proof.
  unfold find_req. destruct (find _ rq) as [[de' n']|] eqn:E; [discriminate|]. intros _ Hin.
  apply in_map_iff in Hin as (r & E1 & Hr). pose proof (find_none _ _ E r Hr) as N. cbn in N.
  assert (pair_eqb (fst r) de = true) by now apply peqb_iff. congruence.
Qed.

Notation item := (nat * cell_type * nat * (nat * list nat))%type.
Definition items (cts : list cell_type) (D : nat) (lys : list layout) : list item :=
  concat (map (fun i => match nth_error cts i, nth_error lys i with
    | Some ct, Some ly => concat (map (fun d => match nth_error (ly_dofs ly) d with Some eds => map (fun x => (i, ct, d, x)) (combine (seq 0 (length eds)) eds) | None => [] end) (seq 0 (S D)))
    | _, _ => [] end) (seq 0 (length cts))).

Lemma in_enum {A} (l : list A) i x : In (i, x) (combine (seq 0 (length l)) l) <-> nth_error l i = Some x.
Proof.
  assert (G : forall a, In (i, x) (combine (seq a (length l)) l) <-> a <= i /\ nth_error l (i - a) = Some x).
  { induction l as [|y t IH]; intros a; cbn [length seq combine In].
    - split; [intros []|]. intros [_ H]. destruct (i - a); discriminate.
    - rewrite IH. split.
      + intros [[= <- <-]|[H1 H2]]; [rewrite Nat.sub_diag; auto|]. split; [lia|]. replace (i - a) with (S (i - S a)) by lia. exact H2.
      + intros [H1 H2]. destruct (Nat.eq_dec i a) as [->|N].
        * rewrite Nat.sub_diag in H2. cbn in H2. left. congruence.
        * right. split; [lia|]. replace (i - a) with (S (i - S a)) in H2 by lia. exact H2. }
  rewrite G, Nat.sub_0_r. split; [tauto|]. split; [lia|auto].
Qed.

Lemma items_in cts D lys i ct d e ds : In (i, ct, d, (e, ds)) (items cts D lys) <->
  nth_error cts i = Some ct /\ d <= D /\ exists ly eds, nth_error lys i = Some ly /\ nth_error (ly_dofs ly) d = Some eds /\ nth_error eds e = Some ds.
Proof.
  unfold items. rewrite in_concat. split.
  - intros (l & Hl & Hin). apply in_map_iff in Hl as (i0 & <- & Hi).
    destruct (nth_error cts i0) as [ct0|] eqn:E1; [|destruct Hin]. destruct (nth_error lys i0) as [ly|] eqn:E2; [|destruct Hin].
    apply in_concat in Hin as (l & Hl & Hin). apply in_map_iff in Hl as (d0 & <- & Hd).
    destruct (nth_error (ly_dofs ly) d0) as [eds|] eqn:E3; [|destruct Hin].
    apply in_map_iff in Hin as (x & [= <- <- <- Ex] & Hx). subst x. apply in_enum in Hx. apply in_seq in Hd.
    split; [auto|]. split; [lia|]. eauto.
  - intros (E1 & Hd & ly & eds & E2 & E3 & E4). eexists. split.
    + apply in_map_iff. exists i. split; [reflexivity|]. apply in_seq. pose proof (nth_error_bound _ _ _ E1). lia.
    + rewrite E1, E2. apply in_concat. eexists. split.
      * apply in_map_iff. exists d. split; [reflexivity|]. apply in_seq. lia.
      * rewrite E3. apply in_map_iff. exists (e, ds). split; [reflexivity|]. now apply in_enum.
Qed.

Definition req_step (types : nat -> list cell_type) (rq : list req) (it : item) : list req :=
  let '(i, ct, d, (e, ds)) := it in
  match ds with
  | [] => rq
  | _ => match find_type (cell_entity_type ct d e) (types d) with
         | None => rq
         | Some et => match find_req (d, et) rq with None => rq ++ [((d, et), length ds)] | Some _ => rq end
         end
  end.
Definition req_list (types : nat -> list cell_type) (D : nat) (lys : list layout) : list req :=
  fold_left (req_step types) (items (types D) D lys) [].

Lemma req_list_ext types types' D lys : (forall d, types d = types' d) -> req_list types D lys = req_list types' D lys.
Proof.
  intros H. unfold req_list. rewrite (H D). generalize (@nil req). induction (items (types' D) D lys) as [|it l IH]; intros rq; [reflexivity|].
  cbn [fold_left]. rewrite IH. f_equal. unfold req_step. destruct it as (((i, ct), d), (e, ds)). now rewrite (H d).
Qed.

Section R.
Variables (tp : topo) (lys : list layout).
Hypothesis Hok : tp_ok tp lys.
Let D := tp_dim tp.

Lemma required_items : required tp lys =
  ofold (fun rq it => let '(i, ct, d, x) := it in require tp i ct d rq x) (items (tp_types tp D) D lys) [].
Proof.
  unfold required, items. fold D. rewrite <- (ofold_nested _ (fun i => Some (match nth_error (tp_types tp D) i, nth_error lys i with
    | Some ct, Some ly => concat (map (fun d => match nth_error (ly_dofs ly) d with Some eds => map (fun x => (i, ct, d, x)) (combine (seq 0 (length eds)) eds) | None => [] end) (seq 0 (S D)))
    | _, _ => [] end))) by reflexivity.
  apply ofold_ext. intros rq i Hi. apply in_seq in Hi. cbn [obind].
  destruct (nth_error_lt (tp_types tp D) i) as (ct & E1); [lia|]. destruct (nth_error_lt lys i) as (ly & E2); [rewrite (tk_layouts _ _ Hok); fold D; lia|].
  rewrite E1, E2. cbn [obind]. rewrite <- (ofold_nested _ (fun d => Some (match nth_error (ly_dofs ly) d with Some eds => map (fun x => (i, ct, d, x)) (combine (seq 0 (length eds)) eds) | None => [] end))) by reflexivity.
  apply ofold_ext. intros rq' d Hd. apply in_seq in Hd. cbn [obind].
  destruct (tk_shape _ _ Hok i ct ly E1 E2) as (S1 & _ & _). destruct (nth_error_lt (ly_dofs ly) d) as (eds & E3); [fold D in S1; lia|].
  rewrite E3. cbn [obind]. rewrite ofold_map. reflexivity.
Qed.

Lemma item_on i ct d e ds : In (i, ct, d, (e, ds)) (items (tp_types tp D) D lys) -> on_entity tp lys i d e (cell_entity_type ct d e) ds /\ d <= D.
Proof. intros H. apply items_in in H as (E1 & Hd & ly & eds & E2 & E3 & E4). split; [|exact Hd]. now exists ct, ly, eds. Qed.
Lemma on_item i d e t ds : on_entity tp lys i d e t ds -> exists ct, t = cell_entity_type ct d e /\ In (i, ct, d, (e, ds)) (items (tp_types tp D) D lys).
Proof.
  intros (ct & ly & eds & E1 & E2 & E3 & E4 & ->). exists ct. split; [reflexivity|]. apply items_in. split; [exact E1|].
  destruct (tk_shape _ _ Hok i ct ly E1 E2) as (S1 & _ & _). pose proof (nth_error_bound _ _ _ E3). split; [unfold D; lia|]. eauto.
Qed.
Lemma on_dim i d e t ds : on_entity tp lys i d e t ds -> d <= D.
Proof. intros H. apply on_item in H as (ct & _ & H). now apply item_on in H. Qed.

Theorem required_ok : required tp lys = Some (req_list (tp_types tp) D lys) /\ rq_ok tp lys (req_list (tp_types tp) D lys).
Proof.
  rewrite required_items. unfold req_list.
  assert (G : exists rq, ofold (fun rq it => let '(i, ct, d, x) := it in require tp i ct d rq x) (items (tp_types tp D) D lys) [] = Some rq /\
    (rq = fold_left (req_step (tp_types tp)) (items (tp_types tp D) D lys) [] /\ NoDup (map fst rq) /\
     forall d et n, In ((d, et), n) rq <-> 0 < n /\ exists i e ct ds, In (i, ct, d, (e, ds)) (items (tp_types tp D) D lys) /\ nth_error (tp_types tp d) et = Some (cell_entity_type ct d e) /\ length ds = n)).
  { apply (ofold_prefix_ind _ (fun p rq => rq = fold_left (req_step (tp_types tp)) p [] /\ NoDup (map fst rq) /\
     forall d et n, In ((d, et), n) rq <-> 0 < n /\ exists i e ct ds, In (i, ct, d, (e, ds)) p /\ nth_error (tp_types tp d) et = Some (cell_entity_type ct d e) /\ length ds = n)).
    - split; [reflexivity|]. split; [constructor|]. intros d et n. split; [intros []|]. intros (_ & i & e & ct & ds & [] & _).
    - intros p it q rq E (I1 & I2 & I3). destruct it as (((i, ct), d), (e, ds)).
      assert (Hit : In (i, ct, d, (e, ds)) (items (tp_types tp D) D lys)) by (rewrite E; apply in_or_app; right; now left).
      assert (Hp : forall it, In it p -> In it (items (tp_types tp D) D lys)) by (intros it Hin; rewrite E; apply in_or_app; now left).
      destruct (item_on _ _ _ _ _ Hit) as (Hon & Hd). rewrite fold_left_app. cbn [fold_left]. rewrite <- I1.
      unfold require, req_step. cbn [fst snd]. destruct ds as [|d0 ds'] eqn:Eds.
      { exists rq. split; [reflexivity|]. split; [reflexivity|]. split; [exact I2|]. intros d1 et n. rewrite I3. split; intros (Hn & i1 & e1 & ct1 & ds1 & Hin & H1 & H2).
        - split; [exact Hn|]. exists i1, e1, ct1, ds1. split; [apply in_or_app; now left|auto].
        - split; [exact Hn|]. exists i1, e1, ct1, ds1. split; [|auto]. apply in_app_or in Hin as [Hin|[[= <- <- <- <- <-]|[]]]; [exact Hin|]. cbn in H2. lia. }
      rewrite <- Eds in *. assert (Hne : ds <> []) by (rewrite Eds; discriminate). assert (Hlen : 0 < length ds) by (rewrite Eds; cbn; lia).
      destruct (find_type_in _ _ (tk_known _ _ Hok _ _ _ _ _ Hon Hne)) as (et & Ht). rewrite Ht. cbn [obind]. pose proof (find_type_some _ _ _ Ht) as Hnt.
      destruct (find_req (d, et) rq) as [n|] eqn:Ef.
      + apply find_req_some in Ef. destruct (proj1 (I3 _ _ _) Ef) as (Hn & i1 & e1 & ct1 & ds1 & Hin & H1 & H2).
        destruct (item_on _ _ _ _ _ (Hp _ Hin)) as (Hon1 & _). rewrite Hnt in H1. injection H1 as H1. rewrite <- H1 in Hon1.
        pose proof (tk_same _ _ Hok _ _ _ _ _ _ _ _ Hon1 Hon) as Hs. rewrite Hs in H2. rewrite <- H2, Nat.eqb_refl.
        exists rq. split; [reflexivity|]. split; [reflexivity|]. split; [exact I2|]. intros d2 et2 n2. rewrite I3. split; intros (Hn2 & i2 & e2 & ct2 & ds2 & Hin2 & H12 & H22).
        * split; [exact Hn2|]. exists i2, e2, ct2, ds2. split; [apply in_or_app; now left|auto].
        * split; [exact Hn2|]. apply in_app_or in Hin2 as [Hin2|[[= <- <- <- <- <-]|[]]]; [exists i2, e2, ct2, ds2; auto|].
          exists i1, e1, ct1, ds1. split; [exact Hin|]. split; [now rewrite <- H1|]. congruence.
      + assert (Ec : (d <? tp_dim tp) && match tp_conn tp i d et with None => true | _ => false end = false).
        { destruct (Nat.ltb_spec d (tp_dim tp)) as [L|L]; [|reflexivity]. cbn [andb]. pose proof (tk_conn _ _ Hok i d et e _ ds L Hon Hne Hnt) as Hc. destruct (tp_conn tp i d et); [reflexivity|congruence]. }
        rewrite Ec. eexists. split; [reflexivity|]. split; [reflexivity|]. split.
        * rewrite map_app. cbn [map fst]. apply (Permutation_NoDup (Permutation_cons_append _ _)). constructor; [|exact I2]. now apply find_req_none.
        * intros d2 et2 n2. rewrite in_app_iff, I3. cbn [In]. split.
          -- intros [(Hn2 & i2 & e2 & ct2 & ds2 & Hin2 & H12 & H22)|[[= <- <- <-]|[]]].
             ++ split; [exact Hn2|]. exists i2, e2, ct2, ds2. split; [apply in_or_app; now left|auto].
             ++ split; [exact Hlen|]. exists i, e, ct, ds. split; [apply in_or_app; right; now left|auto].
          -- intros (Hn2 & i2 & e2 & ct2 & ds2 & Hin2 & H12 & H22). apply in_app_or in Hin2 as [Hin2|[[= <- <- <- <- <-]|[]]].
             ++ left. split; [exact Hn2|]. exists i2, e2, ct2, ds2. auto.
             ++ right. left. assert (et2 = et) as -> by (eapply NoDup_nth_error_inj; [apply (tk_types _ _ Hok d Hd)| |]; eauto). congruence. }
  destruct G as (rq & E & E1 & E2 & E3). split; [now rewrite <- E1|]. rewrite <- E1. split; [exact E2|].
  intros d et n. rewrite E3. split; intros (Hn & i & e & t & ds & H1 & H2 & H3); (split; [exact Hn|]).
  - exists i, e, (cell_entity_type t d e), ds. destruct (item_on _ _ _ _ _ H1). auto.
  - apply on_item in H1 as (ct & -> & H1). exists i, e, ct, ds. auto.
Qed.
End R.
