(** The dofs of the cells before renumbering. *)
From Verif Require Import Base BaseProofs BucketProofs Algo AlgoProofs CellTypes IndexMap IndexMapSpec OrientProofs DofBuilder DofSpec DofReq.
Open Scope nat_scope.

Definition wr (row : list nat) (pv : nat * nat) : option (list nat) := upd row (fst pv) (snd pv).
Lemma writes_ok W row : (forall p v, In (p, v) W -> p < length row) -> (forall p v v', In (p, v) W -> In (p, v') W -> v = v') ->
  exists row', ofold wr W row = Some row' /\ length row' = length row /\ forall p v, In (p, v) W -> nth_error row' p = Some v.
Proof.
  intros Hb Hf. apply (ofold_prefix_ind wr (fun P0 r => length r = length row /\ forall p v, In (p, v) P0 -> nth_error r p = Some v)).
  - split; [reflexivity|]. intros p v [].
  - intros P0 (p, v) q s E (I1 & I2). assert (Hin : In (p, v) W) by (rewrite E; apply in_or_app; right; now left).
    destruct (upd_some s p v) as (s' & Hs); [rewrite I1; now apply (Hb p v)|]. exists s'. split; [exact Hs|].
    split; [rewrite (upd_length _ _ _ _ Hs); exact I1|]. intros p1 v1 H1. rewrite (upd_nth _ _ _ p1 _ Hs).
    destruct (Nat.eqb_spec p p1) as [<-|N].
    + f_equal. apply (Hf p); [exact Hin|]. rewrite E. apply in_app_or in H1 as [H1|[H1|[]]]; apply in_or_app; [now left|right; now left].
    + apply in_app_or in H1 as [H1|[[= E1 E2]|[]]]; [now apply I2|congruence].
Qed.

Lemma combine_nth2 {A B} (a : list A) (b : list B) i x y : nth_error a i = Some x -> nth_error b i = Some y -> In (x, y) (combine a b).
Proof. revert b i. induction a as [|u a IH]; intros [|w b] [|i] H1 H2; cbn in *; try discriminate; [left; congruence|right; eauto]. Qed.
Lemma in_combine_nth {A B} (a : list A) (b : list B) x y : In (x, y) (combine a b) -> exists i, nth_error a i = Some x /\ nth_error b i = Some y.
Proof. revert b. induction a as [|u a IH]; intros [|w b] H; cbn in H; try destruct H as [[= <- <-]|H]; try contradiction; [now exists 0|]. destruct (IH _ H) as (i & ?). now exists (S i). Qed.

(** The writes of one entity *)
Definition ent_writes (n off ei : nat) (ds : list nat) : list (nat * nat) := combine ds (map (fun j => off + n * ei + j) (seq 0 n)).
Lemma ent_writes_in n off ei ds p v : length ds = n -> (In (p, v) (ent_writes n off ei ds) <-> exists j, nth_error ds j = Some p /\ v = off + n * ei + j).
Proof.
  intros Hl. unfold ent_writes. split.
  - intros H. apply in_combine_nth in H as (j & H1 & H2). exists j. split; [exact H1|]. rewrite nth_error_map_some in H2.
    rewrite nth_error_seq in H2 by (rewrite <- Hl; eapply nth_error_bound; eauto). cbn in H2. congruence.
  - intros (j & H1 & ->). apply combine_nth2 with j; [exact H1|]. rewrite nth_error_map_some, nth_error_seq by (rewrite <- Hl; eapply nth_error_bound; eauto). reflexivity.
Qed.
Lemma inner_writes m off ds : forall n a row, length ds = n ->
  ofold (fun row jl => upd row (snd jl) (off + m + fst jl)) (combine (seq a n) ds) row = ofold wr (combine ds (map (fun j => off + m + j) (seq a n))) row.
Proof.
  induction ds as [|p t IH]; intros n a row Hl; destruct n as [|n]; try discriminate; [reflexivity|].
  cbn [seq combine map ofold fst snd]. unfold wr at 1. cbn [fst snd]. destruct (upd row p (off + m + a)); [|reflexivity]. cbn [obind]. apply IH. now injection Hl.
Qed.

Section F.
Variables (ct : cell_type) (d : nat) (type : cell_type) (n off : nat) (c_to_e : list nat) (num : nat).
Let matches (e : nat) : bool := cell_eqb type (cell_entity_type ct d e).
Definition ent_step (st : list nat * nat) (eds : nat * list nat) : option (list nat * nat) :=
  let '(row, w) := st in
     if fst eds <? num then
       if cell_eqb type (cell_entity_type ct d (fst eds)) then
         if length (snd eds) =? n then
           ei <- nth_error c_to_e w ;;
           row <- ofold (fun row jl => upd row (snd jl) (off + n * ei + fst jl)) (combine (seq 0 n) (snd eds)) row ;;
           Some (row, S w)
         else None
       else Some st
     else None.
Lemma ent_loop eds : forall a w, a + length eds <= num ->
  (forall k ds, nth_error eds k = Some ds -> matches (a + k) = true -> length ds = n) ->
  w + countb matches (seq a (length eds)) <= length c_to_e ->
  exists W, (forall row, ofold ent_step (combine (seq a (length eds)) eds) (row, w) = (row' <- ofold wr W row ;; Some (row', w + countb matches (seq a (length eds))))) /\
    forall p v, In (p, v) W <-> exists k ds j ei, nth_error eds k = Some ds /\ matches (a + k) = true /\ nth_error ds j = Some p /\
      nth_error c_to_e (w + countb matches (seq a k)) = Some ei /\ v = off + n * ei + j.
Proof.
  induction eds as [|ds t IH]; intros a w Ha Hn Hw; cbn [length seq combine] in *.
  - exists []. split; [intros row; cbn [ofold obind countb]; now rewrite Nat.add_0_r|]. intros p v. split; [intros []|]. intros ([|k] & ? & ? & ? & E & _); discriminate.
  - cbn [countb] in *. assert (Hlt : (a <? num) = true) by (apply Nat.ltb_lt; lia).
    destruct (matches a) eqn:Em.
    + destruct (IH (S a) (S w)) as (W & HW & Hin).
      * lia.
      * intros k ds' E M. apply (Hn (S k) ds' E). rewrite Nat.add_succ_r. exact M.
      * lia.
      * destruct (nth_error_lt c_to_e w) as (ei & Ee); [lia|]. assert (Hl : length ds = n) by (apply (Hn 0 ds eq_refl); now rewrite Nat.add_0_r).
        exists (ent_writes n off ei ds ++ W). split.
        -- intros row. cbn [ofold]. unfold ent_step at 1. cbn [fst snd]. rewrite Hlt. fold (matches a). rewrite Em, Hl, Nat.eqb_refl, Ee. cbn [obind].
           rewrite (inner_writes (n * ei) off ds n 0 row Hl). fold (ent_writes n off ei ds). rewrite ofold_app.
           destruct (ofold wr (ent_writes n off ei ds) row) as [row'|]; [|reflexivity]. cbn [obind]. rewrite HW. destruct (ofold wr W row'); [|reflexivity]. cbn [obind]. do 2 f_equal. lia.
        -- intros p v. rewrite in_app_iff, (ent_writes_in _ _ _ _ _ _ Hl), Hin. split.
           ++ intros [(j & H1 & ->)|(k & ds' & j & ei' & H1 & H2 & H3 & H4 & ->)].
              ** exists 0, ds, j, ei. rewrite Nat.add_0_r. cbn [nth_error seq countb]. rewrite Nat.add_0_r. auto.
              ** exists (S k), ds', j, ei'. rewrite Nat.add_succ_r. cbn [nth_error seq countb]. rewrite Em. replace (w + (1 + countb matches (seq (S a) k))) with (S w + countb matches (seq (S a) k)) by lia. auto.
           ++ intros (k & ds' & j & ei' & H1 & H2 & H3 & H4 & ->). destruct k as [|k].
              ** left. cbn [nth_error seq countb] in H1, H4. rewrite Nat.add_0_r in H4. injection H1 as <-. rewrite Ee in H4. injection H4 as <-. eauto.
              ** right. exists k, ds', j, ei'. rewrite Nat.add_succ_r in H2. cbn [nth_error seq countb] in H1, H4. rewrite Em in H4. replace (w + (1 + countb matches (seq (S a) k))) with (S w + countb matches (seq (S a) k)) in H4 by lia. auto.
    + destruct (IH (S a) w) as (W & HW & Hin).
      * lia.
      * intros k ds' E M. apply (Hn (S k) ds' E). rewrite Nat.add_succ_r. exact M.
      * lia.
      * exists W. split.
        -- intros row. cbn [ofold]. unfold ent_step at 1. cbn [fst snd]. rewrite Hlt. fold (matches a). rewrite Em. cbn [obind]. rewrite HW. destruct (ofold wr W row); [|reflexivity]. cbn [obind]. do 2 f_equal.
        -- intros p v. rewrite Hin. split.
           ++ intros (k & ds' & j & ei' & H1 & H2 & H3 & H4 & ->). exists (S k), ds', j, ei'. rewrite Nat.add_succ_r. cbn [nth_error seq countb]. rewrite Em. auto.
           ++ intros (k & ds' & j & ei' & H1 & H2 & H3 & H4 & ->). destruct k as [|k].
              ** rewrite Nat.add_0_r in H2. congruence.
              ** exists k, ds', j, ei'. rewrite Nat.add_succ_r in H2. cbn [nth_error seq countb] in H1, H4. rewrite Em in H4. auto.
Qed.
End F.

Lemma concat_inj {A} (L : list (list A)) k1 k2 m1 m2 j1 j2 x : NoDup (concat L) -> nth_error L k1 = Some m1 -> nth_error L k2 = Some m2 ->
  nth_error m1 j1 = Some x -> nth_error m2 j2 = Some x -> k1 = k2 /\ j1 = j2.
Proof.
  intros ND H1 H2 J1 J2. pose proof (nth_error_bound _ _ _ J1) as B1. pose proof (nth_error_bound _ _ _ J2) as B2.
  pose proof (nth_error_concat L k1 m1 j1 H1 B1) as C1. pose proof (nth_error_concat L k2 m2 j2 H2 B2) as C2. rewrite J1 in C1. rewrite J2 in C2.
  pose proof (NoDup_nth_error_inj _ _ _ _ ND C1 C2) as E.
  assert (M1 : nth_error (map (@length A) L) k1 = Some (length m1)) by (rewrite nth_error_map_some, H1; reflexivity).
  assert (M2 : nth_error (map (@length A) L) k2 = Some (length m2)) by (rewrite nth_error_map_some, H2; reflexivity).
  destruct (Nat.lt_trichotomy k1 k2) as [L0|[->|L0]].
  - pose proof (off_disjoint _ _ _ _ L0 M1). lia.
  - split; [reflexivity|lia].
  - pose proof (off_disjoint _ _ _ _ L0 M2). lia.
Qed.

Section C.
Variables (tp : topo) (lys : list layout) (rq : list req).
Hypothesis Hok : tp_ok tp lys.
Hypothesis Hrq : rq_ok tp lys rq.
Let D := tp_dim tp.
Variables (i : nat) (ct : cell_type) (ly : layout).
Hypothesis Hct : nth_error (tp_types tp D) i = Some ct.
Hypothesis Hly : nth_error lys i = Some ly.

Lemma eds_of d : d <= D -> exists eds, nth_error (ly_dofs ly) d = Some eds /\ cell_num_entities ct d = Some (length eds).
Proof.
  intros Hd. destruct (tk_shape _ _ Hok i ct ly Hct Hly) as (S1 & S2 & _). destruct (nth_error_lt (ly_dofs ly) d) as (eds & E); [unfold D in Hd; lia|]. eauto.
Qed.

Lemma top_num : cell_num_entities ct D = Some 1.
Proof. pose proof (tk_cells _ _ Hok ct (nth_error_In _ _ Hct)) as H. fold D in H. rewrite <- H. destruct ct; reflexivity. Qed.
Lemma top_type e : cell_entity_type ct D e = ct.
Proof. pose proof (tk_cells _ _ Hok ct (nth_error_In _ _ Hct)) as H. fold D in H. unfold cell_entity_type. now rewrite H, Nat.eqb_refl. Qed.

(** The writes for one required entity *)
Definition off_at (k : nat) : nat := lsum (firstn k (map (req_size tp) rq)).
Definition req_step1 (c : nat) (row : list nat) (ro : req * nat) : option (list nat) :=
     let '(((d, et), n), off) := ro in
     type <- nth_error (tp_types tp d) et ;;
     if d <? tp_dim tp then
       match tp_conn tp i d et with
       | None => Some row
       | Some links => c_to_e <- nth_error links c ;; fill_entities ct ly d type n off c_to_e row
       end
     else fill_entities ct ly d type n off [c] row.

Lemma fill_entities_writes d et t n off c_to_e eds :
  In ((d, et), n) rq -> nth_error (tp_types tp d) et = Some t -> nth_error (ly_dofs ly) d = Some eds -> cell_num_entities ct d = Some (length eds) ->
  rank_in_type ct d (length eds) t <= length c_to_e ->
  exists W, (forall row, fill_entities ct ly d t n off c_to_e row = ofold wr W row) /\
    forall p v, In (p, v) W <-> exists e ds j x, nth_error eds e = Some ds /\ t = cell_entity_type ct d e /\ nth_error ds j = Some p /\
      nth_error c_to_e (rank_in_type ct d e t) = Some x /\ v = off + n * x + j.
Proof.
  intros Hin Ht He Hnum Hlen.
  destruct (ent_loop ct d t n off c_to_e (length eds) eds 0 0) as (W & HW & HinW).
  - lia.
  - intros k ds E M. cbn [Nat.add] in M. apply cell_eqb_iff in M. destruct Hrq as (_ & R). apply R in Hin as (_ & i1 & e1 & t1 & ds1 & Hon & Ht1 & <-).
    rewrite Ht in Ht1. injection Ht1 as <-. apply (tk_same _ _ Hok i d k t ds i1 e1 ds1); [|exact Hon]. exists ct, ly, eds. auto.
  - exact Hlen.
  - exists W. split.
    + intros row. unfold fill_entities. rewrite He, Hnum. cbn [obind]. fold (ent_step ct d t n off c_to_e (length eds)). rewrite HW. destruct (ofold wr W row); reflexivity.
    + intros p v. rewrite HinW. split.
      * intros (k & ds & j & ei & H1 & H2 & H3 & H4 & H5). exists k, ds, j, ei. apply cell_eqb_iff in H2. auto.
      * intros (k & ds & j & ei & H1 & H2 & H3 & H4 & H5). exists k, ds, j, ei. split; [exact H1|]. split; [now apply cell_eqb_iff|auto].
Qed.

Lemma req_writes c k d et n off : c < map_size (tp_map tp D i) -> nth_error rq k = Some ((d, et), n) ->
  exists W, (forall row, req_step1 c row ((d, et, n), off) = ofold wr W row) /\
    forall p v, In (p, v) W <-> exists e t ds j x, on_entity tp lys i d e t ds /\ nth_error (tp_types tp d) et = Some t /\ nth_error ds j = Some p /\ attached tp i c d e t x /\ v = off + n * x + j.
Proof.
  intros Hc Hk. pose proof (nth_error_In _ _ Hk) as Hin. destruct (proj1 (proj2 Hrq _ _ _) Hin) as (Hn & i1 & e1 & t & ds1 & Hon & Ht & Hl).
  pose proof (on_dim _ _ Hok _ _ _ _ _ Hon) as Hd. fold D in Hd. destruct (eds_of d Hd) as (eds & He & Hnum).
  assert (Hun : forall row, req_step1 c row (d, et, n, off) = if d <? D then match tp_conn tp i d et with None => Some row | Some links => c_to_e <- nth_error links c ;; fill_entities ct ly d t n off c_to_e row end else fill_entities ct ly d t n off [c] row).
  { intros row. unfold req_step1. now rewrite Ht. }
  destruct (Nat.ltb_spec d D) as [L|L].
  - destruct (tp_conn tp i d et) as [links|] eqn:Ec.
    + destruct (tk_links _ _ Hok i ct d et t links L Hct Ht Ec) as (L1 & L2). fold D in L1. destruct (nth_error_lt links c) as (row & Er); [lia|]. 
      destruct (L2 row _ (nth_error_In _ _ Er) Hnum) as (L3 & L4).
      destruct (fill_entities_writes d et t n off row eds Hin Ht He Hnum) as (W & HW & HinW); [lia|]. exists W. split; [intros row'; rewrite Hun, Er; apply HW|]. intros p v. rewrite HinW. split.
      * intros (e & ds & j & x & H1 & H2 & H3 & H4 & ->). exists e, t, ds, j, x. split; [exists ct, ly, eds; auto|]. split; [exact Ht|]. split; [exact H3|]. split; [|reflexivity].
        unfold attached. fold D. rewrite (proj2 (Nat.eqb_neq d D)) by lia. exists ct, et, links, row. auto.
      * intros (e & t' & ds & j & x & (ct' & ly' & eds' & E1 & E2 & E3 & E4 & E5) & Ht' & H3 & H4 & ->).
        fold D in E1. rewrite Hct in E1. injection E1 as <-. rewrite Hly in E2. injection E2 as <-. rewrite He in E3. injection E3 as <-. rewrite Ht in Ht'. injection Ht' as <-.
        exists e, ds, j, x. split; [exact E4|]. split; [exact E5|]. split; [exact H3|]. split; [|reflexivity].
        unfold attached in H4. fold D in H4. rewrite (proj2 (Nat.eqb_neq d D)) in H4 by lia. destruct H4 as (ct2 & et2 & links2 & row2 & A1 & A2 & A3 & A4 & A5).
        rewrite Hct in A1. injection A1 as <-. assert (et2 = et) as -> by (eapply NoDup_nth_error_inj; [apply (tk_types _ _ Hok d Hd)| |]; eauto). congruence.
    + exists []. split; [intros row; rewrite Hun; reflexivity|]. intros p v. split; [intros []|]. intros (e & t' & ds & j & x & Hon' & Ht' & H3 & H4 & ->). exfalso.
      apply (tk_conn _ _ Hok i d et e t' ds L Hon'); [|exact Ht'|exact Ec]. intros ->. destruct j; discriminate.
  - assert (d = D) as -> by lia. rewrite top_num in Hnum. injection Hnum as Hnum.
    destruct (fill_entities_writes D et t n off [c] eds Hin Ht He) as (W & HW & HinW).
    + rewrite top_num. now rewrite <- Hnum.
    + rewrite <- Hnum. unfold rank_in_type. cbn [seq countb length]. destruct (cell_eqb t _); lia.
    + exists W. split; [intros row; rewrite Hun; apply HW|]. intros p v. rewrite HinW. split.
      * intros (e & ds & j & x & H1 & H2 & H3 & H4 & ->). exists e, t, ds, j, x. split; [exists ct, ly, eds; auto|]. split; [exact Ht|]. split; [exact H3|]. split; [|reflexivity].
        unfold attached. fold D. rewrite Nat.eqb_refl. pose proof (nth_error_bound _ _ _ H1). assert (e = 0) as -> by lia. cbn in H4. congruence.
      * intros (e & t' & ds & j & x & (ct' & ly' & eds' & E1 & E2 & E3 & E4 & E5) & Ht' & H3 & H4 & ->).
        fold D in E1. rewrite Hct in E1. injection E1 as <-. rewrite Hly in E2. injection E2 as <-. rewrite He in E3. injection E3 as <-. rewrite Ht in Ht'. injection Ht' as <-.
        exists e, ds, j, x. split; [exact E4|]. split; [exact E5|]. split; [exact H3|]. split; [|reflexivity].
        unfold attached in H4. fold D in H4. rewrite Nat.eqb_refl in H4. subst x. pose proof (nth_error_bound _ _ _ E4). assert (e = 0) as -> by lia. reflexivity.
Qed.

(** Positions of the layout are attached once. *)
Lemma place_inj d1 d2 e1 e2 t1 t2 ds1 ds2 j1 j2 p : on_entity tp lys i d1 e1 t1 ds1 -> on_entity tp lys i d2 e2 t2 ds2 ->
  nth_error ds1 j1 = Some p -> nth_error ds2 j2 = Some p -> d1 = d2 /\ e1 = e2 /\ j1 = j2 /\ t1 = t2 /\ ds1 = ds2.
Proof.
  intros (ct1 & ly1 & eds1 & A1 & A2 & A3 & A4 & A5) (ct2 & ly2 & eds2 & B1 & B2 & B3 & B4 & B5) J1 J2.
  fold D in A1, B1. rewrite Hct in A1, B1. injection A1 as <-. injection B1 as <-. rewrite Hly in A2, B2. injection A2 as <-. injection B2 as <-.
  destruct (tk_shape _ _ Hok i ct ly Hct Hly) as (_ & _ & S3).
  assert (ND : NoDup (concat (concat (ly_dofs ly)))) by (eapply Permutation_NoDup; [symmetry; exact S3|apply seq_NoDup]).
  pose proof (nth_error_bound _ _ _ A4) as Be1. pose proof (nth_error_bound _ _ _ B4) as Be2.
  pose proof (nth_error_concat _ d1 eds1 e1 A3 Be1) as C1. pose proof (nth_error_concat _ d2 eds2 e2 B3 Be2) as C2. rewrite A4 in C1. rewrite B4 in C2.
  destruct (concat_inj _ _ _ _ _ _ _ p ND C1 C2 J1 J2) as (Ek & Ej).
  assert (M1 : nth_error (map (@length _) (ly_dofs ly)) d1 = Some (length eds1)) by (rewrite nth_error_map_some, A3; reflexivity).
  assert (M2 : nth_error (map (@length _) (ly_dofs ly)) d2 = Some (length eds2)) by (rewrite nth_error_map_some, B3; reflexivity).
  assert (d1 = d2) as <-.
  { destruct (Nat.lt_trichotomy d1 d2) as [L0|[->|L0]]; [pose proof (off_disjoint _ _ _ _ L0 M1); lia|reflexivity|pose proof (off_disjoint _ _ _ _ L0 M2); lia]. }
  assert (e1 = e2) as <- by lia. split; [reflexivity|]. split; [reflexivity|]. split; [exact Ej|]. split; [congruence|]. congruence.
Qed.
Lemma place_lt d e t ds j p : on_entity tp lys i d e t ds -> nth_error ds j = Some p -> p < ly_num ly.
Proof.
  intros (ct1 & ly1 & eds1 & A1 & A2 & A3 & A4 & A5) J. rewrite Hly in A2. injection A2 as <-. destruct (tk_shape _ _ Hok i ct ly Hct Hly) as (_ & _ & S3).
  assert (Hin : In p (concat (concat (ly_dofs ly)))) by (apply in_concat; exists ds; split; [apply in_concat; exists eds1; split; eapply nth_error_In; eauto|eapply nth_error_In; eauto]).
  rewrite S3 in Hin. apply in_seq in Hin. lia.
Qed.

Lemma attached_fun c d e t x x' : attached tp i c d e t x -> attached tp i c d e t x' -> d <= D -> x = x'.
Proof.
  unfold attached. fold D. destruct (d =? D); [congruence|]. intros (ct1 & et1 & l1 & r1 & A1 & A2 & A3 & A4 & A5) (ct2 & et2 & l2 & r2 & B1 & B2 & B3 & B4 & B5) Hd.
  rewrite A1 in B1. injection B1 as <-. assert (et2 = et1) as -> by (eapply NoDup_nth_error_inj; [apply (tk_types _ _ Hok d Hd)| |]; eauto). congruence.
Qed.

Lemma fill_cell_ok c : c < map_size (tp_map tp D i) ->
  exists row, fill_cell tp i ct ly rq c = Some row /\ length row = ly_num ly /\
    forall d et n k e t ds j p x, nth_error rq k = Some ((d, et), n) -> on_entity tp lys i d e t ds -> nth_error (tp_types tp d) et = Some t -> nth_error ds j = Some p -> attached tp i c d e t x ->
      nth_error row p = Some (off_at k + n * x + j).
Proof.
  intros Hc. unfold fill_cell. fold (req_step1 c).
  assert (G : forall l offs, (forall a, In a l -> In a rq) -> length l <= length offs -> exists W, (forall row, ofold (req_step1 c) (combine l offs) row = ofold wr W row) /\
    forall p v, In (p, v) W <-> exists k d et n off e t ds j x, nth_error l k = Some ((d, et), n) /\ nth_error offs k = Some off /\ on_entity tp lys i d e t ds /\ nth_error (tp_types tp d) et = Some t /\ nth_error ds j = Some p /\ attached tp i c d e t x /\ v = off + n * x + j).
  { induction l as [|[[d et] n] l IH]; intros offs Hin Hlen.
    - exists []. split; [reflexivity|]. intros p v. split; [intros []|]. intros ([|k] & ? & ? & ? & ? & ? & ? & ? & ? & ? & E & _); discriminate.
    - destruct offs as [|off offs]; [cbn in Hlen; lia|]. destruct (IH offs) as (W & HW & HinW); [intros a Ha; apply Hin; now right|cbn in Hlen; lia|].
      destruct (In_nth_error _ _ (Hin _ (or_introl eq_refl))) as (k0 & Ek0). destruct (req_writes c k0 d et n off Hc Ek0) as (W0 & HW0 & HinW0).
      exists (W0 ++ W). split.
      + intros row. cbn [combine ofold]. rewrite HW0, ofold_app. destruct (ofold wr W0 row); [|reflexivity]. cbn [obind]. apply HW.
      + intros p v. rewrite in_app_iff, HinW0, HinW. split.
        * intros [(e & t & ds & j & x & H)|(k & d' & et' & n' & off' & e & t & ds & j & x & H1 & H2 & H)].
          -- exists 0, d, et, n, off, e, t, ds, j, x. cbn [nth_error]. tauto.
          -- exists (S k), d', et', n', off', e, t, ds, j, x. cbn [nth_error]. tauto.
        * intros ([|k] & d' & et' & n' & off' & e & t & ds & j & x & H1 & H2 & H).
          -- cbn [nth_error] in H1, H2. injection H1 as <- <- <-. injection H2 as <-. left. exists e, t, ds, j, x. exact H.
          -- right. exists k, d', et', n', off', e, t, ds, j, x. cbn [nth_error] in H1, H2. tauto. }
  destruct (G rq (offsets_of tp rq)) as (W & HW & HinW); [auto|unfold offsets_of; rewrite psums_length, map_length; lia|].
  rewrite HW. destruct (writes_ok W (repeat 0 (ly_num ly))) as (row & E & E1 & E2).
  - intros p v Hin. apply HinW in Hin as (k & d & et & n & off & e & t & ds & j & x & _ & _ & Hon & _ & Hj & _). rewrite repeat_length. eapply place_lt; eauto.
  - intros p v v' H1 H2. apply HinW in H1 as (k & d & et & n & off & e & t & ds & j & x & A1 & A2 & A3 & A4 & A5 & A6 & ->).
    apply HinW in H2 as (k' & d' & et' & n' & off' & e' & t' & ds' & j' & x' & B1 & B2 & B3 & B4 & B5 & B6 & ->).
    destruct (place_inj _ _ _ _ _ _ _ _ _ _ _ A3 B3 A5 B5) as (<- & <- & <- & <- & <-). pose proof (on_dim _ _ Hok _ _ _ _ _ A3) as Hd.
    assert (et' = et) as -> by (eapply NoDup_nth_error_inj; [apply (tk_types _ _ Hok d Hd)| |]; eauto).
    assert (k' = k) as ->.
    { destruct Hrq as (ND & _). eapply NoDup_nth_error_inj with (x := (d, et)); [exact ND| |]; rewrite nth_error_map_some; [rewrite B1|rewrite A1]; reflexivity. }
    rewrite A1 in B1. injection B1 as <-. rewrite A2 in B2. injection B2 as <-. now rewrite (attached_fun _ _ _ _ _ _ A6 B6 Hd).
  - exists row. split; [exact E|]. split; [rewrite E1; apply repeat_length|]. intros d et n k e t ds j p x H1 H2 H3 H4 H5. apply E2. apply HinW.
    exists k, d, et, n, (off_at k), e, t, ds, j, x. split; [exact H1|]. split; [|auto]. unfold offsets_of. rewrite psums_nth; [reflexivity|]. rewrite map_length. pose proof (nth_error_bound _ _ _ H1). lia.
Qed.
End C.
