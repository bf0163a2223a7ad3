(** The blocks that assembly adds are in the pattern of the form. *)
From Verif Require Import Base BaseProofs Algo MatrixCSR Assemble AssembleSpec AsmVector FormPattern FormPatternSpec FormPatternProofs.
Open Scope nat_scope.

Lemma omap_back {A B} (f : A -> option B) l m k b : omap f l = Some m -> nth_error m k = Some b -> exists a, nth_error l k = Some a /\ f a = Some b.
Proof.
  intros E Hk. pose proof (nth_error_bound _ _ _ Hk) as Lt. rewrite (omap_length _ _ _ E) in Lt. destruct (nth_error_lt _ _ Lt) as (a & Ha).
  destruct (omap_nth _ _ _ E k a Ha) as (b' & Hb & Ef). exists a. split; [exact Ha|congruence].
Qed.
Lemma over_items_in {I B} (f : I -> option (list B)) l bls b : over_items f l = Some bls -> In b bls -> exists i bs, In i l /\ f i = Some bs /\ In b bs.
Proof.
  unfold over_items. destruct (omap f l) as [m|] eqn:E; [|discriminate]. intros [= <-] Hb. apply in_concat in Hb as (bs & Hm & Hb).
  apply In_nth_error in Hm as (k & Hk). destruct (omap_back _ _ _ _ _ E Hk) as (i & El & Ef). exists i, bs. split; [eapply nth_error_In; eauto|]. auto.
Qed.
Lemma over_integrals_in {T X B} (f : X -> list T -> nat -> option (list B)) igs cf bls b : over_integrals f igs cf = Some bls -> In b bls ->
  exists e flat cs bs, In e igs /\ f (snd e) flat cs = Some bs /\ In b bs.
Proof.
  unfold over_integrals. destruct (omap _ igs) as [m|] eqn:E; [|discriminate]. intros [= <-] Hb. apply in_concat in Hb as (bs & Hm & Hb).
  apply In_nth_error in Hm as (k & Hk). destruct (omap_back _ _ _ _ _ E Hk) as (e & El & Ef). clear Hk. rename Ef into Hk.
  destruct (coeffs_of cf (fst (fst e))) as [(flat, cs)|]; [|discriminate]. cbn [obind fst snd] in Hk. exists e, flat, cs, bs. split; [eapply nth_error_In; eauto|]. auto.
Qed.
Lemma items_together {T E A B} (ents : list E) (a0 : list A) (a1 : list B) (flat : list T) cs e u v co :
  In (e, u, v, co) (items ents a0 a1 flat cs) -> together a0 a1 u v.
Proof.
  unfold items. intro H. apply in_combine_together in H as (k & H & _). apply nth_error_combine2 in H as (H & H1). apply nth_error_combine2 in H as (_ & H0). exists k. auto.
Qed.
Lemma entries_in2 {X} (l : list ((nat * nat) * X)) k e : In e (entries l k) -> exists i, e = ((i, k), snd e) /\ In ((i, k), snd e) l.
Proof. unfold entries. rewrite filter_In. destruct e as ((i, k'), ig). cbn [fst snd]. intros (H & E). apply Nat.eqb_eq in E as ->. exists i. auto. Qed.

Section Blocks.
Context {T U : Type}.
Variables (zero : T) (a : @form T U) (types : list (@ctype T)).

(** [d] is a dof of the test (trial) space. *)
Definition row_dof (d : nat) : Prop := exists ct row, In ct types /\ In row (cd_rows (ct_dm0 ct)) /\ In d row.
Definition col_dof (d : nat) : Prop := exists ct row, In ct types /\ In row (cd_rows (ct_dm1 ct)) /\ In d row.
Definition block_in (bl : @mblock T) : Prop :=
  (forall r, In r (fst (fst bl)) -> row_dof r) /\ (forall c, In c (snd (fst bl)) -> col_dof c) /\
  forall r c, In r (fst (fst bl)) -> In c (snd (fst bl)) -> couples a types r c.

Lemma one_cell ti ct rows cols f c0 c1 : nth_error types ti = Some ct -> nth_error (cd_rows (ct_dm0 ct)) c0 = Some rows -> nth_error (cd_rows (ct_dm1 ct)) c1 = Some cols ->
  (forall r c, in_cell (ct_dm0 ct) c0 r -> in_cell (ct_dm1 ct) c1 c -> couples a types r c) -> block_in (rows, cols, f).
Proof.
  intros Ht E0 E1 H. split; [|split]; cbn [fst snd].
  - intros r Hr. exists ct, rows. split; [eapply nth_error_In; eauto|]. split; [eapply nth_error_In; eauto|exact Hr].
  - intros c Hc. exists ct, cols. split; [eapply nth_error_In; eauto|]. split; [eapply nth_error_In; eauto|exact Hc].
  - intros r c Hr Hc. apply H; eexists; eauto.
Qed.
Lemma dofs_of_in (dm : celldofs) o ds d : dofs_of (cd_rows dm) o = Some ds -> In d ds -> exists c row, o = Some c /\ nth_error (cd_rows dm) c = Some row /\ In d row.
Proof. destruct o as [c|]; cbn [dofs_of]; [intros E Hd; exists c, ds; auto|intros [= <-] []]. Qed.
Lemma one_facet ti ct rows cols f (t0 t1 : option nat * option nat) o0 o1 : nth_error types ti = Some ct ->
  dofs_of (cd_rows (ct_dm0 ct)) o0 = Some rows -> dofs_of (cd_rows (ct_dm1 ct)) o1 = Some cols -> (fst t0 = o0 \/ snd t0 = o0) -> (fst t1 = o1 \/ snd t1 = o1) ->
  (forall r c, in_sides (ct_dm0 ct) t0 r -> in_sides (ct_dm1 ct) t1 c -> couples a types r c) -> block_in (rows, cols, f).
Proof.
  intros Ht E0 E1 S0 S1 H. split; [|split]; cbn [fst snd].
  - intros r Hr. destruct (dofs_of_in _ _ _ _ E0 Hr) as (c & row & _ & Er & Hd). exists ct, row. split; [eapply nth_error_In; eauto|]. split; [eapply nth_error_In; eauto|exact Hd].
  - intros r Hr. destruct (dofs_of_in _ _ _ _ E1 Hr) as (c & row & _ & Er & Hd). exists ct, row. split; [eapply nth_error_In; eauto|]. split; [eapply nth_error_In; eauto|exact Hd].
  - intros r c Hr Hc. destruct (dofs_of_in _ _ _ _ E0 Hr) as (c0 & row & E & Er & Hd). destruct (dofs_of_in _ _ _ _ E1 Hc) as (c1 & col & E' & Ec & Hd').
    apply H; [exists c0|exists c1]; (split; [|eexists; eauto]); [destruct S0; [left|right]; congruence|destruct S1; [left|right]; congruence].
Qed.

Lemma blocks_in x constants cf bls bl : form_mblocks zero a types x constants cf = Some bls -> In bl bls -> block_in bl.
Proof.
  unfold form_mblocks. destruct (omap _ _) as [m|] eqn:Em; [|discriminate]. intros [= <-] Hb. apply in_concat in Hb as (bs & Hm & Hb).
  apply In_nth_error in Hm as (k & Hk). destruct (omap_back _ _ _ _ _ Em Hk) as ((ti, ct) & El & Ef). clear Hk. rename Ef into Hk.
  assert (Ht : nth_error types ti = Some ct). { unfold enum in El. apply nth_error_combine2 in El as (H1 & H2). rewrite nth_error_seq in H1 by (eapply nth_error_bound; eauto). injection H1 as <-. exact H2. }
  clear El Em m. unfold type_mblocks in Hk. destruct (over_integrals (cell_mblocks _ _ _ _) _ _) as [bc|] eqn:Ec; [|discriminate]. cbn [obind] in Hk.
  destruct (over_integrals (facet_mblocks _ _ _ _) _ _) as [bi|] eqn:Ei; [|discriminate]. cbn [obind] in Hk. destruct (over_ext _ _ _) as [be|] eqn:Ee; [|discriminate]. cbn [obind] in Hk. injection Hk as <-.
  apply in_app_iff in Hb as [Hb|Hb]; [|apply in_app_iff in Hb as [Hb|Hb]].
  - destruct (over_integrals_in _ _ _ _ _ Ec Hb) as (e & flat & cs & b2 & He & Eb & Hb2). destruct (entries_in2 _ _ _ He) as (i & _ & Hi). unfold cell_mblocks in Eb. destruct (_ || _); [discriminate|].
    destruct (over_items_in _ _ _ _ Eb Hb2) as ((((c & c0) & c1) & co) & b3 & Hitem & E3 & Hb3). apply items_together in Hitem.
    destruct (nth_error (cd_rows (ct_dm0 ct)) c0) as [rows|] eqn:E0; [|discriminate]. cbn [obind] in E3. destruct (nth_error (cd_rows (ct_dm1 ct)) c1) as [cols|] eqn:E1; [|discriminate]. cbn [obind] in E3.
    destruct (points _ _ c); [|discriminate]. cbn [obind] in E3. injection E3 as <-. destruct Hb3 as [<-|[]]. apply (one_cell ti ct _ _ _ c0 c1 Ht E0 E1). intros r d Hr Hd. eapply by_cell; eauto.
  - destruct (over_integrals_in _ _ _ _ _ Ei Hb) as (e & flat & cs & b2 & He & Eb & Hb2). destruct (entries_in2 _ _ _ He) as (i & _ & Hi). unfold facet_mblocks in Eb. destruct (_ || _); [discriminate|].
    destruct (over_items_in _ _ _ _ Eb Hb2) as ((((((ca & la) & (cb & lb)) & t0) & t1) & co) & b3 & Hitem & E3 & Hb3). apply items_together in Hitem.
    destruct (dofs_of (cd_rows (ct_dm0 ct)) (fst t0)) as [d00|] eqn:E00; [|discriminate]. cbn [obind] in E3. destruct (dofs_of (cd_rows (ct_dm0 ct)) (snd t0)) as [d01|] eqn:E01; [|discriminate]. cbn [obind] in E3.
    destruct (dofs_of (cd_rows (ct_dm1 ct)) (fst t1)) as [d10|] eqn:E10; [|discriminate]. cbn [obind] in E3. destruct (dofs_of (cd_rows (ct_dm1 ct)) (snd t1)) as [d11|] eqn:E11; [|discriminate]. cbn [obind] in E3.
    destruct (points _ _ ca); [|discriminate]. cbn [obind] in E3. destruct (points _ _ cb); [|discriminate]. cbn [obind] in E3. destruct (perm_data _ ca la); [|discriminate]. cbn [obind] in E3. destruct (perm_data _ cb lb); [|discriminate]. cbn [obind] in E3. injection E3 as <-.
    assert (H : forall r d, in_sides (ct_dm0 ct) t0 r -> in_sides (ct_dm1 ct) t1 d -> couples a types r d) by (intros r d Hr Hd; eapply by_facet; eauto).
    destruct Hb3 as [<-|[<-|[<-|[<-|[]]]]].
    + apply (one_facet ti ct _ _ _ t0 t1 _ _ Ht E00 E10); auto.
    + apply (one_facet ti ct _ _ _ t0 t1 _ _ Ht E00 E11); auto.
    + apply (one_facet ti ct _ _ _ t0 t1 _ _ Ht E01 E10); auto.
    + apply (one_facet ti ct _ _ _ t0 t1 _ _ Ht E01 E11); auto.
  - unfold over_ext in Ee. destruct (omap _ (enum (fm_ext a))) as [me|] eqn:Eo; [|discriminate]. cbn [obind] in Ee. injection Ee as <-. apply in_concat in Hb as (b1 & Hm & Hb).
    apply In_nth_error in Hm as (k2 & Hk). destruct (omap_back _ _ _ _ _ Eo Hk) as ((kx, igs) & El & Ef). clear Hk. rename Ef into Hk.
    assert (Hg : In igs (fm_ext a)). { unfold enum in El. apply nth_error_combine2 in El as (_ & H2). eapply nth_error_In; eauto. }
    destruct (nth_error (cf_ext cf) kx) as [cfe|]; [|discriminate]. cbn [obind] in Hk.
    destruct (over_integrals_in _ _ _ _ _ Hk Hb) as (e & flat & cs & b2 & He & Eb & Hb2). destruct (entries_in2 _ _ _ He) as (i & _ & Hi). unfold ent_mblocks in Eb. destruct (_ || _); [discriminate|].
    destruct (over_items_in _ _ _ _ Eb Hb2) as (((((c & le) & c0) & c1) & co) & b3 & Hitem & E3 & Hb3). apply items_together in Hitem.
    destruct (nth_error (cd_rows (ct_dm0 ct)) c0) as [rows|] eqn:E0; [|discriminate]. cbn [obind] in E3. destruct (nth_error (cd_rows (ct_dm1 ct)) c1) as [cols|] eqn:E1; [|discriminate]. cbn [obind] in E3.
    destruct (perm_data _ c le); [|discriminate]. cbn [obind] in E3. destruct (points _ _ c); [|discriminate]. cbn [obind] in E3. injection E3 as <-. destruct Hb3 as [<-|[]]. apply (one_cell ti ct _ _ _ c0 c1 Ht E0 E1). intros r d Hr Hd. eapply by_entity; eauto.
Qed.
End Blocks.
