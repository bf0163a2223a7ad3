(** Sub-layouts, sub-dofmaps and the collapse of a view. *)
From Verif Require Import Base BaseProofs Algo AlgoProofs Nbx World IndexMap IndexMapSpec IndexMapProofs ImSharedProofs SubMap SubMapSpec SubMapProofs SparsityProofs StackProofs CellTypes DofBuilder DofSpec DofReq DofCells DofBasic SubDofs SubDofsSpec OrientProofs.
Open Scope nat_scope.

(** ** Sub-layouts *)
Lemma omap_compose {A B C} (f : A -> option B) (g : B -> option C) l r : omap f l = Some r ->
  omap (fun a => b <- f a ;; g b) l = omap g r.
Proof.
  revert r. induction l as [|a l IH]; intros r H; cbn in H |- *.
  - injection H as <-. reflexivity.
  - destruct (f a) as [b|]; cbn in H; [|discriminate]. destruct (omap f l) as [bs|]; cbn in H; [|discriminate]. injection H as <-.
    cbn [obind omap]. now rewrite (IH _ eq_refl).
Qed.
Lemma omap_enum {A X} (f : nat -> option X) (g : A -> X) l : forall s, (forall t c, nth_error l t = Some c -> f (s + t) = Some (g c)) -> omap f (seq s (length l)) = Some (map g l).
Proof.
  induction l as [|a l IH]; intros s H; cbn [length seq omap map]; [reflexivity|].
  pose proof (H 0 a eq_refl) as H0. rewrite Nat.add_0_r in H0. rewrite H0. cbn [obind]. rewrite IH; [reflexivity|]. intros t c Hc. rewrite <- (H (S t) c Hc). f_equal. lia.
Qed.
Lemma omap_id_nth {A} (l : list A) : omap (nth_error l) (seq 0 (length l)) = Some l.
Proof.
  rewrite (omap_enum (nth_error l) (fun a => a) l 0); [|auto]. now rewrite map_id.
Qed.
Lemma omap_all {A B} (f : A -> option B) l : (forall a, In a l -> exists b, f a = Some b) -> exists r, omap f l = Some r.
Proof.
  induction l as [|a l IH]; intro H; cbn; [eauto|]. destruct (H a (or_introl eq_refl)) as (b & ->). cbn.
  destruct IH as (r & ->); [intros; apply H; now right|]. cbn. eauto.
Qed.

Lemma lay_inv l c s : lay_ok l -> nth_error (lay_subs l) c = Some s -> length (lay_pmap s) = lay_width s /\ (forall p, In p (lay_pmap s) -> p < lay_width l) /\ lay_ok s.
Proof. intros [l' H] Hc. exact (H s (nth_error_In _ _ Hc)). Qed.
Lemma sub_view_one l c s : lay_ok l -> nth_error (lay_subs l) c = Some s -> sub_view l [c] = Some (lay_pmap s).
Proof.
  intros Hl Hc. destruct Hl as [l Hl]. destruct (Hl s (nth_error_In _ _ Hc)) as (Hw & Hp & _).
  unfold sub_view. cbn [ofold]. destruct (Nat.leb_spec (length (lay_subs l)) c) as [H|H].
  { apply nth_error_None in H. congruence. }
  rewrite Hc. cbn [obind]. rewrite <- Hw.
  rewrite (omap_enum (fun j => p <- nth_error (lay_pmap s) j ;; nth_error (seq 0 (lay_width l)) p) (fun a : nat => a) (lay_pmap s) 0).
  - cbn [obind ofold]. now rewrite map_id.
  - intros t p Ht. cbn [Nat.add]. rewrite Ht. cbn [obind]. assert (p < lay_width l) by (exact (Hp p (nth_error_In _ _ Ht))).
    rewrite (nth_error_nth' _ 0) by (now rewrite seq_length). now rewrite seq_nth.
Qed.
Lemma positions_one l c s : lay_ok l -> nth_error (lay_subs l) c = Some s -> positions l [c] = Some (lay_pmap s).
Proof.
  intros Hl Hc. destruct Hl as [l Hl]. destruct (Hl s (nth_error_In _ _ Hc)) as (Hw & _ & _).
  cbn [positions]. rewrite Hc. cbn [obind]. rewrite <- Hw. apply omap_id_nth.
Qed.
Lemma sub_ok l c s : lay_ok l -> nth_error (lay_subs l) c = Some s -> lay_ok s.
Proof. intros [l' H] Hc. exact (proj2 (proj2 (H s (nth_error_In _ _ Hc)))). Qed.

Lemma width_pos bs n w p : 0 < bs -> n * bs = w -> p < w -> p / bs < n.
Proof. intros Hb <- Hp. apply Nat.div_lt_upper_bound; lia. Qed.

Lemma extract_one d c s : dmap_ok d -> nth_error (lay_subs (dp_lay d)) c = Some s ->
  exists rows, extract_sub_dofmap d [c] = Some {| dp_lay := s; dp_ibs := dp_ibs d; dp_rows := rows; dp_bs := 1 |} /\
    omap (fun row => omap (unblocked (dp_bs d) row) (lay_pmap s)) (dp_rows d) = Some rows /\
    dmap_ok {| dp_lay := s; dp_ibs := dp_ibs d; dp_rows := rows; dp_bs := 1 |}.
Proof.
  intros (Hl & Hb & Hr) Hc.
  assert (Hs : length (lay_pmap s) = lay_width s /\ forall p, In p (lay_pmap s) -> p < lay_width (dp_lay d)).
  { destruct Hl as [l Hl]. destruct (Hl s (nth_error_In _ _ Hc)) as (? & ? & _). auto. }
  destruct Hs as (Hw & Hp).
  destruct (omap_all (fun row => omap (unblocked (dp_bs d) row) (lay_pmap s)) (dp_rows d)) as (rows & E).
  { intros row Hrow. apply omap_all. intros p Hp'. unfold unblocked. pose proof (width_pos (dp_bs d) (length row) _ p Hb (Hr row Hrow) (Hp p Hp')) as Hlt.
    apply nth_error_Some in Hlt. destruct (nth_error row (p / dp_bs d)); [cbn; eauto|congruence]. }
  exists rows. split; [|split; [exact E|]].
  - unfold extract_sub_dofmap. rewrite (sub_view_one _ _ _ Hl Hc). cbn [obind]. unfold unblocked in E. rewrite E. cbn [obind sub_layout ofold]. rewrite Hc. reflexivity.
  - split; [cbn [dp_lay]; eapply sub_ok; eauto|]. cbn [dp_bs dp_rows dp_lay]. split; [lia|]. intros row' Hin.
    apply In_nth_error in Hin. destruct Hin as (k & Hk). pose proof (nth_error_bound _ _ _ Hk) as Hlt. rewrite (omap_len _ _ _ E) in Hlt.
    apply nth_error_Some in Hlt. destruct (nth_error (dp_rows d) k) as [row|] eqn:Ek; [|congruence].
    destruct (BaseProofs.omap_nth _ _ _ E k _ Ek) as (y & Hy & Hf). rewrite Hk in Hy. injection Hy as <-. apply omap_len in Hf. lia.
Qed.

Lemma unblocked_one row p : unblocked 1 row p = nth_error row p.
Proof. unfold unblocked. rewrite Nat.div_1_r, Nat.mod_1_r. destruct (nth_error row p); cbn; [f_equal; lia|reflexivity]. Qed.

Lemma extract_path_ok component : forall d s, dmap_ok d -> sub_at (dp_lay d) component = Some s ->
  exists d' pos, extract_path d component = Some d' /\ positions (dp_lay d) component = Some pos /\ length pos = lay_width s /\
    dp_lay d' = s /\ dp_ibs d' = dp_ibs d /\ (component <> [] -> dp_bs d' = 1) /\ dmap_ok d' /\ length (dp_rows d') = length (dp_rows d) /\
    forall c row, nth_error (dp_rows d) c = Some row -> exists row', nth_error (dp_rows d') c = Some row' /\
      omap (unblocked (dp_bs d') row') (seq 0 (lay_width s)) = omap (unblocked (dp_bs d) row) pos.
Proof.
  induction component as [|c rest IH]; intros d s Hd Hs; cbn [sub_at] in Hs.
  - injection Hs as <-. exists d, (seq 0 (lay_width (dp_lay d))). cbn [extract_path positions]. rewrite seq_length.
    repeat (split; [now auto|]). intros c row Hc. exists row. auto.
  - destruct (nth_error (lay_subs (dp_lay d)) c) as [s1|] eqn:Ec; cbn [obind] in Hs; [|discriminate].
    destruct (extract_one d c s1 Hd Ec) as (rows1 & E1 & Er1 & Hd1).
    destruct (IH _ s Hd1 Hs) as (d' & pos1 & Ep & Epos & Hlen & A1 & A2 & A3 & A4 & A5 & A6). cbn [dp_lay dp_ibs dp_rows dp_bs] in *.
    assert (Hpm : length (lay_pmap s1) = lay_width s1).
    { destruct Hd as (Hl & _). exact (proj1 (lay_inv _ _ _ Hl Ec)). }
    assert (Hpos1 : forall p, In p pos1 -> p < lay_width s1).
    { clear - Epos Hd1. destruct Hd1 as (Hl & _). cbn [dp_lay] in Hl. revert pos1 Epos. destruct rest as [|c rest]; cbn [positions]; intros pos1 Epos p Hp.
      - injection Epos as <-. apply in_seq in Hp. lia.
      - destruct (nth_error (lay_subs s1) c) as [s2|] eqn:E2; cbn [obind] in Epos; [|discriminate].
        destruct (positions s2 rest) as [v|]; cbn [obind] in Epos; [|discriminate].
        apply In_nth_error in Hp. destruct Hp as (k & Hk). pose proof (nth_error_bound _ _ _ Hk) as Hlt. rewrite (omap_len _ _ _ Epos) in Hlt.
        apply nth_error_Some in Hlt. destruct (nth_error v k) as [q|] eqn:Eq; [|congruence].
        destruct (BaseProofs.omap_nth _ _ _ Epos k _ Eq) as (y & Hy & Hf). rewrite Hk in Hy. injection Hy as <-.
        destruct (lay_inv _ _ _ Hl E2) as (_ & Hp & _). apply Hp. eapply nth_error_In; eauto. }
    destruct (omap_all (nth_error (lay_pmap s1)) pos1) as (pos & Hpos).
    { intros p Hp. specialize (Hpos1 p Hp). rewrite <- Hpm in Hpos1. apply nth_error_Some in Hpos1. destruct (nth_error (lay_pmap s1) p); [eauto|congruence]. }
    exists d', pos. cbn [extract_path positions]. rewrite E1, Ec. cbn [obind]. rewrite Epos. cbn [obind].
    split; [exact Ep|]. split; [exact Hpos|]. split; [rewrite (omap_len _ _ _ Hpos); exact Hlen|]. split; [exact A1|]. split; [exact A2|].
    split.
    { intros _. destruct rest as [|c' rest']; [|apply A3; discriminate]. cbn [extract_path] in Ep. injection Ep as <-. reflexivity. }
    split; [exact A4|]. split; [rewrite A5; exact (omap_len _ _ _ Er1)|].
    intros k row Hk. destruct (BaseProofs.omap_nth _ _ _ Er1 k row Hk) as (row1 & Hk1 & Hrow1). destruct (A6 k row1 Hk1) as (row' & Hr' & E'). exists row'. split; [exact Hr'|].
    rewrite E'. rewrite <- (omap_compose (nth_error (lay_pmap s1)) (unblocked (dp_bs d) row) pos1 pos Hpos). apply BaseProofs.omap_ext. intros p Hp. rewrite unblocked_one.
    specialize (Hpos1 p Hp). rewrite <- Hpm in Hpos1. apply nth_error_Some in Hpos1. destruct (nth_error (lay_pmap s1) p) as [q|] eqn:Eq; [|congruence]. cbn [obind].
    destruct (BaseProofs.omap_nth _ _ _ Hrow1 p q Eq) as (v & Hv & Hf). congruence.
Qed.

Lemma extract_dofs component d s : component <> [] -> dmap_ok d -> sub_at (dp_lay d) component = Some s ->
  exists d' pos, extract_path d component = Some d' /\ positions (dp_lay d) component = Some pos /\ length pos = lay_width s /\
    dp_lay d' = s /\ dp_ibs d' = dp_ibs d /\ dp_bs d' = 1 /\ length (dp_rows d') = length (dp_rows d) /\
    forall c row, nth_error (dp_rows d) c = Some row -> exists row', nth_error (dp_rows d') c = Some row' /\ length row' = lay_width s /\
      forall j p, nth_error pos j = Some p -> exists v, nth_error row' j = Some v /\ unblocked (dp_bs d) row p = Some v.
Proof.
  intros Hne Hd Hs. destruct (extract_path_ok component d s Hd Hs) as (d' & pos & E1 & E2 & E3 & E4 & E5 & E6 & E7 & E8 & E9).
  specialize (E6 Hne). exists d', pos. repeat (split; [assumption|]). intros c row Hc. destruct (E9 c row Hc) as (row' & Hr & E).
  assert (Hw : length row' = lay_width s).
  { destruct E7 as (_ & _ & H). specialize (H row' (nth_error_In _ _ Hr)). rewrite E4, E6 in H. lia. }
  exists row'. split; [exact Hr|]. split; [exact Hw|]. intros j p Hj.
  rewrite E6, <- Hw in E. rewrite (BaseProofs.omap_ext _ (nth_error row')), omap_id_nth in E by (intros; apply unblocked_one). symmetry in E.
  destruct (BaseProofs.omap_nth _ _ _ E j p Hj) as (v & Hv & Hf). eauto.
Qed.
