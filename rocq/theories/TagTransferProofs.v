(** Proofs about tags of a sub-mesh (C67). *)
From Verif Require Import Base BaseProofs Algo AlgoProofs RoundTrip PatternMats DofReq SubMesh SubMeshProofs Tags TagTransfer TagTransferSpec.

Lemma all_of_ok {A} (f : A -> option bool) l : (forall a, In a l -> exists b, f a = Some b) ->
  exists b, all_of f l = Some b /\ (b = true <-> forall a, In a l -> f a = Some true).
Proof.
  induction l as [|a l IH]; intro H; cbn [all_of].
  - exists true. split; [reflexivity|]. split; [intros _ a []|reflexivity].
  - destruct (H a (or_introl eq_refl)) as (b & E). rewrite E. cbn [obind]. destruct b.
    + destruct IH as (b & E' & G); [intros x Hx; apply H; now right|]. exists b. split; [exact E'|]. rewrite G. split; [intros K x [<-|Hx]; auto|intros K x Hx; apply K; now right].
    + exists false. split; [reflexivity|]. split; [discriminate|]. intro K. specialize (K a (or_introl eq_refl)). congruence.
Qed.
Lemma search_ok {A B} (f : A -> option (option B)) (R : B -> Prop) l : (forall a, In a l -> exists o, f a = Some o /\ forall b, o = Some b -> R b) ->
  exists o, search f l = Some o /\ (forall b, o = Some b -> R b) /\ (o = None -> forall a, In a l -> f a = Some None).
Proof.
  induction l as [|a l IH]; intro H; cbn [search].
  - exists None. split; [reflexivity|]. split; [discriminate|]. intros _ a [].
  - destruct (H a (or_introl eq_refl)) as (o & E & G). rewrite E. cbn [obind]. destruct o as [b|].
    + exists (Some b). split; [reflexivity|]. split; [exact G|discriminate].
    + destruct IH as (o & E' & G1 & G2); [intros x Hx; apply H; now right|]. exists o. split; [exact E'|]. split; [exact G1|]. intros -> x [<-|Hx]; auto.
Qed.

Section Transfer.
Variables (tag_dim submesh_tdim nc np nv ne : nat) (cell_map vertex_map : list nat) (sub_e_to_v sub_c_to_e e_to_v e_to_c : list (list nat)).
Hypothesis Hso : sub_of_parent tag_dim submesh_tdim nc np nv ne cell_map vertex_map sub_e_to_v sub_c_to_e e_to_v e_to_c.
Notation same := (same_entity vertex_map sub_e_to_v e_to_v).
Variable p2s : list (option nat).
Hypothesis Hlen : length p2s = np.
Hypothesis Hp2s : forall c C, nth_error p2s C = Some (Some c) <-> nth_error cell_map c = Some C.

Lemma same_lt s p : same s p -> s < ne /\ p < length e_to_v.
Proof. intros (vs & ws & H1 & H2 & _). split; [rewrite <- (proj1 (so_entities _ _ _ _ _ _ _ _ _ _ _ _ Hso)); now apply nth_error_bound in H1|now apply nth_error_bound in H2]. Qed.
Lemma matches_ok ws p s : nth_error e_to_v p = Some ws -> s < ne -> exists b, entity_matches vertex_map sub_e_to_v ws s = Some b /\ (b = true <-> same s p).
Proof.
  intros Hp Hs. unfold entity_matches. destruct (so_entities _ _ _ _ _ _ _ _ _ _ _ _ Hso) as (L & _). destruct (so_vertices _ _ _ _ _ _ _ _ _ _ _ _ Hso) as (Lv & Bv).
  destruct (nth_error_lt sub_e_to_v s) as (vs & E); [lia|]. rewrite E. cbn [obind].
  destruct (all_of_ok (fun v => p_v <- nth_error vertex_map v ;; Some (existsb (Nat.eqb p_v) ws)) vs) as (b & Eb & Gb).
  { intros v Hv. destruct (nth_error_lt vertex_map v) as (q & Eq); [rewrite Lv; eauto|]. rewrite Eq. cbn [obind]. eauto. }
  exists b. split; [exact Eb|]. rewrite Gb. split.
  - intro K. apply (so_part _ _ _ _ _ _ _ _ _ _ _ _ Hso s p vs ws E Hp). intros w v Hw Hv. specialize (K w Hw). cbv beta in K. rewrite Hv in K. cbn [obind] in K.
    injection K as K. apply existsb_exists in K as (x & Hx & Ex). apply Nat.eqb_eq in Ex. now subst.
  - intros (vs' & ws' & E' & Hp' & Iff) w Hw. rewrite E in E'. injection E' as <-. rewrite Hp in Hp'. injection Hp' as <-.
    destruct (nth_error_lt vertex_map w) as (q & Eq); [rewrite Lv; eauto|]. cbv beta. rewrite Eq. cbn [obind]. f_equal. apply existsb_exists. exists q. split; [apply Iff; eauto|apply Nat.eqb_refl].
Qed.
Lemma search_cell_ok ws p c : nth_error e_to_v p = Some ws -> c < nc -> exists o, search_cell vertex_map sub_e_to_v sub_c_to_e ws c = Some o /\
  (forall s, o = Some s -> same s p) /\ (o = None -> forall es s, nth_error sub_c_to_e c = Some es -> In s es -> ~ same s p).
Proof.
  intros Hp Hc. destruct (so_entities _ _ _ _ _ _ _ _ _ _ _ _ Hso) as (_ & L & B). unfold search_cell.
  destruct (nth_error_lt sub_c_to_e c) as (es & E); [lia|]. rewrite E. cbn [obind].
  destruct (search_ok (fun s => b <- entity_matches vertex_map sub_e_to_v ws s ;; Some (if b : bool then Some s else None)) (fun s => same s p) es) as (o & Eo & G1 & G2).
  { intros s Hs. destruct (matches_ok ws p s Hp (B c es s E Hs)) as (b & Eb & Gb). rewrite Eb. cbn [obind]. exists (if b then Some s else None). split; [reflexivity|].
    intros s' K. destruct b; [|discriminate]. injection K as <-. now apply Gb. }
  exists o. split; [exact Eo|]. split; [exact G1|]. intros Ho es' s E' Hs. injection E' as <-. intro Hsame. specialize (G2 Ho s Hs). cbv beta in G2.
  destruct (matches_ok ws p s Hp (B c es s E Hs)) as (b & Eb & Gb). rewrite Eb in G2. cbn [obind] in G2. rewrite (proj2 Gb Hsame) in G2. discriminate.
Qed.
Lemma find_ok p : p < length e_to_v -> exists o,
  find_sub_entity tag_dim submesh_tdim p2s vertex_map sub_e_to_v sub_c_to_e e_to_v (if tag_dim =? submesh_tdim then [] else e_to_c) p = Some o /\
  forall s, o = Some s <-> same s p.
Proof.
  intro Hp. unfold find_sub_entity. destruct (Nat.eqb_spec tag_dim submesh_tdim) as [E|N].
  - destruct (so_cell _ _ _ _ _ _ _ _ _ _ _ _ Hso E) as (L & En & Hc). destruct (nth_error_lt p2s p) as (o & Eo); [lia|]. exists o. split; [exact Eo|]. intro s. split.
    + intros ->. apply Hc, Hp2s, Eo.
    + intros Hs. destruct (same_lt s p Hs) as (Ls & _). 
      destruct o as [s'|].
      * f_equal. apply (so_sub _ _ _ _ _ _ _ _ _ _ _ _ Hso _ _ p); [|exact Hs]. apply Hc, Hp2s, Eo.
      * exfalso. destruct (so_cells _ _ _ _ _ _ _ _ _ _ _ _ Hso) as (Lc & _ & _). destruct (nth_error_lt cell_map s) as (p' & Ep); [lia|].
        pose proof (so_parent _ _ _ _ _ _ _ _ _ _ _ _ Hso s p p' Hs (Hc s p' Ep)) as Eq. subst p'. apply Hp2s in Ep. congruence.
  - destruct (nth_error_lt e_to_v p Hp) as (ws & Ew). rewrite Ew. cbn [obind]. destruct (so_incident _ _ _ _ _ _ _ _ _ _ _ _ Hso N) as (L & B & I).
    destruct (nth_error_lt e_to_c p) as (cs & Ec); [lia|]. rewrite Ec. cbn [obind].
    destruct (so_cells _ _ _ _ _ _ _ _ _ _ _ _ Hso) as (Lc & _ & _).
    assert (S1 : forall C, In C cs -> exists o, (sc <- nth_error p2s C ;; match sc with Some sub_cell => search_cell vertex_map sub_e_to_v sub_c_to_e ws sub_cell | None => Some None end) = Some o /\ (forall s, o = Some s -> same s p)).
    { intros C HC. destruct (nth_error_lt p2s C) as (sc & Esc); [rewrite Hlen; eauto|]. rewrite Esc. cbn [obind]. destruct sc as [c|]; [|exists None; split; [reflexivity|discriminate]].
      apply Hp2s in Esc. destruct (search_cell_ok ws p c Ew) as (o & Eo & G & _); [rewrite <- Lc; now apply nth_error_bound in Esc|]. eauto. }
    destruct (search_ok _ (fun s => same s p) cs S1) as (o & Eo & G1 & G2). exists o. split; [exact Eo|]. intro s. split; [auto|]. intro Hs. destruct o as [s'|].
    + f_equal. apply (so_sub _ _ _ _ _ _ _ _ _ _ _ _ Hso _ _ p); auto.
    + exfalso. destruct (I s p Hs) as (c & C & es & cs' & J1 & J2 & J3 & J4 & J5). rewrite Ec in J4. injection J4 as <-. specialize (G2 eq_refl C J5). cbv beta in G2.
      rewrite (proj2 (Hp2s c C) J3) in G2. cbn [obind] in G2. destruct (search_cell_ok ws p c Ew) as (o & Eo' & _ & G3); [rewrite <- Lc; now apply nth_error_bound in J3|].
      rewrite Eo' in G2. injection G2 as ->. exact (G3 eq_refl es s J1 J2 Hs).
Qed.
Lemma same_dec s p : p < length e_to_v -> same s p \/ ~ same s p.
Proof. intro Hp. destruct (find_ok p Hp) as (o & _ & H). destruct o as [x|]; [destruct (Nat.eq_dec x s) as [->|N]; [left; now apply H|right; intro K; apply H in K; congruence]|right; intro K; apply H in K; discriminate]. Qed.

Variable max_val : Z.
Lemma loop_ok (tags : list (nat * Z)) : NoDup (map fst tags) -> (forall p v, In (p, v) tags -> p < length e_to_v) -> forall vals, length vals = ne ->
  exists vals', ofold (fun vals t =>
      s <- find_sub_entity tag_dim submesh_tdim p2s vertex_map sub_e_to_v sub_c_to_e e_to_v (if tag_dim =? submesh_tdim then [] else e_to_c) (fst t) ;;
      match s with Some e => upd vals e (snd t) | None => Some vals end) tags vals = Some vals' /\ length vals' = ne /\
    (forall s p v, In (p, v) tags -> same s p -> nth_error vals' s = Some v) /\
    (forall s, (forall p v, In (p, v) tags -> ~ same s p) -> nth_error vals' s = nth_error vals s).
Proof.
  induction tags as [|(p, v) tags IH]; intros Hn Hb vals L; cbn [ofold fst snd].
  - exists vals. split; [reflexivity|]. split; [exact L|]. split; [intros s p v []|auto].
  - cbn [map fst] in Hn. apply NoDup_cons_iff in Hn as (Hnp & Hn').
    destruct (find_ok p (Hb p v (or_introl eq_refl))) as (o & Eo & Ho). rewrite Eo. cbn [obind].
    assert (U : exists vals1, (match o with Some e => upd vals e v | None => Some vals end) = Some vals1 /\ length vals1 = ne /\ (forall s, same s p -> nth_error vals1 s = Some v) /\ (forall s, ~ same s p -> nth_error vals1 s = nth_error vals s)).
    { destruct o as [e|].
      - pose proof (proj1 (Ho e) eq_refl) as He. destruct (same_lt e p He) as (Le & _). destruct (upd_some vals e v) as (vals1 & E1); [lia|]. exists vals1. split; [exact E1|]. split; [rewrite <- L; eapply upd_length; eauto|].
        split; intros s Hs; rewrite (upd_nth _ _ _ s _ E1); destruct (Nat.eqb_spec e s) as [Q|Q]; auto.
        + apply Ho in Hs. congruence.
        + subst. contradiction.
      - exists vals. split; [reflexivity|]. split; [exact L|]. split; [|auto]. intros s Hs. apply Ho in Hs. discriminate. }
    destruct U as (vals1 & E1 & L1 & U1 & U2). rewrite E1. cbn [obind]. destruct (IH Hn' (fun p v H => Hb p v (or_intror H)) vals1 L1) as (vals' & E' & L' & G1 & G2).
    exists vals'. split; [exact E'|]. split; [exact L'|]. split.
    + intros s q w [K|K] Hs; [|eauto]. injection K as <- <-. rewrite G2; [auto|]. intros q w Hq Hs'. apply Hnp. rewrite (so_parent _ _ _ _ _ _ _ _ _ _ _ _ Hso s p q Hs Hs'). apply (in_map fst tags (q, w)), Hq.
    + intros s Hs. rewrite G2; [apply U2; apply (Hs p v); now left|]. intros q w Hq. apply (Hs q w). now right.
Qed.
End Transfer.

Lemma parent_to_sub_iff n s2p : NoDup s2p -> (forall p, In p s2p -> p < n) ->
  exists m, parent_to_sub n s2p = Some m /\ length m = n /\ forall j p, nth_error m p = Some (Some j) <-> nth_error s2p j = Some p.
Proof.
  intros Hn Hb. unfold parent_to_sub. set (ps := map (fun p : nat * nat => (snd p, Some (fst p))) (combine (seq 0 (length s2p)) s2p)).
  assert (Ef : map fst ps = s2p).
  { unfold ps. rewrite map_map. cbn [fst]. apply (snd_combine (seq 0 (length s2p)) s2p). now rewrite seq_length. }
  destruct (upd_all_spec ps (repeat (@None nat) n)) as (y & Ey & Ly & H1 & H2).
  - now rewrite Ef.
  - intros i v Hi. rewrite repeat_length. apply Hb. rewrite <- Ef. apply in_map_iff. exists (i, v). auto.
  - exists y. split; [|split].
    + rewrite <- Ey. unfold ps. clear. generalize (repeat (@None nat) n). induction (combine (seq 0 (length s2p)) s2p) as [|(a, b) t IH]; intro x; [reflexivity|].
      cbn [map ofold fst snd]. destruct (upd x b (Some a)); [cbn [obind]; apply IH|reflexivity].
    + now rewrite Ly, repeat_length.
    + assert (K : forall j p, nth_error s2p j = Some p -> nth_error y p = Some (Some j)).
      { intros j p Hj. apply H1. unfold ps. apply in_map_iff. exists (j, p). split; [reflexivity|].
        apply (nth_error_In _ j). apply nth_error_combine; [|exact Hj]. apply nth_error_seq. now apply nth_error_bound in Hj. }
      intros j p. split; [|apply K]. intro E. destruct (in_dec Nat.eq_dec p s2p) as [I|I].
      * apply In_nth_error in I as (j' & Hj'). pose proof (K j' p Hj') as E'. congruence.
      * rewrite H2 in E by (rewrite Ef; exact I). apply nth_error_In, repeat_spec in E. discriminate.
Qed.

Lemma em_forward_all m n : n = length m -> em_forward m (seq 0 n) = Some m.
Proof.
  intros ->. unfold em_forward. assert (G : forall a b : list nat, omap (nth_error (a ++ b)) (seq (length a) (length b)) = Some b).
  { intros a b. revert a. induction b as [|x b IH]; intro a; [reflexivity|]. cbn [length seq omap]. rewrite nth_error_app2, Nat.sub_diag by lia. cbn [nth_error].
    specialize (IH (a ++ [x])). rewrite <- app_assoc, app_length in IH. cbn [app length] in IH. rewrite Nat.add_1_r in IH. rewrite IH. reflexivity. }
  exact (G [] m).
Qed.
Lemma filter_enum_sorted {A} (f : nat * A -> bool) (vals : list A) a : StronglySorted lt (map fst (filter f (combine (seq a (length vals)) vals))).
Proof.
  assert (G : forall a x, In x (map fst (filter f (combine (seq a (length vals)) vals))) -> a <= x).
  { intros b x H. apply in_map_iff in H as ((i, v) & <- & H). apply filter_In in H as (H & _). apply in_combine_l, in_seq in H. cbn. lia. }
  revert a G. induction vals as [|v vals IH]; intros a G; [constructor|]. cbn [length seq combine filter].
  assert (IH' : forall b, StronglySorted lt (map fst (filter f (combine (seq b (length vals)) vals)))).
  { intro b. apply IH. intros c x H. apply in_map_iff in H as ((i, w) & <- & H). apply filter_In in H as (H & _). apply in_combine_l, in_seq in H. cbn. lia. }
  destruct (f (a, v)); [|apply IH']. cbn [map fst]. constructor; [apply IH'|]. rewrite Forall_forall. intros x H. apply in_map_iff in H as ((i, w) & <- & H). apply filter_In in H as (H & _). apply in_combine_l, in_seq in H. cbn. lia.
Qed.

Lemma transfer_ok max_val tag_dim submesh_tdim nc np nv ne cell_map vertex_map sub_e_to_v sub_c_to_e e_to_v e_to_c tags :
  sub_of_parent tag_dim submesh_tdim nc np nv ne cell_map vertex_map sub_e_to_v sub_c_to_e e_to_v e_to_c ->
  tag_dim <= submesh_tdim -> NoDup (map fst tags) -> (forall p v, In (p, v) tags -> p < length e_to_v) ->
  exists out,
    transfer_meshtags max_val tag_dim submesh_tdim (Some nc) (Some np) cell_map nv vertex_map (Some sub_e_to_v) (Some sub_c_to_e) (Some ne) (Some e_to_v) (Some e_to_c) tags = Some out /\
    StronglySorted lt (map fst out) /\
    forall s v, In (s, v) out <-> v <> max_val /\ exists p, In (p, v) tags /\ same_entity vertex_map sub_e_to_v e_to_v s p.
Proof.
  intros Hso Hd Hn Hb. unfold transfer_meshtags. destruct (Nat.ltb_spec submesh_tdim tag_dim) as [L|_]; [lia|]. cbn [obind].
  destruct (so_cells _ _ _ _ _ _ _ _ _ _ _ _ Hso) as (Lc & Nc & Bc). rewrite em_forward_all by auto. cbn [obind].
  destruct (parent_to_sub_iff np cell_map Nc Bc) as (p2s & E & Lp & Hp). rewrite E. cbn [obind].
  destruct (so_vertices _ _ _ _ _ _ _ _ _ _ _ _ Hso) as (Lv & _). rewrite em_forward_all by auto. cbn [obind].
  replace (if tag_dim =? submesh_tdim then Some [] else Some e_to_c) with (Some (if tag_dim =? submesh_tdim then [] else e_to_c)) by (destruct (tag_dim =? submesh_tdim); reflexivity). cbn [obind].
  destruct (loop_ok tag_dim submesh_tdim nc np nv ne cell_map vertex_map sub_e_to_v sub_c_to_e e_to_v e_to_c Hso p2s Lp Hp tags Hn Hb (repeat max_val ne)) as (vals & Ev & L & G1 & G2); [apply repeat_length|].
  rewrite Ev. cbn [obind]. eexists. split; [reflexivity|]. split.
  - rewrite <- L. apply filter_enum_sorted.
  - intros s v. rewrite filter_In. cbn [snd]. rewrite negb_true_iff, Z.eqb_neq.
    assert (I : In (s, v) (combine (seq 0 ne) vals) <-> nth_error vals s = Some v) by (rewrite <- L; apply in_enum). rewrite I. split.
    + intros (Hv & N). split; [exact N|].
      assert (D : (exists p w, In (p, w) tags /\ same_entity vertex_map sub_e_to_v e_to_v s p) \/ forall p w, In (p, w) tags -> ~ same_entity vertex_map sub_e_to_v e_to_v s p).
      { clear - Hb Hso Lp Hp. induction tags as [|(p, w) tags IH]; [right; intros p w []|].
        destruct (same_dec tag_dim submesh_tdim nc np nv ne cell_map vertex_map sub_e_to_v sub_c_to_e e_to_v e_to_c Hso p2s Lp Hp s p (Hb p w (or_introl eq_refl))) as [S|S]; [left; exists p, w; split; [now left|exact S]|].
        destruct IH as [(q & x & Hq & S')|F]; [intros q x Hq; apply (Hb q x); now right| |]; [left; exists q, x; split; [now right|exact S']|right].
        intros q x [Q|Q]; [injection Q as <- <-; exact S|eauto]. }
      destruct D as [(p & w & Hp' & S)|F].
      * rewrite (G1 s p w Hp' S) in Hv. injection Hv as <-. eauto.
      * rewrite (G2 s F) in Hv. exfalso. apply N. apply nth_error_In in Hv. now apply repeat_spec in Hv.
    + intros (N & p & Hp' & S). split; [|exact N]. eauto.
Qed.

