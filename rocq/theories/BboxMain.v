(** The statements about bounding-box trees, put together; instances of the arithmetic. *)
From Coq Require Import Reals Lra.
From Verif Require Import Base BaseProofs Bbox BboxSpec BboxProofs BboxSearch.
Open Scope nat_scope.

Section M.
Context {T : Type}.
Variable A : arith T.
Hypothesis Aok : arith_ok A.
Notation le x y := (a_leb A x y = true).

Lemma below_rep nodes (t : tr (T := T)) : forall i, rep nodes i t -> forall lf, below nodes i lf -> In lf (leaves t).
Proof.
  induction t as [e b|l IHl r IHr b]; intros i R lf H; cbn [rep leaves] in *.
  - inversion H as [i' e' b' E|i' c0 c1 b' lf' E N H'|i' c0 c1 b' lf' E N H']; subst; rewrite R in E; injection E; intros; subst; [now left|congruence|congruence].
  - destruct R as (d0 & d1 & E0 & N0 & R0 & R1). apply in_or_app.
    inversion H as [i' e' b' E|i' c0 c1 b' lf' E N H'|i' c0 c1 b' lf' E N H']; subst; rewrite E0 in E; injection E; intros; subst; [congruence|left; eauto|right; eauto].
Qed.
Lemma reach_rep (Q : tr (T := T) -> Prop) nodes (HQ : forall l r b, Q (Nd l r b) -> Q l /\ Q r) t : forall i, rep nodes i t -> Q t -> forall j, reach nodes i j -> exists t', rep nodes j t' /\ Q t'.
Proof.
  induction t as [e b|l IHl r IHr b]; intros i R q j H; cbn [rep] in *.
  - inversion H as [i'|i' c0 c1 b' j' E N H'|i' c0 c1 b' j' E N H']; subst; [exists (Lf e b); auto|rewrite R in E; injection E; intros; congruence|rewrite R in E; injection E; intros; congruence].
  - destruct (HQ _ _ _ q) as (Ql & Qr). pose proof R as (d0 & d1 & E0 & N0 & R0 & R1).
    inversion H as [i'|i' c0 c1 b' j' E N H'|i' c0 c1 b' j' E N H']; subst; [exists (Nd l r b); auto| |]; rewrite E0 in E; injection E; intros; subst; [eapply IHl; eauto|eapply IHr; eauto].
Qed.

Section Leaves.
Variable nth_leaf : nat -> list (leaf_of T) -> list (leaf_of T).
Hypothesis Hnth : forall a l, Permutation (nth_leaf a l) l.

Lemma bound_ok l : exists nodes, build_tree A nth_leaf l = Some nodes /\
  forall j c b lf, reach nodes (length nodes - 1) j -> nth_error nodes j = Some (c, b) -> below nodes j lf -> In lf l /\ subbox A (fst lf) b.
Proof.
  destruct l as [|x l]; [exists []; split; [reflexivity|intros j c b lf _ H; destruct j; discriminate]|].
  destruct (build_tree_ok A Aok nth_leaf Hnth (x :: l)) as (nodes & t & E & B & G & Pm); [discriminate|]. exists nodes. split; [exact E|].
  destruct (built_nil nodes t B) as (R & _). intros j c b lf Hr Hj Hb.
  destruct (reach_rep (fun t' => good A t' /\ forall lf, In lf (leaves t') -> In lf (x :: l)) nodes) with (t := t) (i := length nodes - 1) (j := j) as (t' & R' & G' & I'); auto.
  - intros l0 r0 b0 ((_ & Gl & Gr) & H). cbn [leaves] in H. split; (split; [assumption|]); intros lf' H'; apply H, in_or_app; auto.
  - split; [exact G|]. intros lf'. apply Permutation_in. exact Pm.
  - pose proof (below_rep nodes t' j R' lf Hb) as Hin. split; [now apply I'|]. destruct (rep_box nodes j t' R') as (c' & E'). rewrite Hj in E'. injection E' as _ ->. now apply (good_sub A Aok).
Qed.

Lemma points_all l : exists nodes, build_tree A nth_leaf l = Some nodes /\
  forall pts, length l <> 1 \/ (exists b e, l = [(b, e)] /\ (e = 0 \/ forall p, In p pts -> in_box A b p)) ->
  exists ents offs, collisions_points A nodes pts = Some (ents, offs) /\ length offs = S (length pts) /\
    forall i p, nth_error pts i = Some p -> exists es, slice_at ents offs i = Some es /\ selects (fun lf => in_box A (fst lf) p) snd l es.
Proof.
  destruct l as [|x l].
  { exists []. split; [reflexivity|]. intros pts _. cbn [collisions_points]. exists [], (repeat 0 (S (length pts))). split; [reflexivity|]. split; [apply repeat_length|].
    intros i p Hi. exists []. split.
    - assert (i < length pts) by (apply nth_error_Some; congruence). unfold slice_at. rewrite !nth_error_repeat by lia. reflexivity.
    - exists []. split; [constructor|]. split; [exists []; split; constructor|constructor]. }
  destruct (build_tree_ok A Aok nth_leaf Hnth (x :: l)) as (nodes & t & E & B & G & Pm); [discriminate|]. exists nodes. split; [exact E|]. destruct (built_nil nodes t B) as (R & L & N).
  intros pts Hc. apply points_ok; [exact N|]. intros p ents Hp.
  assert (Hop : open A p t \/ exists b, t = Lf 0 b).
  { destruct t as [e b|]; [|left; exact I]. pose proof (Permutation_length Pm) as Hl. cbn in Hl. destruct Hc as [Hc|(b' & e' & El & Hc)]; [cbn in Hc; lia|]. rewrite El in Pm. cbn [leaves] in Pm. apply Permutation_length_1 in Pm. injection Pm as -> ->.
    destruct Hc as [->|Hc]; [right; eauto|]. left. cbn [open]. apply point_in_spec. now apply Hc. }
  destruct (point_in_bbox A (tbox t) p) eqn:Ep, Hop as [Ho|(b & ->)].
  - destruct (point_ok A Aok nodes p t ents R L G Ho) as (es & X & Y). exists es. split; [exact X|]. eapply select_ok; [|exact Pm|exact Y]. intro. apply point_in_spec.
  - destruct (point_ok A Aok nodes p (Lf 0 b) ents R L G Ep) as (es & X & Y). exists es. split; [exact X|]. eapply select_ok; [|exact Pm|exact Y]. intro. apply point_in_spec.
  - destruct (point_ok A Aok nodes p t ents R L G Ho) as (es & X & Y). exists es. split; [exact X|]. eapply select_ok; [|exact Pm|exact Y]. intro. apply point_in_spec.
  - cbn [tbox] in Ep. cbn [rep size] in R, L. assert (En : nodes = [((0, 0), b)]) by (destruct nodes as [|nd [|]]; try discriminate; cbn in R; congruence).
    exists []. rewrite (point_single A nodes p 0 b ents En Ep), app_nil_r. split; [reflexivity|].
    eapply (select_ok _ (fun lf => point_in_bbox A (fst lf) p) (leaves (Lf 0 b))); [intro; apply point_in_spec|exact Pm|]. cbn [leaves filter fst]. now rewrite Ep.
Qed.

Lemma single_out b e p pts : ~ in_box A b p -> e <> 0 -> exists nodes, build_tree A nth_leaf [(b, e)] = Some nodes /\ collisions_points A nodes (p :: pts) = None.
Proof.
  intros Hp He. exists [((e, e), b)]. split; [reflexivity|]. assert (Ep : point_in_bbox A b p = false) by (destruct (point_in_bbox A b p) eqn:E; [apply point_in_spec in E; contradiction|reflexivity]).
  unfold collisions_points. cbn [ofold]. rewrite (point_single A _ p e b [] eq_refl Ep). destruct e; [contradiction|reflexivity].
Qed.

Lemma select_ok2 {X E} (Q : X -> Prop) q (f : X -> E) l l' es : (forall x, q x = true <-> Q x) -> Permutation l l' -> Permutation es (map f (filter q l)) -> selects Q f l' es.
Proof.
  intros Hq Hp He. exists (filter q l). split; [exact He|]. split.
  - exists (filter (fun x => negb (q x)) l). split.
    + rewrite <- Hp. clear. induction l as [|x l IH]; [constructor|]. cbn [filter]. destruct (q x); cbn [negb app]; [now constructor|]. apply Permutation_cons_app. exact IH.
    + apply Forall_forall. intros x H. apply filter_In in H as (_ & H). intro HQ. apply Hq in HQ. rewrite HQ in H. discriminate.
  - apply Forall_forall. intros x H. apply Hq. now apply filter_In in H.
Qed.
Lemma prod_perm {X Y} (l l' : list X) (m m' : list Y) : Permutation l l' -> Permutation m m' -> Permutation (list_prod l m) (list_prod l' m').
Proof.
  intros Hl Hm. transitivity (list_prod l' m).
  - clear Hm. induction Hl as [|x l l' _ IH|x y l|l l' l'' _ IH1 _ IH2]; [constructor| | |now rewrite IH1].
    + cbn [list_prod]. now apply Permutation_app_head.
    + cbn [list_prod]. rewrite !app_assoc. apply Permutation_app_tail, Permutation_app_comm.
  - clear Hl. induction l' as [|x l' IH]; [constructor|]. cbn [list_prod]. rewrite IH. apply Permutation_app_tail. now apply Permutation_map.
Qed.

Lemma trees_all l0 l1 : exists n0 n1 prs, build_tree A nth_leaf l0 = Some n0 /\ build_tree A nth_leaf l1 = Some n1 /\
  collisions_trees A n0 n1 = Some (flat prs) /\ selects (fun p : leaf_of T * leaf_of T => overlap A (fst (fst p)) (fst (snd p))) (fun p => (snd (fst p), snd (snd p))) (list_prod l0 l1) prs.
Proof.
  assert (Hnil : forall (X : list (leaf_of T * leaf_of T)), X = [] -> selects (fun p : leaf_of T * leaf_of T => overlap A (fst (fst p)) (fst (snd p))) (fun p => (snd (fst p), snd (snd p))) X []).
  { intros X ->. exists []. split; [constructor|]. split; [exists []; split; constructor|constructor]. }
  destruct l0 as [|x0 l0]; [|destruct l1 as [|x1 l1]].
  - destruct (bound_ok l1) as (n1 & E1 & _). exists [], n1, []. repeat split; auto.
  - destruct (bound_ok (x0 :: l0)) as (n0 & E0 & _). exists n0, [], []. do 2 (split; [assumption||reflexivity|]). split; [destruct n0; reflexivity|]. apply Hnil.
    clear. generalize (x0 :: l0). intro l. induction l; auto.
  - destruct (build_tree_ok A Aok nth_leaf Hnth (x0 :: l0)) as (n0 & t0 & E0 & B0 & G0 & P0); [discriminate|]. destruct (build_tree_ok A Aok nth_leaf Hnth (x1 :: l1)) as (n1 & t1 & E1 & B1 & G1 & P1); [discriminate|].
    destruct (built_nil n0 t0 B0) as (R0 & L0 & N0), (built_nil n1 t1 B1) as (R1 & L1 & N1).
    destruct (tree_ok A Aok n0 n1 (length n0 + length n1) t0 t1 (length n0 - 1) (length n1 - 1) [] ltac:(lia) R0 R1 G0 G1) as (prs & E & Pm).
    exists n0, n1, prs. do 2 (split; [assumption|]). split; [destruct n0, n1; try contradiction; exact E|].
    eapply select_ok2; [|apply prod_perm; [exact P0|exact P1]|exact Pm]. intro. apply bbox_in_spec.
Qed.

Lemma closest_all nth_point (Hpt : forall a l, Permutation (nth_point a l) l) l mids cloud dist p :
  l <> [] -> mids <> [] ->
  (forall lf, In lf l -> le (squared_distance_bbox A (fst lf) p) (ldist A p dist cloud lf)) ->
  (forall m e, In (m, e) mids -> exists lf, In lf l /\ snd lf = e /\ le (ldist A p dist cloud lf) (corner_distance A (mkBox m m) p)) ->
  exists tree mid e, build_tree A nth_leaf l = Some tree /\ point_tree A nth_point mids = Some mid /\ closest_entity A tree mid cloud dist p = Some (Some e) /\
    exists lf, In lf l /\ snd lf = e /\ forall lf', In lf' l -> le (ldist A p dist cloud lf) (ldist A p dist cloud lf').
Proof.
  intros Hl Hm Hd Hmid. destruct (build_tree_ok A Aok nth_leaf Hnth l Hl) as (tree & t & E & B & G & Pm). destruct (built_nil tree t B) as (R & L & N).
  destruct (point_tree_ok A Aok nth_point Hpt mids Hm) as (mid & tm & Em & Bm & _ & Pmm). destruct (built_nil mid tm Bm) as (Rm & Lm & Nm).
  exists tree, mid. destruct Bm as ((new & En & _ & b0 & e0 & F0 & I0) & _). cbn [app] in En. subst new.
  assert (Hc : forall lf, In lf (leaves tm) -> exists lf', In lf' l /\ snd lf' = snd lf /\ le (ldist A p dist cloud lf') (corner_distance A (fst lf) p)).
  { intros lf Hin. apply (Permutation_in _ Pmm) in Hin. apply in_map_iff in Hin as ((m & e) & <- & Hin). exact (Hmid m e Hin). }
  destruct (closest_any A Aok p dist true mid tm (length mid) (length mid - 1) (e0, corner_distance A b0 p) ltac:(lia) Rm) as (bm & Ebm & _ & Obm).
  assert (Hbm : exists lf', In lf' l /\ snd lf' = fst bm /\ le (ldist A p dist cloud lf') (snd bm)).
  { destruct Obm as [->|(lf & Hin & ->)]; [exact (Hc _ I0)|exact (Hc _ Hin)]. }
  destruct (closest_any A Aok p dist cloud tree t (length tree) (length tree - 1) bm ltac:(lia) R) as (br & Ebr & Hle & Obr). exists (fst br).
  split; [exact E|]. split; [exact Em|]. split.
  { unfold closest_entity. destruct tree as [|nd tree']; [contradiction|]. rewrite F0. cbn [obind fst]. rewrite Ebm. cbn [obind]. rewrite Ebr. reflexivity. }
  assert (Hmin : forall lf', In lf' l -> le (snd br) (ldist A p dist cloud lf')).
  { intros lf' Hin. apply (closest_min A Aok p dist cloud tree t G) with (n := length tree) (i := length tree - 1) (best := bm); auto; [|lia|].
    - intros lf Hi. apply Hd. eapply Permutation_in; eauto.
    - eapply Permutation_in; [|exact Hin]. now apply Permutation_sym. }
  destruct Obr as [->|(lf & Hin & ->)].
  - destruct Hbm as (lf & Hin & Es & Hl'). exists lf. split; [exact Hin|]. split; [exact Es|]. intros lf' H'. eapply (le_trans A Aok); [exact Hl'|now apply Hmin].
  - exists lf. split; [eapply Permutation_in; eauto|]. split; [reflexivity|]. exact Hmin.
Qed.

Lemma NoDup_app_l {X} (a b : list X) : NoDup (a ++ b) -> NoDup a.
Proof. induction a as [|x a IH]; intro H; [constructor|]. inversion H; subst. constructor; [intro Hi; apply H2, in_or_app; now left|auto]. Qed.
(** The tree of all ranks. *)
Definition root (nodes : list (node_of T)) (b : box T) : Prop := exists c, nth_error nodes (length nodes - 1) = Some (c, b).
Lemma rev_root (nodes : list (node_of T)) c b : nth_error nodes (length nodes - 1) = Some (c, b) -> exists tl, rev nodes = (c, b) :: tl.
Proof.
  intro H. destruct (rev nodes) as [|x tl] eqn:E.
  - assert (nodes = []) as -> by (rewrite <- (rev_involutive nodes), E; reflexivity). discriminate.
  - assert (En : nodes = rev tl ++ [x]) by (rewrite <- (rev_involutive nodes), E; reflexivity). rewrite En in H. rewrite nth_error_app2 in H by (rewrite app_length; cbn; lia). rewrite app_length in H. cbn [length] in H.
    replace (_ - _) with 0 in H by lia. injection H as ->. eauto.
Qed.
Lemma global_all big (ls : list (list (leaf_of T))) : 1 <= length ls -> exists trees g,
  Forall2 (fun l nodes => build_tree A nth_leaf l = Some nodes) ls trees /\ global_tree A nth_leaf big trees = Some g /\
  forall pts, exists ents offs, collisions_points A g pts = Some (ents, offs) /\ length offs = S (length pts) /\
    forall i p, nth_error pts i = Some p -> exists rs, slice_at ents offs i = Some rs /\ NoDup rs /\
      (forall r l, nth_error ls r = Some l -> l <> [] -> forall lf, In lf l -> in_box A (fst lf) p -> In r rs) /\
      (forall r, In r rs -> exists l nodes, nth_error ls r = Some l /\ nth_error trees r = Some nodes /\
         match l with [] => in_box A (mkBox (mkV big big big) (mkV big big big)) p | _ => exists b, root nodes b /\ in_box A b p end).
Proof.
  intro HP. assert (Ht : exists trees, Forall2 (fun l nodes => build_tree A nth_leaf l = Some nodes) ls trees).
  { clear HP. induction ls as [|l ls (trees & IH)]; [exists []; constructor|]. destruct (bound_ok l) as (n & E & _). exists (n :: trees). now constructor. }
  destruct Ht as (trees & Ht). assert (Hlen : length ls = length trees) by (clear -Ht; induction Ht; cbn; congruence).
  destruct (points_all (global_leaves big trees)) as (g & Eg & Hg). exists trees, g. split; [exact Ht|]. split; [exact Eg|].
  set (empty := mkBox (mkV big big big) (mkV big big big)). set (rb := fun nodes : list (node_of T) => match rev nodes with [] => empty | (_, b) :: _ => b end).
  assert (EL : global_leaves big trees = combine (map rb trees) (seq 0 (length trees))) by reflexivity.
  assert (Ecl : length (combine (map rb trees) (seq 0 (length trees))) = length trees) by (rewrite combine_length, map_length, seq_length; lia).
  assert (Esnd : map snd (combine (map rb trees) (seq 0 (length trees))) = seq 0 (length trees)).
  { clear. generalize 0. induction trees as [|x l IH]; intro s; [reflexivity|]. cbn. now rewrite IH. }
  assert (Enth : forall r nodes, nth_error trees r = Some nodes -> nth_error (combine (map rb trees) (seq 0 (length trees))) r = Some (rb nodes, r)).
  { clear. intros r nodes. enough (G : forall s, nth_error trees r = Some nodes -> nth_error (combine (map rb trees) (seq s (length trees))) r = Some (rb nodes, s + r)) by (apply (G 0)).
    revert r. induction trees as [|x l IH]; intros r s H; [destruct r; discriminate|]. destruct r as [|r]; cbn [map combine seq length nth_error] in *; [injection H as ->; now rewrite Nat.add_0_r|]. rewrite (IH r (S s) H). do 2 f_equal. lia. }
  assert (Hroot : forall r l nodes, nth_error ls r = Some l -> nth_error trees r = Some nodes -> l <> [] -> root nodes (rb nodes) /\ forall lf, In lf l -> subbox A (fst lf) (rb nodes)).
  { intros r l nodes E1 E2 N. assert (Eb : build_tree A nth_leaf l = Some nodes). { clear -Ht E1 E2. revert r E1 E2. induction Ht; intros [|r] E1 E2; try discriminate; cbn in *; [congruence|eauto]. }
    destruct (build_tree_ok A Aok nth_leaf Hnth l N) as (n' & t & E' & B & G & Pm). rewrite Eb in E'. injection E' as <-. destruct (built_nil nodes t B) as (R & _). destruct (rep_box _ _ _ R) as (c & Ec).
    destruct (rev_root nodes c (tbox t) Ec) as (tl & Er). unfold rb. rewrite Er. split; [exists c; exact Ec|]. intros lf Hin. apply (good_sub A Aok t G). eapply Permutation_in; [|exact Hin]. now apply Permutation_sym. }
  intro pts. destruct (Hg pts) as (ents & offs & E1 & E2 & E3).
  { rewrite EL, Ecl. destruct trees as [|t0 [|t1 trees]]; [cbn in Hlen; lia| |left; cbn; lia]. right. cbn. exists (rb t0), 0. auto. }
  exists ents, offs. split; [exact E1|]. split; [exact E2|]. intros i p Hi. destruct (E3 i p Hi) as (rs & Es & l' & P1 & (rest & P2 & Fr) & Fl). exists rs. split; [exact Es|].
  assert (Hnd : NoDup (map snd l' ++ map snd rest)). { rewrite <- map_app. eapply Permutation_NoDup; [apply Permutation_map; exact P2|]. rewrite EL, Esnd. apply seq_NoDup. }
  split; [eapply Permutation_NoDup; [apply Permutation_sym; exact P1|]; eapply NoDup_app_l; exact Hnd|]. split.
  - intros r l Hr N lf Hin Hbx. assert (Hlt : r < length trees) by (rewrite <- Hlen; apply nth_error_Some; congruence). destruct (nth_error_lt trees r Hlt) as (nodes & En).
    destruct (Hroot r l nodes Hr En N) as (_ & Hsub). pose proof (in_box_mono A Aok _ _ p (Hsub lf Hin) Hbx) as Hb. specialize (Enth r nodes En). apply nth_error_In in Enth. rewrite <- EL in Enth.
    apply (Permutation_in _ P2) in Enth. apply in_app_or in Enth as [H|H].
    + eapply Permutation_in; [apply Permutation_sym; exact P1|]. apply in_map_iff. exists (rb nodes, r). auto.
    + rewrite Forall_forall in Fr. now apply Fr in H.
  - intros r Hr. apply (Permutation_in _ P1) in Hr. apply in_map_iff in Hr as (lf & <- & Hin). rewrite Forall_forall in Fl. pose proof (Fl lf Hin) as Hb.
    assert (Hin' : In lf (global_leaves big trees)) by (eapply Permutation_in; [apply Permutation_sym; exact P2|]; apply in_or_app; now left).
    rewrite EL in Hin'. apply In_nth_error in Hin' as (r & Er). assert (Hlt : r < length trees) by (rewrite <- Ecl; apply nth_error_Some; congruence).
    destruct (nth_error_lt trees r Hlt) as (nodes & En). rewrite (Enth r nodes En) in Er. injection Er as <-. cbn [fst snd] in *. destruct (nth_error_lt ls r ltac:(lia)) as (l & El).
    exists l, nodes. do 2 (split; [assumption|]). destruct l as [|x l].
    + assert (Eb : build_tree A nth_leaf [] = Some nodes). { clear -Ht El En. revert r El En. induction Ht; intros [|r] E1 E2; try discriminate; cbn [nth_error] in *; [congruence|eauto]. } injection Eb as <-. exact Hb.
    + exists (rb nodes). split; [|exact Hb]. now apply (Hroot r (x :: l) nodes El En).
Qed.
End Leaves.

Lemma cloud_bound nth_point (Hpt : forall a l, Permutation (nth_point a l) l) l : exists nodes, point_tree A nth_point l = Some nodes /\
  forall j c b lf, reach nodes (length nodes - 1) j -> nth_error nodes j = Some (c, b) -> below nodes j lf ->
    (exists x e, In (x, e) l /\ lf = (mkBox x x, e)) /\ le (v0 (blo b)) (v0 (blo (fst lf))) /\ le (v0 (bhi (fst lf))) (v0 (bhi b)).
Proof.
  destruct l as [|x l]; [exists []; split; [reflexivity|intros j c b lf _ H; destruct j; discriminate]|].
  destruct (point_tree_ok A Aok nth_point Hpt (x :: l)) as (nodes & t & E & B & G & Pm); [discriminate|]. exists nodes. split; [exact E|].
  destruct (built_nil nodes t B) as (R & _). intros j c b lf Hr Hj Hb.
  destruct (reach_rep (fun t' => good0 A t' /\ forall lf, In lf (leaves t') -> In lf (map pleaf (x :: l))) nodes) with (t := t) (i := length nodes - 1) (j := j) as (t' & R' & G' & I'); auto.
  - intros l0 r0 b0 ((_ & Gl & Gr) & H). cbn [leaves] in H. split; (split; [assumption|]); intros lf' H'; apply H, in_or_app; auto.
  - split; [exact G|]. intros lf'. apply Permutation_in. exact Pm.
  - pose proof (below_rep nodes t' j R' lf Hb) as Hin. split; [apply I' in Hin; apply in_map_iff in Hin as ((y & e) & <- & Hin); exists y, e; auto|].
    destruct (rep_box nodes j t' R') as (c' & E'). rewrite Hj in E'. injection E' as _ ->. destruct t' as [e' b'|l' r' b']; [destruct Hin as [<-|[]]; split; apply (le_refl A Aok)|]. cbn [tbox leaves] in *. now apply G'.
Qed.

Lemma points_box x0 xs : let b := bbox_of_points A x0 xs in
  (forall x, In x (x0 :: xs) -> subbox A (mkBox x x) b) /\
  forall i, i < 3 -> (exists x, In x (x0 :: xs) /\ comp (blo b) i = comp x i) /\ (exists x, In x (x0 :: xs) /\ comp (bhi b) i = comp x i).
Proof.
  cbn zeta. unfold bbox_of_points.
  enough (G : forall (b : box T) seen,
    (forall x, In x seen -> subbox A (mkBox x x) b) -> (forall i, i < 3 -> (exists x, In x seen /\ comp (blo b) i = comp x i) /\ (exists x, In x seen /\ comp (bhi b) i = comp x i)) ->
    let b' := fold_left (fun b x => mkBox (vmap2 (tmin A) (blo b) x) (vmap2 (tmax A) (bhi b) x)) xs b in
    (forall x, In x (seen ++ xs) -> subbox A (mkBox x x) b') /\ (forall i, i < 3 -> (exists x, In x (seen ++ xs) /\ comp (blo b') i = comp x i) /\ (exists x, In x (seen ++ xs) /\ comp (bhi b') i = comp x i))).
  { apply (G (mkBox x0 x0) [x0]); [intros x [<-|[]]; apply (subbox_refl A Aok)|]. intros i _. split; exists x0; (split; [now left|reflexivity]). }
  induction xs as [|y ys IH]; intros b seen H1 H2; cbn [fold_left]; [rewrite app_nil_r; auto|].
  replace (seen ++ y :: ys) with ((seen ++ [y]) ++ ys) by now rewrite <- app_assoc. apply IH.
  - intros x Hin. apply in_app_or in Hin as [Hin|[<-|[]]].
    + apply (subbox_trans A Aok _ b); [now apply H1|]. intros i Hi. cbn [blo bhi]. rewrite !comp_vmap2. split; [apply (tmin_l A Aok)|apply (tmax_l A Aok)].
    + intros i Hi. cbn [blo bhi]. rewrite !comp_vmap2. split; [apply (tmin_r A Aok)|apply (tmax_r A Aok)].
  - intros i Hi. cbn [blo bhi]. rewrite !comp_vmap2. unfold tmin, tmax. destruct (H2 i Hi) as ((xl & Il & El) & (xh & Ih & Eh)). split.
    + destruct (ltb A (comp y i) (comp (blo b) i)); [exists y|exists xl]; (split; [apply in_or_app; cbn; auto|auto]).
    + destruct (ltb A (comp (bhi b) i) (comp y i)); [exists y|exists xh]; (split; [apply in_or_app; cbn; auto|auto]).
Qed.
End M.

(** ** Instances *)
Definition Zarith : arith Z := mkArith Z Z.leb 0%Z 0%Z Z.add Z.sub Z.mul.
Lemma Zarith_ok : arith_ok Zarith.
Proof. split; cbn; intros; rewrite ?Z.leb_le in *; try lia; nia. Qed.
Definition Rarith : arith R := mkArith R (fun x y => if Rle_dec x y then true else false) 0%R (/ 100000000000000)%R Rplus Rminus Rmult.
Lemma Rle_dec_true x y : (if Rle_dec x y then true else false) = true <-> (x <= y)%R.
Proof. destruct (Rle_dec x y); split; intro; try easy. Qed.
Lemma Rarith_ok : arith_ok Rarith.
Proof.
  split; cbn; intros; rewrite ?Rle_dec_true in *; try lra; try nra.
Qed.
(** A point of the box is at least as far as the box. *)
Lemma real_box_bound b p x : (forall i, i < 3 -> (comp (blo b) i <= comp x i <= comp (bhi b) i)%R) ->
  a_leb Rarith (squared_distance_bbox Rarith b p) (corner_distance Rarith (mkBox x x) p) = true.
Proof.
  intro H. pose proof (H 0 ltac:(lia)) as H0. pose proof (H 1 ltac:(lia)) as H1. pose proof (H 2 ltac:(lia)) as H2. clear H. destruct b as ((l0, l1, l2), (h0, h1, h2)), p as (p0, p1, p2), x as (x0, x1, x2).
  unfold squared_distance_bbox, corner_distance, sum3, sq, ltb, vmap2 in *. cbn in *. apply Rle_dec_true.
  assert (G : forall l h p x : R, (l <= x <= h)%R -> ((if negb (if Rle_dec (p - l) 0 then true else false) then 0 else (p - l) * (p - l)) + (if negb (if Rle_dec 0 (p - h) then true else false) then 0 else (p - h) * (p - h)) <= (x - p) * (x - p))%R).
  { intros l h p x Hx. destruct (Rle_dec (p - l) 0), (Rle_dec 0 (p - h)); cbn [negb]; [assert (l = p) by lra; assert (h = p) by lra; assert (x = p) by lra; subst; lra| | |]. - assert (0 <= (x - l) * ((x - p) + (l - p)))%R by (apply Rmult_le_pos; lra). lra. - assert (0 <= (h - x) * ((p - x) + (p - h)))%R by (apply Rmult_le_pos; lra). lra. - pose proof (Rle_0_sqr (x - p)) as Hs. unfold Rsqr in Hs. lra. }
  pose proof (G _ _ p0 _ H0). pose proof (G _ _ p1 _ H1). pose proof (G _ _ p2 _ H2). lra.
Qed.
