(** Groups of equal elements in a sorted list and the pairs in them. *)
From Verif Require Import Base BaseProofs Algo AlgoProofs SortSpec DualGraph.
Open Scope nat_scope.

Lemma prefix_len_split {A} (p : A -> bool) l : Forall (fun x => p x = true) (firstn (prefix_len p l) l) /\
  match skipn (prefix_len p l) l with [] => True | y :: _ => p y = false end.
Proof.
  induction l as [|x l [IH1 IH2]]; cbn; [split; constructor|]. destruct (p x) eqn:E; cbn; [split; [constructor; auto|exact IH2]|].
  split; [constructor|exact E].
Qed.

Lemma all_pairs_in {A} (l : list A) a b : In (a, b) (all_pairs l) <-> exists l1 l2 l3, l = l1 ++ a :: l2 ++ b :: l3.
Proof.
  induction l as [|x l IH]; cbn.
  - split; [tauto|]. intros (l1 & l2 & l3 & E). destruct l1; discriminate.
  - rewrite in_app_iff, in_map_iff, IH. split.
    + intros [(y & E & Hy)|(l1 & l2 & l3 & ->)].
      * injection E as -> ->. apply in_split in Hy as (l2 & l3 & ->). exists [], l2, l3. reflexivity.
      * exists (x :: l1), l2, l3. reflexivity.
    + intros (l1 & l2 & l3 & E). destruct l1 as [|z l1]; cbn in E; injection E as -> E.
      * left. exists b. split; [reflexivity|]. rewrite E. apply in_or_app. right. now left.
      * right. eauto.
Qed.
Lemma all_pairs_members {A} (l : list A) a b : In (a, b) (all_pairs l) -> In a l /\ In b l.
Proof.
  rewrite all_pairs_in. intros (l1 & l2 & l3 & ->). split; apply in_or_app; right; [now left|]. right. apply in_or_app. right. now left.
Qed.
Lemma NoDup_app_i {A} (a b : list A) : NoDup a -> NoDup b -> (forall x, In x a -> ~ In x b) -> NoDup (a ++ b).
Proof.
  intros Ha Hb H. induction Ha as [|x a Hx Ha IH]; [exact Hb|]. cbn. constructor.
  - rewrite in_app_iff. intros [K|K]; [contradiction|]. apply (H x); [now left|exact K].
  - apply IH. intros y Hy. apply H. now right.
Qed.
Lemma NoDup_map_i {A B} (f : A -> B) l : (forall x y, In x l -> In y l -> f x = f y -> x = y) -> NoDup l -> NoDup (map f l).
Proof.
  intros Hf H. induction H as [|x l Hx Hl IH]; [constructor|]. cbn. constructor.
  - intros K. apply in_map_iff in K as (y & E & Hy). apply Hx. rewrite (Hf x y); [exact Hy|now left|now right|now symmetry].
  - apply IH. intros a b Ha Hb. apply Hf; now right.
Qed.
Lemma all_pairs_NoDup {A} (l : list A) : NoDup l -> NoDup (all_pairs l).
Proof.
  induction l as [|x l IH]; intro H; [constructor|]. inversion H as [|? ? Hx Hl]; subst. cbn.
  apply NoDup_app_i; [|now apply IH|].
  - apply NoDup_map_i; [|exact Hl]. intros a b _ _ E. now injection E.
  - intros (a, b) Ha Hb. apply in_map_iff in Ha as (y & E & _). injection E as E1 E2. apply all_pairs_members in Hb as (Hb & _). rewrite <- E1 in Hb. contradiction.
Qed.
Lemma all_pairs_total {A} (l : list A) a b : (forall x y : A, {x = y} + {x <> y}) -> In a l -> In b l -> a <> b ->
  In (a, b) (all_pairs l) \/ In (b, a) (all_pairs l).
Proof.
  intro dec. induction l as [|x l IH]; [intros []|]. intros Ha Hb N. cbn. rewrite !in_app_iff, !in_map_iff.
  destruct Ha as [->|Ha], Hb as [->|Hb]; [congruence| | |].
  - left. left. exists b. auto.
  - right. left. exists a. auto.
  - destruct (IH Ha Hb N); tauto.
Qed.
Lemma all_pairs_asym {A} (l : list A) a b : NoDup l -> In (a, b) (all_pairs l) -> ~ In (b, a) (all_pairs l).
Proof.
  induction l as [|x l IH]; intros H K; [destruct K|]. inversion H as [|? ? Hx Hl]; subst. cbn in *. rewrite in_app_iff, in_map_iff in *.
  intros M. destruct K as [(y & E & Hy)|K], M as [(z & F & Hz)|M].
  - injection E as E1 E2. injection F as F1 F2. subst. contradiction.
  - injection E as E1 E2. subst. apply all_pairs_members in M as (_ & M). contradiction.
  - injection F as F1 F2. subst. apply all_pairs_members in K as (_ & K). contradiction.
  - exact (IH Hl K M).
Qed.
Lemma all_pairs_neq {A} (l : list A) a b : NoDup l -> In (a, b) (all_pairs l) -> a <> b.
Proof. intros H K ->. exact (all_pairs_asym l b b H K K). Qed.

(** Pairs with equal keys of a list that starts with a full class *)
Lemma pairs_class {A} (same : A -> A -> bool) (g rest : list A) :
  (forall a b, In a g -> In b g -> same a b = true) -> (forall a b, In a g -> In b rest -> same a b = false) ->
  filter (fun p => same (fst p) (snd p)) (all_pairs (g ++ rest)) = all_pairs g ++ filter (fun p => same (fst p) (snd p)) (all_pairs rest).
Proof.
  induction g as [|x g IH]; intros H1 H2; [reflexivity|]. cbn [app all_pairs]. rewrite map_app, !filter_app, <- !app_assoc.
  rewrite IH; [|intros; apply H1; now right|intros; apply H2; [now right|assumption]].
  assert (filter (fun p => same (fst p) (snd p)) (map (pair x) g) = map (pair x) g) as ->.
  { apply filter_all. intros p Hp. apply in_map_iff in Hp as (y & <- & Hy). cbn. apply H1; [now left|now right]. }
  assert (filter (fun p => same (fst p) (snd p)) (map (pair x) rest) = []) as ->.
  { apply filter_none. intros p Hp. apply in_map_iff in Hp as (y & <- & Hy). cbn. apply H2; [now left|exact Hy]. }
  reflexivity.
Qed.

Lemma SS_skipn {A} (R : A -> A -> Prop) l n : StronglySorted R l -> StronglySorted R (skipn n l).
Proof. intro H. revert n. induction H as [|a t H IH Ha]; intros [|n]; cbn; try constructor; auto. Qed.

Section Groups.
Context {A K : Type}.
Variables (le : K -> K -> Prop) (key : A -> K) (same : A -> A -> bool).
Hypothesis le_anti : forall a b, le a b -> le b a -> a = b.

Lemma group_by_ok l fuel : length l <= fuel ->
  (forall a b, In a l -> In b l -> (same a b = true <-> key a = key b)) ->
  StronglySorted (fun a b => le (key a) (key b)) l ->
  exists gs, group_by fuel same l = Some gs /\ concat gs = l /\
    concat (map all_pairs gs) = filter (fun p => same (fst p) (snd p)) (all_pairs l) /\
    (forall g x, In g gs -> In x g -> g = filter (same x) l).
Proof.
  revert l. induction fuel as [|fuel IH]; intros l Hl Hs HS.
  { destruct l; [|cbn in Hl; lia]. exists []. cbn. repeat split; auto. intros g x []. }
  destruct l as [|x l']; [exists []; cbn; repeat split; auto; intros g y []|]. cbn [group_by].
  set (l := x :: l') in *. set (n := prefix_len (same x) l).
  assert (Hx : In x l) by now left.
  assert (Hn : 1 <= n). { unfold n, l. cbn. assert (same x x = true) as -> by (apply Hs; auto). lia. }
  pose proof (prefix_len_split (same x) l) as (F & G). fold n in F, G.
  assert (Esp : l = firstn n l ++ skipn n l) by (symmetry; apply firstn_skipn).
  assert (In_f : forall y, In y (firstn n l) -> In y l /\ same x y = true).
  { intros y Hy. split; [rewrite Esp; apply in_or_app; now left|]. rewrite Forall_forall in F. auto. }
  assert (In_s : forall y, In y (skipn n l) -> In y l) by (intros y Hy; rewrite Esp; apply in_or_app; now right).
  assert (Hkf : forall y, In y (firstn n l) -> key y = key x). { intros y Hy. destruct (In_f y Hy) as (I & E). symmetry. now apply Hs. }
  assert (HSs : StronglySorted (fun a b => le (key a) (key b)) (skipn n l)).
  { now apply SS_skipn. }
  assert (Hks : forall y, In y (skipn n l) -> key y <> key x).
  { intros y Hy E. destruct (skipn n l) as [|z r] eqn:Er; [destruct Hy|].
    assert (Hz : In z l) by (apply In_s; now left).
    assert (Lxz : le (key x) (key z)).
    { inversion HS as [|? ? _ Fx]; subst. rewrite Forall_forall in Fx. apply Fx.
      destruct n as [|n']; [lia|]. unfold l in Er. cbn in Er. rewrite <- (firstn_skipn n' l'), Er. apply in_or_app. right. now left. }
    assert (Ezx : key z = key x).
    { destruct Hy as [->|Hy]; [exact E|]. apply le_anti; [|exact Lxz]. rewrite <- E. inversion HSs as [|? ? _ Fz]; subst. rewrite Forall_forall in Fz. now apply Fz. }
    assert (same x z = true) by (apply Hs; auto). congruence. }
  destruct (IH (skipn n l)) as (gs & Eg & Ec & Ep & Ef).
  - rewrite skipn_length. cbn [length] in *. subst l. cbn [length] in *. lia.
  - intros a b Ha Hb. apply Hs; auto.
  - exact HSs.
  - rewrite Eg. cbn [obind]. eexists. split; [reflexivity|]. split; [|split].
    + cbn [concat]. rewrite Ec. now symmetry.
    + cbn [map concat]. rewrite Ep. rewrite Esp at 3. symmetry. apply pairs_class.
      * intros a b Ha Hb. apply Hs; [now apply In_f|now apply In_f|]. now rewrite (Hkf a Ha), (Hkf b Hb).
      * intros a b Ha Hb. destruct (same a b) eqn:E; [|reflexivity]. exfalso. apply (Hks b Hb).
        apply Hs in E; [|now apply In_f|now apply In_s]. now rewrite <- E, (Hkf a Ha).
    + intros g y [<-|Hg] Hy.
      * rewrite Esp at 2. rewrite filter_app.
        assert (filter (same y) (firstn n l) = firstn n l) as ->.
        { apply filter_all. intros z Hz. apply Hs; [now apply In_f|now apply In_f|]. now rewrite (Hkf y Hy), (Hkf z Hz). }
        assert (filter (same y) (skipn n l) = []) as ->; [|now rewrite app_nil_r].
        apply filter_none. intros z Hz. destruct (same y z) eqn:E; [|reflexivity]. exfalso. apply (Hks z Hz).
        apply Hs in E; [|now apply In_f|now apply In_s]. now rewrite <- E, (Hkf y Hy).
      * rewrite (Ef g y Hg Hy). rewrite Esp at 2. rewrite filter_app.
        assert (filter (same y) (firstn n l) = []) as ->; [|reflexivity].
        assert (Hyl : In y (skipn n l)) by (rewrite <- Ec; apply in_concat; eauto).
        apply filter_none. intros z Hz. destruct (same y z) eqn:E; [|reflexivity]. exfalso. apply (Hks y Hyl).
        apply Hs in E; [|now apply In_s|now apply In_f]. now rewrite E, (Hkf z Hz).
Qed.
End Groups.

Lemma lex_le_anti a b : lex_le a b -> lex_le b a -> a = b.
Proof.
  revert b. induction a as [|x a IH]; destruct b as [|y b]; cbn; try tauto. intros [H|(-> & H)] [H'|(E & H')]; try lia. f_equal. now apply IH.
Qed.
