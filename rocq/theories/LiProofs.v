(** Proofs about [get_local_indexing]: global numbers and the index map. *)
From Coq Require Import NArith.
From Verif Require Import Base BaseProofs BucketProofs Algo AlgoProofs TransProofs Nbx World WorldProofs IndexMap IndexMapSpec IndexMapProofs ImSharedProofs SparsityProofs Orient OrientProofs Entities EntitiesSpec NumberProofs LocalIndexing LocalIndexingSpec LiLemmas LiGather LiNumber.
Open Scope nat_scope.

Section Li.
Variables (P : nat) (nbx : (nat -> list nat) -> nat -> list nat) (maps : nat -> imap) (nv : nat) (inp : nat -> li_input).
Hypothesis Hnbx : nbx_oracle P nbx.
Hypothesis Hok : maps_ok P maps.
Hypothesis OK : li_ok P maps nv inp.

Notation c r := (length (li_ghost (inp r))).
Notation nb := (nbrs P nbx maps).
Notation gv := (gv maps inp).
Notation st := (st inp).
Notation sent := (sent maps inp).
Notation lookup := (lookup maps inp).
Notation owner := (owner P maps inp).
Notation NG := (NG P maps inp).
Notation ownedb := (ownedb P maps inp).
Notation ipeb := (ipeb P maps inp).
Notation nl := (nl P maps inp).
Notation npos := (npos P maps inp).
Notation msgs := (msgs P nbx maps inp).
Notation look_m := (look_m maps inp).
Notation gvm := (gvm maps inp).

Definition off (r : nat) : nat := lsum (map nl (seq 0 r)).
Definition gnum (e : list nat) : nat := match lookup (owner e) e with Some i => off (owner e) + npos (owner e) i | None => 0 end.

Lemma off_S r : off (S r) = off r + nl r.
Proof using Type. unfold off. rewrite seq_S, map_app, lsum_app. cbn [map plus]. rewrite lsum_cons, lsum_nil. lia. Qed.
Lemma off_mono r s : r <= s -> off r <= off s.
Proof using Type. induction 1; [lia|]. rewrite off_S. lia. Qed.

Lemma good r i : r < P -> i < c r -> NG (gv r i) <> [].
Proof.
  intros Hr Hi. destruct (Nat.eq_dec (st r i) 1) as [E|N].
  - destruct (id_pos P maps nv inp OK r i Hr Hi) as (p & _ & Hp & _).
    destruct (lk_ghost _ _ _ _ OK r p i (gv r i) Hr) as (s & Hs & j & id & He & Hj & Hg).
    + now apply (ent_gv P maps nv inp Hok OK r p i Hr Hp).
    + exact Hp.
    + rewrite <- E. apply nth_error_nth'. exact Hi.
    + apply (ent_gv P maps nv inp Hok OK s j id Hs Hj) in He. assert (id < c s) as Hid by (eapply nth_error_bound; eauto).
      assert (In s (NG (gv r i))) as Hin; [|intros E0; rewrite E0 in Hin; destruct Hin]. apply NG_in. split; [exact Hs|]. rewrite He, (ngb_gv P maps nv inp Hok OK s id Hs Hid). unfold LiGather.st. rewrite (nth_error_nth _ _ _ Hg). reflexivity.
  - assert (In r (NG (gv r i))) as Hin; [|intros E0; rewrite E0 in Hin; destruct Hin]. apply NG_in. split; [exact Hr|]. rewrite (ngb_gv P maps nv inp Hok OK r i Hr Hi). now destruct (Nat.eqb_spec (st r i) 1).
Qed.
Lemma owner_ok e : NG e <> [] -> exists i, owner e < P /\ lookup (owner e) e = Some i /\ i < c (owner e) /\ gv (owner e) i = e /\ st (owner e) i <> 1 /\ ownedb (owner e) i = true.
Proof.
  intros H. pose proof (owner_in P maps inp e H) as Ho. apply NG_in in Ho as [Ho Hn]. unfold ngb in Hn. destruct (lookup (owner e) e) as [i|] eqn:El; [|discriminate]. exists i. split; [exact Ho|]. split; [reflexivity|].
  apply (lookup_some P maps nv inp Hok OK) in El as [Hi El]; [|exact Ho]. split; [exact Hi|]. split; [exact El|]. split; [intros E; rewrite E in Hn; discriminate|]. unfold LiNumber.ownedb. rewrite El, Nat.eqb_refl, Hn. reflexivity.
Qed.
Lemma npos_lt r i : i < c r -> (npos r i < nl r <-> ownedb r i = true).
Proof using Type. apply cpos_owned. Qed.
Lemma gnum_range e : NG e <> [] -> off (owner e) <= gnum e < off (S (owner e)).
Proof.
  intros H. destruct (owner_ok e H) as (i & Ho & El & Hi & _ & _ & Hw). unfold gnum. rewrite El, off_S. apply npos_lt in Hw; [|exact Hi]. lia.
Qed.
Lemma gnum_inj e f : NG e <> [] -> NG f <> [] -> gnum e = gnum f -> e = f.
Proof.
  intros He Hf E. pose proof (gnum_range e He) as R1. pose proof (gnum_range f Hf) as R2.
  assert (owner e = owner f) as Eo.
  { destruct (Nat.lt_trichotomy (owner e) (owner f)) as [L|[L|L]]; [|exact L|]; exfalso.
    - pose proof (off_mono (S (owner e)) (owner f) L). lia.
    - pose proof (off_mono (S (owner f)) (owner e) L). lia. }
  destruct (owner_ok e He) as (i & Ho & El & Hi & Gi & _ & _). destruct (owner_ok f Hf) as (j & _ & El' & Hj & Gj & _ & _). unfold gnum in E. rewrite El, El', Eo in E. rewrite Eo in Hi, Gi.
  assert (i = j) as -> by (apply (cpos_inj (ownedb (owner f)) (c (owner f))); [exact Hi|exact Hj|]; unfold LiNumber.npos in E; lia). congruence.
Qed.
Lemma gnum_owned r i : r < P -> i < c r -> ownedb r i = true -> owner (gv r i) = r /\ gnum (gv r i) = off r + npos r i.
Proof.
  intros Hr Hi H. assert (owner (gv r i) = r) as E by (unfold LiNumber.ownedb in H; apply andb_true_iff in H as [_ H]; now apply Nat.eqb_eq in H). split; [exact E|].
  unfold gnum. rewrite E, (proj2 (lookup_some P maps nv inp Hok OK r (gv r i) i Hr) (conj Hi eq_refl)). reflexivity.
Qed.

Definition glm (m : nat * nat) : option nat := if ownedb (fst m) (snd m) then Some (off (fst m) + npos (fst m) (snd m)) else None.
Lemma num_local_ok r : r < P -> num_local P nbx maps nv inp r = Some (nl r).
Proof. intros Hr. unfold num_local. rewrite (numbering_ok P nbx maps nv inp Hnbx Hok OK r Hr). reflexivity. Qed.
Lemma send_globals_ok r : r < P -> send_globals P nbx maps nv inp r
  = Some (concat (map (fun d => map (fun id => glm (r, id)) (sent r d)) (nb r)),
          (map (fun d => length (map (fun id => glm (r, id)) (sent r d))) (nb r), psums (map (fun d => length (map (fun id => glm (r, id)) (sent r d))) (nb r)))).
Proof.
  intros Hr. unfold send_globals. destruct (gathered_ok P nbx maps nv inp Hnbx Hok OK r Hr) as (e2l & perm & -> & _). cbn [obind].
  rewrite (numbering_ok P nbx maps nv inp Hnbx Hok OK r Hr). cbn [obind].
  rewrite (omap_map _ nl) by (intros s Hs; apply in_seq in Hs; apply num_local_ok; lia). cbn [obind].
  match goal with |- context [omap ?f (map ?g (nb r))] => assert (omap f (map g (nb r)) = Some (map (fun d => map (fun id => glm (r, id)) (sent r d)) (nb r))) as -> end.
  { transitivity (omap (fun d => omap (fun id => Some (glm (r, id))) (sent r d)) (nb r)).
    - generalize (nb r) as l. induction l as [|d l IH]; [reflexivity|]. cbn [map omap]. rewrite IH. f_equal.
      assert (Hs : forall id, In id (sent r d) -> id < c r) by (intros id Hid; apply filter_In in Hid as [Hid _]; apply in_seq in Hid; lia).
      revert Hs. generalize (sent r d) as t. induction t as [|id t IHt]; intros Hs; [reflexivity|]. cbn [map omap snd]. rewrite IHt by (intros; apply Hs; now right).
      rewrite nth_error_map, nth_error_seq by (apply Hs; now left). cbn [option_map obind plus]. f_equal. unfold glm. cbn [fst snd].
      assert ((npos r id <? nl r) = ownedb r id) as -> by (apply eq_true_iff_eq; rewrite Nat.ltb_lt; apply npos_lt, Hs; now left). reflexivity.
    - apply omap_map. intros d _. now apply omap_map. }
  cbn [obind]. now rewrite map_map.
Qed.

Definition ghosts (r : nat) : list nat := filter (fun i => negb (ownedb r i)) (seq 0 (c r)).
Lemma ghosts_ok r : r < P -> ghosts_of P nbx maps nv inp r = Some (map (fun i => gnum (gv r i)) (ghosts r), map (fun i => owner (gv r i)) (ghosts r)).
Proof.
  intros Hr. unfold ghosts_of. rewrite (matched_ok P nbx maps nv inp Hnbx Hok OK r Hr). cbn [obind]. rewrite (numbering_ok P nbx maps nv inp Hnbx Hok OK r Hr). cbn [obind].
  assert (RS : recv_sizes P nbx maps nv inp r = Some (map (fun s => length (sent s r)) (nb r))) by (unfold recv_sizes; rewrite (received_ok P nbx maps nv inp Hnbx Hok OK r Hr); reflexivity).
  rewrite (neigh_alltoallv_spec P nb nb _ _ (fun s d => map (fun id => glm (s, id)) (sent s d)) r (nb_graph P nbx maps Hnbx Hok) Hr).
  2:{ intros s Hs. apply send_globals_ok. apply (nb_in P nbx maps Hnbx Hok) in Hs; tauto. }
  2:{ rewrite RS. f_equal. apply map_ext. intros s. now rewrite map_length. }
  cbn [obind]. rewrite RS. cbn [obind]. rewrite (concat_msgs P nbx maps inp glm r), positions_msgs, (count_is P maps nv inp OK r Hr).
  set (n := c r - nl r). set (mg := countb (fun i => negb (ownedb r i))).
  assert (Hn : mg (seq 0 (c r)) = n) by (unfold n, mg, LiNumber.nl; pose proof (countb_seq_both (ownedb r) (c r)); lia).
  match goal with |- context [ofold ?f (combine (map fst (msgs r)) (seq 0 (length (msgs r)))) ?s0] =>
    destruct (pos_ind f (fun p s => length (fst s) = n /\ length (snd s) = n /\ forall i, i < c r -> ownedb r i = false ->
      nth_error (fst s) (mg (seq 0 i)) = Some None /\ nth_error (snd s) (mg (seq 0 i)) = Some None /\ (forall m, In m p -> ownedb (fst m) (snd m) = true -> look_m r m = Some i -> False) \/
      nth_error (fst s) (mg (seq 0 i)) = Some (Some (gnum (gv r i))) /\ nth_error (snd s) (mg (seq 0 i)) = Some (Some (owner (gv r i)))) (msgs r) s0) as ([gi go] & E & Lg & Lo & HI) end.
  - cbn [fst snd]. rewrite !repeat_length. split; [reflexivity|]. split; [reflexivity|]. intros i Hi Ei. left.
    assert (mg (seq 0 i) < n) as Hk by (rewrite <- Hn; apply (countb_seq_lt (fun i => negb (ownedb r i))); [exact Hi|now rewrite Ei]).
    rewrite !nth_error_repeat by exact Hk. split; [reflexivity|]. split; [reflexivity|]. intros m [].
  - intros p m q [gi go] E (L1 & L2 & HI). cbn [fst snd] in *. rewrite !nth_error_map, E, nth_error_app2, Nat.sub_diag by lia. cbn [nth_error option_map obind].
    assert (Hm : In m (msgs r)) by (rewrite E; apply in_elt). destruct (msgs_rank P nbx maps inp Hnbx Hok r m Hr Hm) as (H1 & H2 & H3 & H4).
    unfold glm. destruct (ownedb (fst m) (snd m)) eqn:Ew; [destruct (look_m r m) as [j|] eqn:El|].
    + assert (Hl := El). unfold LiNumber.look_m in Hl. apply (lookup_some P maps nv inp Hok OK) in Hl as [Hj Gj]; [|exact Hr].
      destruct (gnum_owned (fst m) (snd m) H1 H3 Ew) as [O1 G1]. unfold LiNumber.gvm in Gj. rewrite <- Gj in O1, G1.
      assert (ownedb r j = false) as Ej by (unfold LiNumber.ownedb; rewrite O1; destruct (Nat.eqb_spec (fst m) r); [contradiction|apply andb_false_r]).
      assert (npos r j = nl r + mg (seq 0 j)) as Ep by (unfold LiNumber.npos, cpos; rewrite Ej; reflexivity).
      assert (mg (seq 0 j) < n) as Hk by (rewrite <- Hn; apply (countb_seq_lt (fun i => negb (ownedb r i))); [exact Hj|now rewrite Ej]).
      rewrite nth_error_map, nth_error_seq by exact Hj. cbn [option_map obind plus]. rewrite Ep. destruct (Nat.ltb_spec (nl r + mg (seq 0 j)) (nl r)); [lia|].
      replace (nl r + mg (seq 0 j) - nl r) with (mg (seq 0 j)) by lia.
      destruct (upd_some gi (mg (seq 0 j)) (Some (off (fst m) + npos (fst m) (snd m)))) as (gi' & E1); [lia|]. destruct (upd_some go (mg (seq 0 j)) (Some (fst m))) as (go' & E2); [lia|].
      rewrite E1. cbn [obind]. rewrite E2. cbn [obind]. eexists. split; [reflexivity|]. cbn [fst snd]. rewrite (upd_length _ _ _ _ E1), (upd_length _ _ _ _ E2). split; [exact L1|]. split; [exact L2|].
      intros i Hi Ei. rewrite (upd_nth _ _ _ (mg (seq 0 i)) _ E1), (upd_nth _ _ _ (mg (seq 0 i)) _ E2). destruct (Nat.eq_dec j i) as [<-|N].
      * rewrite Nat.eqb_refl. right. rewrite <- G1, O1. split; reflexivity.
      * destruct (Nat.eqb_spec (mg (seq 0 j)) (mg (seq 0 i))) as [Ek|_].
        { exfalso. apply N. apply (countb_seq_inj (fun i => negb (ownedb r i))); [now rewrite Ej|now rewrite Ei|exact Ek]. }
        destruct (HI i Hi Ei) as [(A & B & D)|A]; [left|now right]. split; [exact A|]. split; [exact B|]. intros m' Hm' W L. apply in_app_or in Hm' as [Hm'|[<-|[]]]; [eauto|]. congruence.
    + eexists. split; [reflexivity|]. cbn [fst snd]. split; [exact L1|]. split; [exact L2|]. intros i Hi Ei. destruct (HI i Hi Ei) as [(A & B & D)|A]; [left|now right]. split; [exact A|]. split; [exact B|].
      intros m' Hm' W L. apply in_app_or in Hm' as [Hm'|[<-|[]]]; [eauto|congruence].
    + eexists. split; [reflexivity|]. cbn [fst snd]. split; [exact L1|]. split; [exact L2|]. intros i Hi Ei. destruct (HI i Hi Ei) as [(A & B & D)|A]; [left|now right]. split; [exact A|]. split; [exact B|].
      intros m' Hm' W L. apply in_app_or in Hm' as [Hm'|[<-|[]]]; [eauto|congruence].
  - rewrite E. cbn [obind]. cbn [fst snd] in *.
    assert (HF : forall i, i < c r -> ownedb r i = false -> nth_error gi (mg (seq 0 i)) = Some (Some (gnum (gv r i))) /\ nth_error go (mg (seq 0 i)) = Some (Some (owner (gv r i)))).
    { intros i Hi Ei. destruct (HI i Hi Ei) as [(_ & _ & D)|A]; [exfalso|exact A]. destruct (owner_ok (gv r i) (good r i Hr Hi)) as (j & Ho & El & Hj & Gj & Sj & Wj).
      assert (owner (gv r i) <> r) as No.
      { intros E0. assert (j = i) as -> by (apply (gv_inj P maps nv inp Hok OK r); [exact Hr|now rewrite <- E0|exact Hi|now rewrite <- E0 at 1]). rewrite E0 in Wj. congruence. }
      destruct (proj2 (msg_iff P nbx maps nv inp Hnbx Hok OK r i (owner (gv r i)) Hr Hi)) as (id & Hm & Lm); [split; [exact No|apply owner_in, good; assumption]|].
      assert (id = j) as ->. { assert (Lm' := Lm). unfold LiNumber.look_m, LiNumber.gvm in Lm'. cbn [fst snd] in Lm'. apply (lookup_some P maps nv inp Hok OK) in Lm' as [_ Lm']; [|exact Hr].
        apply (gv_inj P maps nv inp Hok OK (owner (gv r i))); [exact Ho| |exact Hj|congruence]. now destruct (msgs_rank P nbx maps inp Hnbx Hok r _ Hr Hm) as (_ & _ & H & _). }
      exact (D _ Hm Wj Lm). }
    assert (EG : forall (F : nat -> nat) (l : list (option nat)), length l = n -> (forall i, i < c r -> ownedb r i = false -> nth_error l (mg (seq 0 i)) = Some (Some (F i))) -> l = map (fun i => Some (F i)) (ghosts r)).
    { intros F l Ll Hl. apply nth_error_ext. intros k. rewrite nth_error_map. destruct (Nat.lt_ge_cases k n) as [Hk|Hk].
      - rewrite <- Hn in Hk. apply (filter_seq_ex (fun i => negb (ownedb r i))) in Hk as (i & Hi & Ei & <-). unfold ghosts. rewrite (filter_seq_nth (fun i => negb (ownedb r i)) (c r) i Hi Ei). cbn [option_map]. apply Hl; [exact Hi|]. now destruct (ownedb r i).
      - rewrite (proj2 (nth_error_None l k)) by lia. rewrite (proj2 (nth_error_None (ghosts r) k)); [reflexivity|]. unfold ghosts. rewrite <- countb_filter. fold mg. lia. }
    assert (OM : forall F : nat -> nat, omap (fun x : option nat => x) (map (fun i => Some (F i)) (ghosts r)) = Some (map F (ghosts r))) by (intros F; generalize (ghosts r) as t; induction t as [|i t IH]; [reflexivity|]; cbn [map omap obind]; rewrite IH; reflexivity).
    rewrite (EG (fun i => gnum (gv r i)) gi Lg) by (intros; now apply HF). rewrite (EG (fun i => owner (gv r i)) go Lo) by (intros; now apply HF). rewrite OM. cbn [obind]. rewrite OM. reflexivity.
Qed.

Definition LS (s : nat) : nat := match num_local P nbx maps nv inp s with Some n => n | None => 0 end.
Definition GH (s : nat) : list nat := match ghosts_of P nbx maps nv inp s with Some (g, _) => g | None => [] end.
Definition OW (s : nat) : list nat := match ghosts_of P nbx maps nv inp s with Some (_, o) => o | None => [] end.
Lemma LS_off r : r <= P -> lsum (map LS (seq 0 r)) = off r.
Proof. intros Hr. unfold off. f_equal. apply map_ext_in. intros s Hs. apply in_seq in Hs. unfold LS. rewrite num_local_ok by lia. reflexivity. Qed.
Lemma ghosts_in r i : In i (ghosts r) <-> i < c r /\ ownedb r i = false.
Proof using Type. unfold ghosts. rewrite filter_In, in_seq. destruct (ownedb r i); cbn [negb]; split; intros [H1 H2]; try discriminate; split; try reflexivity; lia. Qed.
Lemma li_inputs : inputs_ok P LS GH OW.
Proof.
  intros r Hr. unfold GH, OW. rewrite (ghosts_ok r Hr). rewrite !map_length. split; [reflexivity|]. split.
  - assert (forall i, In i (ghosts r) -> i < c r) as Hin by (intros i Hi; now apply ghosts_in in Hi). assert (NoDup (ghosts r)) as Hnd by apply NoDup_filter, seq_NoDup. revert Hin Hnd. generalize (ghosts r) as l. induction l as [|i l IH]; intros Hin Hnd; [constructor|]. inversion Hnd as [|? ? Hi Hnd']; subst. cbn [map]. constructor; [|apply IH; [intros; apply Hin; now right|exact Hnd']].
    intros H. apply in_map_iff in H as (j & E & Hj). apply gnum_inj in E; [|apply good; [exact Hr|apply Hin; now right]|apply good; [exact Hr|apply Hin; now left]].
    apply (gv_inj P maps nv inp Hok OK r) in E; [subst; contradiction|exact Hr|apply Hin; now right|apply Hin; now left].
  - intros k g o Hg Ho. rewrite nth_error_map in Hg, Ho. destruct (nth_error (ghosts r) k) as [i|] eqn:Ei; [|discriminate]. cbn [option_map] in Hg, Ho. injection Hg as <-. injection Ho as <-.
    apply nth_error_In, ghosts_in in Ei as [Hi Wi]. destruct (owner_ok (gv r i) (good r i Hr Hi)) as (j & Ho & El & Hj & Gj & Sj & Wj). split; [exact Ho|]. split.
    + intros E0. assert (j = i) as -> by (apply (gv_inj P maps nv inp Hok OK r); [exact Hr|now rewrite <- E0|exact Hi|now rewrite <- E0 at 1]). rewrite E0 in Wj. congruence.
    + rewrite !LS_off by lia. apply gnum_range. now apply good.
Qed.

Lemma li_correct : 0 < P -> exists news em ipe, maps_ok P em /\ li_numbered P maps inp news em ipe /\
  forall r, r < P -> get_local_indexing P nbx maps nv inp r = Some (news r, em r, ipe r).
Proof.
  intros HP. destruct (maps_make_ok P nbx LS GH OW Hnbx HP li_inputs) as (em & Hem & HE).
  assert (Hid : forall r i a, r < P -> nth_error (li_index (inp r)) i = Some a -> a < c r) by (intros r i a Hr Hi; apply (lk_count _ _ _ _ OK); [exact Hr|eapply nth_error_In; eauto]).
  assert (HS : forall r, r < P -> size_local (em r) = nl r) by (intros r Hr; destruct (HE r Hr) as (_ & _ & _ & -> & _); unfold LS; now rewrite num_local_ok).
  assert (HG : forall r, r < P -> im_ghosts (em r) = map (fun i => gnum (gv r i)) (ghosts r)) by (intros r Hr; destruct (HE r Hr) as (_ & -> & _); unfold GH; now rewrite ghosts_ok).
  assert (HL : forall r, r < P -> im_lo (em r) = off r).
  { intros r Hr. rewrite (lo_is_sum P em Hem r Hr). unfold off. f_equal. apply map_ext_in. intros s Hs. apply in_seq in Hs. apply HS. lia. }
  assert (HT : forall r i, r < P -> i < c r -> local_to_global (em r) (npos r i) = Some (gnum (gv r i))).
  { intros r i Hr Hi. unfold local_to_global. rewrite (HS r Hr). destruct (Nat.ltb_spec (npos r i) (nl r)) as [L|L].
    - apply npos_lt in L; [|exact Hi]. rewrite (HL r Hr). f_equal. symmetry. now apply gnum_owned.
    - rewrite (HG r Hr), nth_error_map. assert (ownedb r i = false) as Ei by (destruct (ownedb r i) eqn:E; [apply npos_lt in E; [lia|exact Hi]|reflexivity]).
      unfold LiNumber.npos, cpos. rewrite Ei. fold (nl r). match goal with |- context [?a + ?b - ?a] => replace (a + b - a) with b by lia end.
      unfold ghosts. rewrite (filter_seq_nth (fun i => negb (ownedb r i)) (c r) i Hi) by now rewrite Ei. reflexivity. }
  assert (HC : forall r, r < P -> size_local (em r) + num_ghosts (em r) = c r).
  { intros r Hr. rewrite (HS r Hr). unfold num_ghosts. rewrite (HG r Hr), map_length. unfold ghosts, LiNumber.nl. rewrite <- countb_filter. apply countb_seq_both. }
  assert (HO : forall s i id e, s < P -> ent (maps s) (inp s) i e -> nth_error (li_index (inp s)) i = Some id -> e = gv s id /\ id < c s).
  { intros s i id e Hs He Hi. split; [now apply (ent_gv P maps nv inp Hok OK s i id Hs Hi)|eauto]. }
  assert (HN : forall s e, s < P -> in_owned_cell (maps s) (inp s) e <-> In s (NG e)).
  { intros s e Hs. rewrite NG_in. split.
    - intros (i & id & He & Hi & Hg). destruct (HO s i id e Hs He Hi) as [-> Hc]. split; [exact Hs|]. rewrite (ngb_gv P maps nv inp Hok OK s id Hs Hc). unfold LiGather.st. rewrite (nth_error_nth _ _ _ Hg). reflexivity.
    - intros [_ H]. unfold ngb in H. destruct (lookup s e) as [id|] eqn:El; [|discriminate]. apply (lookup_some P maps nv inp Hok OK) in El as [Hc El]; [|exact Hs].
      destruct (id_pos P maps nv inp OK s id Hs Hc) as (p & _ & Hp & _). exists p, id. split; [now apply (ent_gv P maps nv inp Hok OK s p id Hs Hp)|]. split; [exact Hp|].
      assert (nth_error (li_ghost (inp s)) id = Some (st s id)) as E by (apply nth_error_nth'; exact Hc). rewrite E. f_equal. pose proof (lk_status _ _ _ _ OK s (st s id) Hs (nth_error_In _ _ E)).
      destruct (Nat.eqb_spec (st s id) 1); [discriminate|lia]. }
  exists (fun r => map (npos r) (li_index (inp r))), em, (fun r => map (npos r) (filter (ipeb r) (seq 0 (c r)))). split; [exact Hem|]. split.
  - constructor.
    + intros r Hr. apply map_length.
    + exact HC.
    + intros r n Hr. rewrite (HC r Hr), in_map_iff. split.
      * intros (a & <- & Ha). apply cpos_lt. now apply (lk_count _ _ _ _ OK).
      * intros Hn. assert (exists i, i < c r /\ npos r i = n) as (i & Hi & E); [|exists i; split; [exact E|now apply (lk_count _ _ _ _ OK)]].
        unfold LiNumber.npos, cpos. destruct (Nat.lt_ge_cases n (nl r)) as [L|L].
        -- apply filter_seq_ex in L as (i & Hi & Ei & E). exists i. rewrite Ei. auto.
        -- assert (n - nl r < countb (fun i => negb (ownedb r i)) (seq 0 (c r))) as L2 by (pose proof (countb_seq_both (ownedb r) (c r)); unfold LiNumber.nl in *; lia).
           apply filter_seq_ex in L2 as (i & Hi & Ei & E). exists i. split; [exact Hi|]. destruct (ownedb r i); [discriminate|]. rewrite E. fold (nl r). lia.
    + intros r i j x y a b Hr Hx Hy Ha Hb. rewrite nth_error_map, Ha in Hx. rewrite nth_error_map, Hb in Hy. cbn [option_map] in Hx, Hy. injection Hx as <-. injection Hy as <-. split; [|congruence]. intros E. apply cpos_inj in E; eauto.
    + intros r s i j e f x y g h Hr Hs He Hf Hx Hy Hg Hh. rewrite nth_error_map in Hx, Hy. destruct (nth_error (li_index (inp r)) i) as [a|] eqn:Ea; [|discriminate]. destruct (nth_error (li_index (inp s)) j) as [b|] eqn:Eb; [|discriminate].
      cbn [option_map] in Hx, Hy. injection Hx as <-. injection Hy as <-. destruct (HO r i a e Hr He Ea) as [-> Ha]. destruct (HO s j b f Hs Hf Eb) as [-> Hb].
      rewrite (HT r a Hr Ha) in Hg. rewrite (HT s b Hs Hb) in Hh. injection Hg as <-. injection Hh as <-. split; [|congruence]. apply gnum_inj; now apply good.
    + intros r i e x g Hr He Hx Hg. rewrite nth_error_map in Hx. destruct (nth_error (li_index (inp r)) i) as [a|] eqn:Ea; [|discriminate]. cbn [option_map] in Hx. injection Hx as <-. destruct (HO r i a e Hr He Ea) as [-> Ha].
      rewrite (HT r a Hr Ha) in Hg. injection Hg as <-. pose proof (good r a Hr Ha) as HNG. destruct (owner_ok _ HNG) as (j & Ho & _). exists (owner (gv r a)). split; [exact Ho|]. split; [|apply HN; [exact Ho|now apply owner_in]].
      unfold owns. pose proof (gnum_range _ HNG) as R. rewrite off_S, <- (HS _ Ho), <- (HL _ Ho) in R. pose proof (mo_range _ _ Hem _ Ho). unfold size_local in R. lia.
    + intros r Hr. split.
      * assert (forall i, In i (filter (ipeb r) (seq 0 (c r))) -> i < c r) as Hin by (intros i Hi; apply filter_In in Hi as [Hi _]; apply in_seq in Hi; lia). assert (NoDup (filter (ipeb r) (seq 0 (c r)))) as Hnd by apply NoDup_filter, seq_NoDup.
        revert Hin Hnd. generalize (filter (ipeb r) (seq 0 (c r))) as l. induction l as [|i l IH]; intros Hin Hnd; [constructor|]. inversion Hnd as [|? ? Hi Hnd']; subst. cbn [map]. constructor; [|apply IH; [intros; apply Hin; now right|exact Hnd']].
        intros H. apply in_map_iff in H as (j & E & Hj). apply cpos_inj in E; [subst; contradiction|apply Hin; now right|apply Hin; now left].
      * intros x. rewrite in_map_iff. split.
        -- intros (a & <- & Ha). apply filter_In in Ha as [Ha Hp]. apply in_seq in Ha. unfold LiNumber.ipeb in Hp. apply andb_true_iff in Hp as [Hst Ho]. apply otherb_iff in Ho as (s & Ns & Hsn).
           assert (a < c r) as Ha' by lia. destruct (id_pos P maps nv inp OK r a Hr Ha') as (p & _ & Hp & _). exists p, a, (gv r a), s. assert (s < P) as HsP by now apply NG_in in Hsn.
           split; [rewrite nth_error_map, Hp; reflexivity|]. split; [now apply (ent_gv P maps nv inp Hok OK r p a Hr Hp)|]. split; [exact Hp|]. split; [|split; [exact HsP|split; [exact Ns|now apply HN]]].
           assert (nth_error (li_ghost (inp r)) a = Some (st r a)) as E by (apply nth_error_nth'; exact Ha'). rewrite E. f_equal. pose proof (lk_status _ _ _ _ OK r (st r a) Hr (nth_error_In _ _ E)).
           destruct (Nat.eqb_spec (st r a) 1); [discriminate|lia].
        -- intros (i & id & e & s & Hx & He & Hi & Hg & Hs & Ns & Hc). rewrite nth_error_map, Hi in Hx. cbn [option_map] in Hx. injection Hx as <-. destruct (HO r i id e Hr He Hi) as [-> Hid']. exists id. split; [reflexivity|]. apply filter_In. split; [apply in_seq; lia|].
           unfold LiNumber.ipeb. apply andb_true_iff. split; [unfold LiGather.st; now rewrite (nth_error_nth _ _ _ Hg)|]. apply otherb_iff. exists s. split; [exact Ns|now apply HN].
  - intros r Hr. unfold get_local_indexing. rewrite (numbering_ok P nbx maps nv inp Hnbx Hok OK r Hr). cbn [obind]. rewrite (ghosts_ok r Hr). cbn [obind].
    rewrite (omap_map _ (npos r)).
    2:{ intros a Ha. rewrite nth_error_map, nth_error_seq by now apply (lk_count _ _ _ _ OK). reflexivity. }
    cbn [obind]. destruct (HE r Hr) as (EM & _). unfold LS, GH, OW in EM. rewrite EM. reflexivity.
Qed.
End Li.
