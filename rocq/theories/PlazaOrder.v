(** The longest edges of the faces of a tetrahedron come from one order of its edges; the body
    of the loop over cells. *)
From Coq Require Import Reals.
From Verif Require Import Base BaseProofs Algo AlgoProofs Plaza PlazaSpec PlazaTiling PlazaBisect PlazaCheck PlazaProofs.
Open Scope nat_scope.

Section Longest.
Variables (L : Type) (ltb : L -> L -> bool) (zero : L).
Hypothesis asym : forall x y, ltb x y = true -> ltb y x = false.
Hypothesis ntrans : forall x y z, ltb x y = false -> ltb y z = false -> ltb x z = false.
Hypothesis zero_min : forall x, ltb x zero = false.

Lemma irrefl x : ltb x x = false.
Proof. destruct (ltb x x) eqn:E; [|reflexivity]. now rewrite (asym _ _ E) in E. Qed.

(** ** One face *)
Section Face.
Variables (vertices : list nat) (lengths : list L).
Hypothesis Lv : length vertices = 3.
Hypothesis Ll : length lengths = 3.
(** Position [i] comes before [j]. *)
Definition dom (i j : nat) : Prop :=
  exists li lj vi vj, nth_error lengths i = Some li /\ nth_error lengths j = Some lj /\ nth_error vertices i = Some vi /\ nth_error vertices j = Some vj /\
    ltb li lj = false /\ (ltb lj li = false -> vj <= vi).
Definition finv (k : nat) (acc : nat * L) : Prop :=
  fst acc < 3 /\ (exists li, nth_error lengths (fst acc) = Some li /\ ltb (snd acc) li = false /\ ltb li (snd acc) = false) /\
  forall j, j < k -> dom (fst acc) j.
Lemma long_step_inv k acc : k < 3 -> (finv k acc \/ k = 0 /\ acc = (0, zero)) -> exists acc', long_step L ltb true vertices lengths acc k = Some acc' /\ finv (S k) acc'.
Proof.
  intros Hk H. destruct acc as (im, ml). unfold long_step.
  destruct (nth_error lengths k) as [lk|] eqn:Ek; [|apply nth_error_None in Ek; lia]. destruct (nth_error vertices k) as [vk|] eqn:Vk; [|apply nth_error_None in Vk; lia].
  cbn [obind]. assert (Dk : dom k k) by (exists lk, lk, vk, vk; repeat split; auto using irrefl).
  destruct (ltb ml lk) eqn:E1.
  - eexists. split; [reflexivity|]. split; [exact Hk|]. split; [exists lk; auto using irrefl|]. cbn [fst]. intros j Hj.
    destruct (Nat.eq_dec j k) as [-> |Hn]; [exact Dk|]. destruct H as [(_ & (li & Ei & M1 & M2) & Hd)|(H & _)]; [|lia]. cbn [fst snd] in *.
    destruct (Hd j ltac:(lia)) as (li' & lj & vi & vj & Ei' & Ej & Evi & Evj & D1 & D2). assert (li' = li) as -> by congruence.
    assert (Hlt : ltb lk lj = false).
    { apply (ntrans lk ml lj); [now apply asym|]. now apply (ntrans ml li lj). }
    exists lk, lj, vk, vj. repeat split; auto. intro Hf. exfalso.
    assert (ltb ml lk = false); [|congruence]. apply (ntrans ml li lk M1). apply (ntrans li lj lk D1 Hf).
  - destruct (ltb lk ml) eqn:E2; cbn [andb negb].
    + eexists. split; [reflexivity|]. destruct H as [(Hi & (li & Ei & M1 & M2) & Hd)|(-> & E)]; [|injection E as -> ->; rewrite zero_min in E2; discriminate].
      cbn [fst snd] in *. split; [exact Hi|]. split; [exists li; auto|]. cbn [fst snd]. intros j Hj. destruct (Nat.eq_dec j k) as [-> |Hn]; [|apply Hd; lia].
      destruct (nth_error vertices im) as [vi|] eqn:Vi; [|apply nth_error_None in Vi; lia].
      exists li, lk, vi, vk. repeat split; auto.
      * apply (ntrans li ml lk M2 E1).
      * intro Hf. exfalso. assert (ltb lk ml = false); [|congruence]. now apply (ntrans lk li ml).
    + destruct H as [(Hi & (li & Ei & M1 & M2) & Hd)|(-> & E)].
      * cbn [fst snd] in *. destruct (nth_error vertices im) as [vi|] eqn:Vi; [|apply nth_error_None in Vi; lia]. cbn [obind].
        eexists. split; [reflexivity|]. destruct (Nat.ltb_spec vi vk) as [Hv|Hv].
        -- split; [exact Hk|]. split; [exists lk; cbn; auto|]. cbn [fst snd]. intros j Hj. destruct (Nat.eq_dec j k) as [-> |Hn]; [exact Dk|].
           destruct (Hd j ltac:(lia)) as (li' & lj & vi' & vj & Ei' & Ej & Evi & Evj & D1 & D2). assert (li' = li) as -> by congruence. assert (vi' = vi) as -> by congruence.
           exists lk, lj, vk, vj. repeat split; auto.
           ++ apply (ntrans lk ml lj E2). now apply (ntrans ml li lj).
           ++ intro Hf. assert (vj <= vi); [|lia]. apply D2. apply (ntrans lj lk li Hf). now apply (ntrans lk ml li).
        -- split; [exact Hi|]. split; [exists li; cbn; auto|]. cbn [fst snd]. intros j Hj. destruct (Nat.eq_dec j k) as [-> |Hn]; [|apply Hd; lia].
           exists li, lk, vi, vk. repeat split; auto. now apply (ntrans li ml lk).
      * injection E as -> ->. rewrite Vk. cbn [obind]. rewrite Nat.ltb_irrefl. eexists. split; [reflexivity|].
        split; [cbn; lia|]. split; [exists lk; cbn; auto|]. cbn [fst]. intros j Hj. assert (j = 0) as -> by lia. exact Dk.
Qed.
Lemma face_long_spec : exists i, face_long_edge L ltb zero true vertices lengths = Some i /\ i < 3 /\ forall j, j < 3 -> dom i j.
Proof.
  unfold face_long_edge. cbn [seq ofold].
  destruct (long_step_inv 0 (0, zero) ltac:(lia)) as (a1 & E1 & I1); [right; auto|]. rewrite E1. cbn [obind].
  destruct (long_step_inv 1 a1 ltac:(lia)) as (a2 & E2 & I2); [left; exact I1|]. rewrite E2. cbn [obind].
  destruct (long_step_inv 2 a2 ltac:(lia)) as ((i, ml) & E3 & I3); [left; exact I2|]. rewrite E3. cbn [obind].
  exists i. split; [reflexivity|]. destruct I3 as (A & _ & B). auto.
Qed.
End Face.

(** ** The order of the edges *)
Variables (g : nat -> nat) (len : nat -> L).
Hypothesis ginj : forall i j, i <= 3 -> j <= 3 -> g i = g j -> i = j.
Definition lo (e : nat) : nat := match nth_error (ref_edges 3) e with Some (a, b) => min (g a) (g b) | None => 0 end.
Definition hi (e : nat) : nat := match nth_error (ref_edges 3) e with Some (a, b) => max (g a) (g b) | None => 0 end.
Definition lexle (e e' : nat) : bool := (lo e <? lo e') || (lo e =? lo e') && (hi e <=? hi e').
Lemma lexle_iff e e' : lexle e e' = true <-> lo e < lo e' \/ lo e = lo e' /\ hi e <= hi e'.
Proof. unfold lexle. rewrite orb_true_iff, andb_true_iff, Nat.ltb_lt, Nat.eqb_eq, Nat.leb_le. tauto. Qed.
Definition beforeb (e e' : nat) : bool := ltb (len e') (len e) || negb (ltb (len e) (len e')) && lexle e e'.
Lemma before_total e e' : beforeb e e' = true \/ beforeb e' e = true.
Proof.
  unfold beforeb. destruct (ltb (len e') (len e)) eqn:E1; [now left|]. destruct (ltb (len e) (len e')) eqn:E2; [now right|]. cbn.
  rewrite !lexle_iff. lia.
Qed.
Lemma before_trans e1 e2 e3 : beforeb e1 e2 = true -> beforeb e2 e3 = true -> beforeb e1 e3 = true.
Proof.
  unfold beforeb. rewrite !orb_true_iff, !andb_true_iff, !negb_true_iff. intros [H1|(H1 & K1)] [H2|(H2 & K2)].
  - left. destruct (ltb (len e3) (len e1)) eqn:E; [reflexivity|]. apply asym in H2. pose proof (ntrans _ _ _ H2 E). congruence.
  - left. destruct (ltb (len e3) (len e1)) eqn:E; [reflexivity|]. pose proof (ntrans _ _ _ H2 E). congruence.
  - left. destruct (ltb (len e3) (len e1)) eqn:E; [reflexivity|]. pose proof (ntrans _ _ _ E H1). congruence.
  - right. split; [exact (ntrans _ _ _ H1 H2)|]. rewrite !lexle_iff in *. lia.
Qed.
Lemma edge_pair e e' a b a' b' : nth_error (ref_edges 3) e = Some (a, b) -> nth_error (ref_edges 3) e' = Some (a', b') ->
  (a = a' /\ b = b' \/ a = b' /\ b = a') -> e = e'.
Proof.
  intros E E' H.
  do 6 (destruct e as [|e]; [injection E as <- <-; do 6 (destruct e' as [|e']; [injection E' as <- <-; lia|]); destruct e'; discriminate|]). destruct e; discriminate.
Qed.
Lemma before_antisym e e' : e < 6 -> e' < 6 -> beforeb e e' = true -> beforeb e' e = true -> e = e'.
Proof.
  intros He He'. unfold beforeb. rewrite !orb_true_iff, !andb_true_iff, !negb_true_iff. intros [H1|(H1 & K1)] [H2|(H2 & K2)].
  - apply asym in H1. congruence.
  - congruence.
  - congruence.
  - rewrite !lexle_iff in *. assert (El : lo e = lo e') by lia. assert (Eh : hi e = hi e') by lia. clear K1 K2 H1 H2. unfold lo, hi in *.
    destruct (nth_error (ref_edges 3) e) as [(a, b)|] eqn:E; [|apply nth_error_None in E; cbn in E; lia].
    destruct (nth_error (ref_edges 3) e') as [(a', b')|] eqn:E'; [|apply nth_error_None in E'; cbn in E'; lia].
    destruct (ends 3 (or_intror eq_refl) e a b E) as (Ha & Hb & _). destruct (ends 3 (or_intror eq_refl) e' a' b' E') as (Ha' & Hb' & _).
    apply (edge_pair e e' a b a' b' E E'). assert (H : g a = g a' /\ g b = g b' \/ g a = g b' /\ g b = g a') by lia. clear El Eh.
    destruct H as [(H1 & H2)|(H1 & H2)]; apply ginj in H1; auto; apply ginj in H2; auto.
Qed.
Definition the_order : list nat := isort beforeb (seq 0 6).
Lemma first_in_order f d : edge_of_facet f d -> (forall e, edge_of_facet f e -> beforeb d e = true) ->
  exists p q, the_order = p ++ d :: q /\ forall e, In e p -> ~ edge_of_facet f e.
Proof.
  intros Hd Hb. assert (Bd : forall e, edge_of_facet f e -> e < 6) by (intros e (a & b & E & _); apply (nth_error_bound _ _ _ E)).
  assert (Hin : In d the_order) by (apply isort_in, in_seq; specialize (Bd d Hd); lia).
  pose proof (isort_sorted _ beforeb before_total before_trans (seq 0 6)) as HS. fold the_order in HS.
  assert (N : NoDup the_order) by (eapply Permutation_NoDup; [apply isort_perm|apply seq_NoDup]).
  apply in_split in Hin as (p & q & E). exists p, q. split; [exact E|]. intros e He Hf. rewrite E in HS, N.
  assert (Hed : beforeb e d = true).
  { clear - HS He. induction p as [|x p IH]; [destruct He|]. cbn [app] in HS. inversion HS as [|? ? HS' HF]; subst. destruct He as [<-|He]; [|now apply IH].
    rewrite Forall_forall in HF. apply HF, in_app_iff. right. now left. }
  assert (e = d) as -> by (apply before_antisym; auto). apply NoDup_remove_2 in N. apply N, in_app_iff. now left.
Qed.

(** ** The faces *)
Variables (w ed : nat -> list nat) (le : list nat).
Hypothesis Hface : forall f, f < 4 -> face_of f (w f) (ed f).
Hypothesis Hlen : length le = 4.
Hypothesis Hle : forall f d, nth_error le f = Some d ->
  exists i, face_long_edge L ltb zero true (map g (w f)) (map len (ed f)) = Some i /\ nth_error (ed f) i = Some d.
Lemma three_in (u : list nat) a b c : NoDup u -> length u = 3 -> In a u -> In b u -> In c u -> a <> b -> a <> c -> b <> c -> forall x, In x u -> x = a \/ x = b \/ x = c.
Proof.
  intros Hn L3 Ha Hb Hc Hab Hac Hbc x Hx. destruct (Nat.eq_dec x a) as [|N1]; [auto|]. destruct (Nat.eq_dec x b) as [|N2]; [auto|]. destruct (Nat.eq_dec x c) as [|N3]; [auto|]. exfalso.
  assert (NoDup [a; b; c; x]) as N4.
  { repeat first [apply NoDup_nil | apply NoDup_cons; [cbn; intuition congruence|]]. }
  assert (I : incl [a; b; c; x] u) by (intros y Hy; cbn in Hy; intuition congruence).
  apply NoDup_incl_length in I; [cbn in I; lia|exact N4].
Qed.
Lemma order_statement : exists order, Permutation order (seq 0 6) /\ longest_in order le.
Proof.
  exists the_order. split; [symmetry; apply isort_perm|]. split; [exact Hlen|]. intros f d Ef.
  assert (Hf : f < 4) by (rewrite <- Hlen; apply (nth_error_bound _ _ _ Ef)). destruct (Hface f Hf) as [(L1 & L2) Nw Hv He].
  assert (Hf3 : f <= 3) by (clear - Hf; lia). destruct (Hle f d Ef) as (i & Ei & Ed).
  destruct (face_long_spec (map g (w f)) (map len (ed f))) as (i' & Ei' & Hi & Hd); [now rewrite map_length|now rewrite map_length|]. assert (i' = i) as -> by congruence.
  destruct (nth_error (w f) i) as [v|] eqn:Ev; [|apply nth_error_None in Ev; lia].
  destruct (He i v d Ev Ed) as (a & b & Eab & Ia & Ib & Hav & Hbv).
  assert (HdF : edge_of_facet f d) by (exists a, b; split; [exact Eab|]; split; [apply (Hv a Ia)|apply (Hv b Ib)]).
  destruct (ends 3 (or_intror eq_refl) d a b Eab) as (Ha & Hb & Hab).
  destruct (first_in_order f d HdF) as (p & q & Eo & Hp); [|exists p, q; auto].
  intros e He'. pose proof He' as (a' & b' & Eab' & Haf & Hbf). destruct (ends 3 (or_intror eq_refl) e a' b' Eab') as (Ha' & Hb' & Hab').
  pose proof (nth_error_In _ _ Ev) as Iv. pose proof (Hv v Iv) as (Hv3 & Hvf). pose proof (Hv a Ia) as (_ & Haf0). pose proof (Hv b Ib) as (_ & Hbf0).
  (* the vertex opposite to [e] *)
  assert (Hm : exists j u, nth_error (w f) j = Some u /\ nth_error (ed f) j = Some e /\ j < 3).
  { assert (exists u, In u (w f) /\ u <> a' /\ u <> b') as (u & Iu & Hua & Hub).
    { destruct (third f a' b' Hf3 Ha' Hb' Hab' Haf Hbf) as (u & Hu & Huf & Hua & Hub).
      exists u. split; [|auto]. assert (u = a \/ u = b \/ u = v) as [-> |[-> | ->]]; [|assumption..].
      assert (Hfv : f <= 3) by lia. clear - Hu Huf Hfv Ha Hb Hv3 Hab Haf0 Hbf0 Hvf Hav Hbv. lia. }
    apply In_nth_error in Iu as (j & Ej). assert (Hj : j < 3) by (rewrite <- L1; apply (nth_error_bound _ _ _ Ej)).
    destruct (nth_error (ed f) j) as [e'|] eqn:Ee'; [|apply nth_error_None in Ee'; lia].
    destruct (He j u e' Ej Ee') as (x & y & Exy & Ix & Iy & Hxu & Hyu). exists j, u. split; [exact Ej|]. split; [|exact Hj].
    rewrite Ee'. f_equal. apply (edge_pair e' e x y a' b' Exy Eab'). destruct (ends 3 (or_intror eq_refl) e' x y Exy) as (Hx & Hy & Hxy).
    destruct (Hv x Ix) as (_ & Hxf). destruct (Hv y Iy) as (_ & Hyf). pose proof (nth_error_In _ _ Ej) as Iu. destruct (Hv u Iu) as (Hu3 & Huf). pose proof (four f a' b' u x Hf3 Ha' Hb' Hu3 Hx Hab' Haf Hbf Huf Hua Hub Hxf) as Q1.
    pose proof (four f a' b' u y Hf3 Ha' Hb' Hu3 Hy Hab' Haf Hbf Huf Hua Hub Hyf) as Q2. clear - Q1 Q2 Hxy Hxu Hyu. lia. }
  destruct Hm as (j & u & Eju & Eje & Hj). destruct (Hd j Hj) as (li & lj & vi & vj & E1 & E2 & E3 & E4 & D1 & D2).
  rewrite nth_error_map, Ed in E1. rewrite nth_error_map, Eje in E2. rewrite nth_error_map, Ev in E3. rewrite nth_error_map, Eju in E4.
  cbn in E1, E2, E3, E4. injection E1 as <-. injection E2 as <-. injection E3 as <-. injection E4 as <-.
  unfold beforeb. apply orb_true_iff. destruct (ltb (len e) (len d)) eqn:El; [now left|right]. rewrite D1. cbn [negb andb]. specialize (D2 eq_refl).
  apply lexle_iff. unfold lo, hi. rewrite Eab, Eab'.
  destruct (He j u e Eju Eje) as (x & y & Exy & Ix & Iy & Hxu & Hyu). assert (x = a' /\ y = b') as (-> & ->) by (rewrite Exy in Eab'; injection Eab'; auto).
  destruct (Nat.eq_dec u v) as [-> |Huv].
  - (* the same edge *)
    assert (Ede : d = e); [|subst e; rewrite Eab in Eab'; injection Eab' as <- <-; clear; lia]. apply (edge_pair d e a b a' b' Eab Eab').
    pose proof (three_in (w f) a b v Nw L1 Ia Ib Iv Hab Hav Hbv) as H3.
    pose proof (H3 a' Ix) as X1. pose proof (H3 b' Iy) as X2. clear - X1 X2 Hxu Hyu Hab'. lia.
  - (* [v] and [u] differ; the third vertex is common *)
    pose proof (nth_error_In _ _ Eju) as Iu. pose proof (three_in (w f) a b v Nw L1 Ia Ib Iv Hab Hav Hbv) as H3.
    assert (Gn : g u <> g v) by (intro Hg; apply ginj in Hg; [congruence|apply (Hv u Iu)|exact Hv3]).
    pose proof (H3 u Iu) as X0. pose proof (H3 a' Ix) as X1. pose proof (H3 b' Iy) as X2.
    assert (exists z, (a = u /\ b = z \/ a = z /\ b = u) /\ (a' = v /\ b' = z \/ a' = z /\ b' = v)) as (z & Z1 & Z2).
    { destruct X0 as [-> |[-> | ->]]; [exists b|exists a|congruence]; (split; [auto|]); clear - X1 X2 Hxu Hyu Hab' Hab Hav Hbv; lia. }
    clear - D2 Gn Z1 Z2. destruct Z1 as [(-> & ->)|(-> & ->)], Z2 as [(-> & ->)|(-> & ->)]; lia.
Qed.
End Longest.

(** * One cell *)
Lemma omap_at {A B} (F : A -> option B) (h : nat -> B) l :
  (forall i, i < length l -> exists a, nth_error l i = Some a /\ F a = Some (h i)) -> omap F l = Some (map h (seq 0 (length l))).
Proof.
  intro H. destruct (omap_some F l) as (r & Er).
  - intros a Ha. apply In_nth_error in Ha as (i & Ei). destruct (H i (nth_error_bound _ _ _ Ei)) as (a' & E' & F'). assert (a' = a) as -> by congruence. eauto.
  - rewrite Er. f_equal. pose proof (omap_length _ _ _ Er) as Lr. apply nth_error_ext. intro i. destruct (Nat.ltb_spec i (length l)) as [Hi|Hi].
    + destruct (H i Hi) as (a & Ea & Fa). destruct (omap_nth _ _ _ Er i a Ea) as (b & Eb & Fb). rewrite Eb, nth_error_map, nth_error_seq by lia. cbn. congruence.
    + rewrite !(proj2 (nth_error_None _ _)); [reflexivity|rewrite map_length, seq_length; lia|lia].
Qed.
Lemma nth_concat {A} (C : list (list A)) n : (forall c, In c C -> length c = n) -> forall i c j, nth_error C i = Some c -> j < n ->
  nth_error (concat C) (i * n + j) = nth_error c j.
Proof.
  induction C as [|c0 C IH]; intros Hc i c j Ei Hj; [destruct i; discriminate|]. cbn [concat]. pose proof (Hc c0 (or_introl eq_refl)) as L0. destruct i as [|i].
  - injection Ei as ->. cbn [Nat.mul Nat.add]. apply nth_error_app1. lia.
  - rewrite nth_error_app2 by (cbn; lia). replace (S i * n + j - length c0) with (i * n + j) by (cbn; lia). apply IH; auto. intros; apply Hc; now right.
Qed.
Lemma concat_len {A} (C : list (list A)) n : (forall c, In c C -> length c = n) -> length (concat C) = length C * n.
Proof. induction C as [|c C IH]; intro H; [reflexivity|]. cbn [concat length Nat.mul]. rewrite app_length, IH, (H c) by (auto using in_eq, in_cons). reflexivity. Qed.

Lemma simplices_statement tdim le u mark indices : tdim = 2 \/ tdim = 3 -> ready tdim le mark -> indices_of tdim mark indices ->
  exists l pf, get_simplices indices le tdim u = Some l /\ concat (children_of tdim l) = l /\ subdivides tdim mark (children_of tdim l) /\
    compute_parent_facets tdim l = Some pf /\ parent_facets tdim (children_of tdim l) pf.
Proof.
  intros [-> | ->] HR HI.
  - destruct HR as (l & -> & Hl & Hm). exact (triangles_statement l u mark indices Hl Hm HI).
  - destruct HR as (order & HP & HL & HM). unfold get_simplices. rewrite (proj1 HL). cbn [Nat.eqb]. exact (tetrahedra_statement order le mark indices HP HL HM HI).
Qed.

Lemma cell_statement tdim c vertices edges faces gi marked nv long_edge u le mark (ix : nat -> Z) :
  tdim = 2 \/ tdim = 3 -> length vertices = S tdim -> length edges = length (ref_edges tdim) -> NoDup edges -> length faces = length le ->
  (forall i, i <= tdim -> exists v, nth_error vertices i = Some v /\ nth_error gi v = Some (ix i)) ->
  (forall e, e < length edges -> exists d, nth_error edges e = Some d /\ nth_error marked d = Some (mark e) /\
     (mark e = true -> nv d = Some (ix (S tdim + e)) /\ (0 <= ix (S tdim + e)%nat)%Z)) ->
  (forall f, f < length faces -> exists fc l d, nth_error faces f = Some fc /\ nth_error le f = Some l /\ nth_error edges l = Some d /\ nth_error long_edge fc = Some d) ->
  ((forall e, e < length edges -> mark e = false) ->
    refine_cell tdim c vertices edges faces gi marked nv long_edge u = Some ([map ix (seq 0 (S tdim))], [c], map Z.of_nat (seq 0 (S tdim)))) /\
  (ready tdim le mark -> exists children pf,
    refine_cell tdim c vertices edges faces gi marked nv long_edge u = Some (map (map ix) children, repeat c (length children), pf) /\
    subdivides tdim mark children /\ parent_facets tdim children pf).
Proof.
  intros Hd Lv Le Ne Lf Hv He Hf.
  assert (E1 : omap (nth_error gi) vertices = Some (map ix (seq 0 (S tdim)))).
  { rewrite <- Lv. apply omap_at. intros i Hi. apply Hv. lia. }
  assert (E2 : omap (nth_error marked) edges = Some (map mark (seq 0 (length edges)))).
  { apply omap_at. intros i Hi. destruct (He i Hi) as (d & A & B & _). eauto. }
  assert (E3 : omap (fun e => m <- nth_error marked e ;; if m then nv e else Some (-1)%Z) edges =
    Some (map (fun e => if mark e then ix (S tdim + e) else (-1)%Z) (seq 0 (length edges)))).
  { apply omap_at. intros i Hi. destruct (He i Hi) as (d & A & B & C). exists d. split; [exact A|]. rewrite B. cbn [obind]. destruct (mark i); [now apply C|reflexivity]. }
  unfold refine_cell. rewrite E1, E2, E3. cbn [obind]. split.
  - intro Hn. assert (Ex : existsb (fun b => b) (map mark (seq 0 (length edges))) = false).
    { apply not_true_iff_false. intro H. apply existsb_exists in H as (b & Hb & ->). apply in_map_iff in Hb as (e & Em & Hi). apply in_seq in Hi. rewrite Hn in Em by lia. discriminate. }
    rewrite Ex. cbn [negb]. now rewrite Nat.add_1_r.
  - intro HR.
    assert (Ex : existsb (fun b => b) (map mark (seq 0 (length edges))) = true).
    { apply existsb_exists. exists true. split; [|reflexivity]. rewrite Le. destruct Hd as [-> | ->].
      - destruct HR as (l & _ & Hl & Hm). rewrite <- Hm. apply in_map, in_seq. cbn. lia.
      - destruct HR as (order & _ & _ & (e & Hl & Hm) & _). rewrite <- Hm. apply in_map, in_seq. cbn. lia. }
    rewrite Ex. cbn [negb].
    assert (E4 : exists les, omap (nth_error long_edge) faces = Some les /\ map (to_local_edge edges) les = le).
    { destruct (omap_some (nth_error long_edge) faces) as (les & El).
      - intros a Ha. apply In_nth_error in Ha as (i & Ei). destruct (Hf i (nth_error_bound _ _ _ Ei)) as (fc & l & d & A & _ & _ & B). assert (fc = a) as -> by congruence. eauto.
      - exists les. split; [exact El|]. apply nth_error_ext. intro i. rewrite nth_error_map. pose proof (omap_length _ _ _ El) as Ll. destruct (Nat.ltb_spec i (length faces)) as [Hi|Hi].
        + destruct (Hf i Hi) as (fc & l & d & A & B & C & D). destruct (omap_nth _ _ _ El i fc A) as (d' & A' & B'). assert (d' = d) as -> by congruence.
          rewrite A', B. cbn. f_equal. unfold to_local_edge. now rewrite (index_in_nth d edges l Ne C).
        + rewrite (proj2 (nth_error_None les i)), (proj2 (nth_error_None le i)) by lia. reflexivity. }
    destruct E4 as (les & E4 & E5). rewrite E4. cbn [obind]. rewrite E5.
    set (indices := map ix (seq 0 (S tdim)) ++ map (fun e => if mark e then ix (S tdim + e) else (-1)%Z) (seq 0 (length edges))).
    assert (Ie : forall e, e < length edges -> nth_error indices (S tdim + e) = Some (if mark e then ix (S tdim + e) else (-1)%Z)).
    { intros e Hel. unfold indices. rewrite nth_error_app2 by (rewrite map_length, seq_length; lia). rewrite map_length, seq_length.
      replace (S tdim + e - S tdim) with e by lia. rewrite nth_error_map, nth_error_seq by lia. reflexivity. }
    assert (Iv : forall i, i <= tdim -> nth_error indices i = Some (ix i)).
    { intros i Hi. unfold indices. rewrite nth_error_app1 by (rewrite map_length, seq_length; lia). rewrite nth_error_map, nth_error_seq by lia. reflexivity. }
    assert (HI : indices_of tdim mark indices).
    { split; [unfold indices; rewrite app_length, !map_length, !seq_length; lia|]. intros e Hel. rewrite <- Le in Hel. eexists. split; [now apply Ie|].
      destruct (He e Hel) as (d & _ & _ & Hnv). destruct (mark e); [split; [reflexivity|intros _; now apply Hnv]|split; [lia|discriminate]]. }
    destruct (simplices_statement tdim le u mark indices Hd HR HI) as (l & pf & El & Ec & Hs & Ep & Hp). rewrite El. cbn [obind]. rewrite Ep. cbn [obind].
    set (C := children_of tdim l) in *. assert (LC : forall d, In d C -> length d = S tdim) by (intros d Hdc; now apply (sd_points _ _ _ Hs)).
    assert (EC : length l / (tdim + 1) = length C). { rewrite <- Ec, (concat_len C (S tdim) LC), Nat.add_1_r. apply Nat.div_mul. lia. }
    rewrite EC. exists C, pf.
    assert (E6 : omap (fun i => omap (fun j => v <- nth_error l (i * (tdim + 1) + j) ;; nth_error indices v) (seq 0 (tdim + 1))) (seq 0 (length C)) = Some (map (map ix) C)).
    { rewrite (omap_at _ (fun i => map ix (nth i C [])) (seq 0 (length C))).
      - rewrite seq_length. f_equal. apply nth_error_ext. intro i. rewrite !nth_error_map. destruct (Nat.ltb_spec i (length C)) as [Hi|Hi].
        + rewrite nth_error_seq by lia. cbn [option_map]. rewrite Nat.add_0_l. rewrite (nth_error_nth' C [] Hi). reflexivity.
        + rewrite (proj2 (nth_error_None C i)) by lia. rewrite (proj2 (nth_error_None (seq 0 (length C)) i)) by (rewrite seq_length; lia). reflexivity.
      - rewrite seq_length. intros i Hi. exists i. rewrite nth_error_seq by lia. split; [reflexivity|].
        assert (Hn : nth_error C i = Some (nth i C [])) by now apply nth_error_nth'. set (d := nth i C []) in *.
        pose proof (nth_error_In _ _ Hn) as Hin. pose proof (LC d Hin) as Ld. rewrite Nat.add_1_r.
        rewrite (omap_at _ (fun j => ix (nth j d 0)) (seq 0 (S tdim))).
        + rewrite seq_length, <- Ld. f_equal. apply nth_error_ext. intro j. rewrite !nth_error_map. destruct (Nat.ltb_spec j (length d)) as [Hj|Hj].
          * rewrite nth_error_seq by lia. cbn [option_map]. rewrite Nat.add_0_l, (nth_error_nth' d 0 Hj). reflexivity.
          * rewrite (proj2 (nth_error_None d j)) by lia. rewrite (proj2 (nth_error_None (seq 0 (length d)) j)) by (rewrite seq_length; lia). reflexivity.
        + rewrite seq_length. intros j Hj. exists j. rewrite nth_error_seq by lia. split; [reflexivity|].
          rewrite <- Ec, (nth_concat C (S tdim) LC i d j Hn Hj). rewrite (nth_error_nth' d 0) by lia. cbn [obind].
          destruct (sd_points _ _ _ Hs d Hin) as (_ & _ & Hpt). destruct (Hpt (nth j d 0)) as [Hc|(e & Hc & Hel & Hm)]; [apply nth_In; lia|now apply Iv|].
          rewrite Hc, Ie by lia. now rewrite Hm. }
    rewrite E6. cbn [obind]. auto.
Qed.
