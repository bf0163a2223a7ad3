(** The post offices of the dual graph: what is sent where. *)
From Verif Require Import Base BaseProofs BucketProofs Algo AlgoProofs World WorldProofs Ranges RangesProofs IndexMap IndexMapSpec IndexMapProofs ImSharedProofs SubMap RoundTrip StackProofs ScattererProofs PostOffice PostOfficeProofs
  CellTypes DualGraph DualRows DualPairs DualMatch.
Open Scope nat_scope.

(** ** Positions in the list of destinations *)
Section Positions.
Variables (n : nat) (ow : nat -> nat).
Definition d2i_of : list (nat * nat) := map (fun f => (ow f, f)) (seq 0 n).
Definition dests_of : list nat := sort_uniq (map fst d2i_of).
Definition ki_of (f : nat) : nat := match index_in (ow f) dests_of with Some k => k | None => 0 end.

Lemma in_d2i_of d f : In (d, f) d2i_of <-> f < n /\ d = ow f.
Proof.
  unfold d2i_of. rewrite in_map_iff. split.
  - intros (g & E & Hg). injection E as <- <-. apply in_seq in Hg. split; [lia|reflexivity].
  - intros (H & ->). exists f. split; [reflexivity|]. apply in_seq. lia.
Qed.
Lemma in_dests_of d : In d dests_of <-> exists f, f < n /\ d = ow f.
Proof.
  unfold dests_of. rewrite sort_uniq_in, in_map_iff. split.
  - intros ((d', f) & <- & H). apply in_d2i_of in H. now exists f.
  - intros (f & H). exists (d, f). split; [reflexivity|]. now apply in_d2i_of.
Qed.
Lemma vals_d2i_of_NoDup d : NoDup (vals d d2i_of).
Proof.
  unfold vals, d2i_of. pose proof (seq_NoDup n 0) as H. revert H. induction (seq 0 n) as [|f l IH]; [constructor|].
  cbn [map filter fst snd]. intro H. inversion_clear H as [|? ? Hb Ht]. destruct (ow f =? d); cbn; [|auto]. constructor; [|auto].
  intro Hc. apply Hb. apply in_map_iff in Hc as ((d', g) & <- & Hp). apply filter_In in Hp as (Hp & _). apply in_map_iff in Hp as (g' & E & Hg'). injection E as _ <-. exact Hg'.
Qed.
Lemma ki_ok f : f < n -> index_in (ow f) dests_of = Some (ki_of f) /\ nth_error dests_of (ki_of f) = Some (ow f).
Proof.
  intro Hf. unfold ki_of. destruct (index_in_in (ow f) dests_of) as (k & Ek); [apply in_dests_of; eauto|]. rewrite Ek. split; [reflexivity|]. now apply index_in_some.
Qed.

Lemma positions_ok :
  ofold (fun pos (nr : nat * (nat * list nat)) => ofold (fun pos i => upd pos i (Some (fst nr))) (snd (snd nr)) pos)
    (combine (seq 0 (length dests_of)) (map (fun k => (k, vals k d2i_of)) dests_of)) (repeat None n) = Some (map (fun f => Some (ki_of f)) (seq 0 n)).
Proof.
  assert (Ef : forall pos0, ofold (fun pos (nr : nat * (nat * list nat)) => ofold (fun pos i => upd pos i (Some (fst nr))) (snd (snd nr)) pos)
      (combine (seq 0 (length dests_of)) (map (fun k => (k, vals k d2i_of)) dests_of)) pos0
    = ofold (fun v pg => upd v (fst pg) (snd pg))
        (concat (map (fun nr : nat * (nat * list nat) => map (fun i => (i, Some (fst nr))) (snd (snd nr)))
          (combine (seq 0 (length dests_of)) (map (fun k => (k, vals k d2i_of)) dests_of)))) pos0).
  { intro pos0. rewrite <- StackProofs.ofold_nested. apply ofold_ext. intros s nr Hnr. now rewrite ofold_map. }
  rewrite Ef. clear Ef.
  set (L := combine (seq 0 (length dests_of)) (map (fun k => (k, vals k d2i_of)) dests_of)).
  assert (HL : forall k e, In (k, e) L -> nth_error dests_of k = Some (fst e) /\ snd e = vals (fst e) d2i_of).
  { intros k e H. apply in_combine_nth in H as (j & Hj & He). pose proof (nth_error_bound _ _ _ Hj) as Hb. rewrite seq_length in Hb.
    rewrite nth_error_seq in Hj by exact Hb. injection Hj as <-.
    rewrite nth_error_map_some in He. destruct (nth_error dests_of j) as [d|] eqn:Ed; [|discriminate]. injection He as <-. cbn. auto. }
  destruct (upd_all_spec (concat (map (fun nr : nat * (nat * list nat) => map (fun i => (i, Some (fst nr))) (snd (snd nr))) L))
                         (repeat None n)) as (pos & E & Hl & H1 & _).
  - rewrite concat_map, map_map. apply NoDup_concat.
    + apply (NoDup_map_inv fst). unfold L. rewrite map_fst_combine by (rewrite map_length, seq_length; lia). apply seq_NoDup.
    + intros [k e] H. apply HL in H as (_ & E). cbn [fst snd]. rewrite map_map. cbn. rewrite map_id, E. apply vals_d2i_of_NoDup.
    + intros [k e] [k' e'] i H H' Hi Hi'. cbn [fst snd] in *. rewrite map_map in Hi, Hi'. cbn in Hi, Hi'. rewrite map_id in Hi, Hi'.
      destruct (HL _ _ H) as (G & E). destruct (HL _ _ H') as (G' & E'). rewrite E in Hi. rewrite E' in Hi'.
      apply vals_in in Hi, Hi'. apply in_d2i_of in Hi as (_ & Hi). apply in_d2i_of in Hi' as (_ & Hi').
      assert (Ek : fst e = fst e') by congruence. rewrite Ek in G. assert (k = k') by (eapply NoDup_nth_error_inj; eauto; apply sort_uniq_NoDup).
      subst k'. destruct e as [a b], e' as [a' b']. cbn in *. subst. reflexivity.
  - intros i v H. rewrite repeat_length. apply in_concat in H as (l & Hl & H). apply in_map_iff in Hl as ([k e] & <- & Hk).
    apply in_map_iff in H as (j & Ej & Hj). cbn [fst snd] in *. injection Ej as -> _. apply HL in Hk as (_ & E). rewrite E in Hj.
    apply vals_in, in_d2i_of in Hj. apply Hj.
  - rewrite E. f_equal. rewrite repeat_length in Hl. apply nth_error_ext. intro f. rewrite nth_error_map_some. destruct (Nat.lt_ge_cases f n) as [Hf|Hf].
    + rewrite nth_error_seq by exact Hf. cbn [option_map plus]. destruct (ki_ok f Hf) as (_ & Ek). apply H1. apply in_concat. eexists. split.
      * apply in_map_iff. exists (ki_of f, (ow f, vals (ow f) d2i_of)). split; [reflexivity|]. eapply nth_error_In with (n := ki_of f). unfold L.
        assert (G : forall {B C} (a : list B) (b : list C) m u w, nth_error a m = Some u -> nth_error b m = Some w -> nth_error (combine a b) m = Some (u, w)).
        { clear. intros B C. induction a as [|? a IH]; intros [|? b] [|m] u w; cbn; intros; try discriminate; auto; congruence. }
        apply G; [now rewrite nth_error_seq by (eapply nth_error_bound; eauto)|]. rewrite nth_error_map_some, Ek. reflexivity.
      * cbn [fst snd]. apply in_map_iff. exists f. split; [reflexivity|]. apply vals_in, in_d2i_of. auto.
    + transitivity (@None (option nat)); [apply nth_error_None; lia|]. replace (nth_error (seq 0 n) f) with (@None nat); [reflexivity|]. symmetry. apply nth_error_None. rewrite seq_length. exact Hf.
Qed.

(** Items placed by destination *)
Lemma vals_by_dest {V} (g : nat -> V) k d : nth_error dests_of k = Some d ->
  vals k (map (fun f => (ki_of f, g f)) (seq 0 n)) = map g (vals d d2i_of).
Proof.
  intro Hk. unfold d2i_of. assert (G : forall l, (forall i, In i l -> i < n) -> vals k (map (fun f => (ki_of f, g f)) l) = map g (vals d (map (fun f => (ow f, f)) l))).
  { induction l as [|i t IH]; intro Hi; [reflexivity|]. cbn [map].
    change ((ki_of i, g i) :: map (fun f => (ki_of f, g f)) t) with ([(ki_of i, g i)] ++ map (fun f => (ki_of f, g f)) t).
    change ((ow i, i) :: map (fun f => (ow f, f)) t) with ([(ow i, i)] ++ map (fun f => (ow f, f)) t).
    rewrite !vals_app, map_app, IH by (intros; apply Hi; now right). f_equal. rewrite !vals_one. cbn [fst snd].
    destruct (ki_ok i (Hi i (or_introl eq_refl))) as (_ & Hn).
    destruct (Nat.eqb_spec (ki_of i) k) as [Ek|Nk].
    - rewrite Ek, Hk in Hn. injection Hn as ->. rewrite Nat.eqb_refl. reflexivity.
    - destruct (Nat.eqb_spec (ow i) d) as [Ed|Nd]; [|reflexivity]. exfalso. apply Nk. rewrite Ed in Hn.
      eapply NoDup_nth_error_inj; eauto. apply sort_uniq_NoDup. }
  apply G. intros i Hi. apply in_seq in Hi. lia.
Qed.
Lemma place_by_dest {V} (g : nat -> V) d0 : let sizes := map (fun d => length (vals d d2i_of)) dests_of in
  exists pos, ofold place (map (fun f => (ki_of f, g f)) (seq 0 n)) (psums sizes, repeat d0 (last (psums sizes) 0)) =
    Some (pos, concat (map (fun d => map g (vals d d2i_of)) dests_of)).
Proof.
  intro sizes. set (kvs := map (fun f => (ki_of f, g f)) (seq 0 n)).
  assert (Em : map (fun k => vals k kvs) (seq 0 (length dests_of)) = map (fun d => map g (vals d d2i_of)) dests_of) by (apply map_seq_nth; intros k d Hk; now apply vals_by_dest).
  assert (Es : map (fun k => length (vals k kvs)) (seq 0 (length dests_of)) = sizes).
  { apply map_seq_nth. intros k d Hk. unfold kvs. now rewrite (vals_by_dest g k d Hk), map_length. }
  assert (Hf : Forall (fun kv => fst kv < length dests_of) kvs).
  { apply Forall_forall. intros kv H. apply in_map_iff in H as (f & <- & Hf). apply in_seq in Hf. cbn. destruct (ki_ok f) as (_ & Hn); [lia|]. eapply nth_error_bound; eauto. }
  rewrite <- Es. destruct (place_full (length dests_of) kvs d0 (last (psums (map (fun k => length (vals k kvs)) (seq 0 (length dests_of)))) 0) Hf) as (pos & E).
  - now rewrite last_psums, vals_total.
  - exists pos. rewrite E, Em. reflexivity.
Qed.
Lemma all_placed : Permutation (concat (map (fun d => vals d d2i_of) dests_of)) (seq 0 n).
Proof.
  apply NoDup_Permutation; [|apply seq_NoDup|].
  - apply NoDup_concat; [apply sort_uniq_NoDup|intros; apply vals_d2i_of_NoDup|]. intros a b x _ _ Ha Hb. apply vals_in, in_d2i_of in Ha, Hb. lia.
  - intro f. rewrite in_concat, in_seq. split.
    + intros (l & Hl & H). apply in_map_iff in Hl as (d & <- & Hd). apply vals_in, in_d2i_of in H. lia.
    + intro H. exists (vals (ow f) d2i_of). split; [apply (in_map (fun d => vals d d2i_of)), in_dests_of; exists f; split; [lia|reflexivity]|apply vals_in, in_d2i_of; split; [lia|reflexivity]].
Qed.
End Positions.

(** ** Extent of the vertex numbers *)
Lemma fold_zmin_spec l a : (fold_left Z.min l a <= a)%Z /\ (forall v, In v l -> (fold_left Z.min l a <= v)%Z) /\
  (forall b, (b <= a)%Z -> (forall v, In v l -> (b <= v)%Z) -> (b <= fold_left Z.min l a)%Z).
Proof.
  revert a. induction l as [|x l IH]; intro a; cbn [fold_left]; [split; [lia|split; [intros v []|auto]]|].
  destruct (IH (Z.min a x)) as (H1 & H2 & H3). split; [lia|]. split.
  - intros v [<-|Hv]; [lia|now apply H2].
  - intros b Hb Hl. apply H3; [|intros; apply Hl; now right]. specialize (Hl x (or_introl eq_refl)). lia.
Qed.
Lemma fold_zmax_spec l a : (a <= fold_left Z.max l a)%Z /\ (forall v, In v l -> (v <= fold_left Z.max l a)%Z) /\
  (forall b, (a <= b)%Z -> (forall v, In v l -> (v <= b)%Z) -> (fold_left Z.max l a <= b)%Z).
Proof.
  revert a. induction l as [|x l IH]; intro a; cbn [fold_left]; [split; [lia|split; [intros v []|auto]]|].
  destruct (IH (Z.max a x)) as (H1 & H2 & H3). split; [lia|]. split.
  - intros v [<-|Hv]; [lia|now apply H2].
  - intros b Hb Hl. apply H3; [|intros; apply Hl; now right]. specialize (Hl x (or_introl eq_refl)). lia.
Qed.
Lemma allreduce_zmax_spec l : (forall v, In v l -> (v <= allreduce_zmax l)%Z) /\ (forall b, (- 2 ^ 63 <= b)%Z -> (forall v, In v l -> (v <= b)%Z) -> (allreduce_zmax l <= b)%Z).
Proof.
  unfold allreduce_zmax. induction l as [|x l (IH1 & IH2)]; cbn [fold_right]; [split; [intros v []|auto]|]. split.
  - intros v [<-|Hv]; [lia|]. specialize (IH1 v Hv). lia.
  - intros b Hb Hl. specialize (IH2 b Hb (fun v Hv => Hl v (or_intror Hv))). specialize (Hl x (or_introl eq_refl)). lia.
Qed.

Section World.
Variables (P : nat) (nbx : (nat -> list nat) -> nat -> list nat) (L : nat -> option ldual) (ld : nat -> ldual).
Hypothesis Hnbx : nbx_oracle P nbx.
Hypothesis HP : 0 < P.
Hypothesis HL : forall q, q < P -> L q = Some (ld q).
Notation frows q := (ld_facets (ld q)).
Notation fcells q := (ld_cells (ld q)).
Notation nu q := (length (ld_cells (ld q))).
Hypothesis Hlen : forall q, q < P -> length (frows q) = nu q.
Hypothesis Hrow : forall q row, q < P -> In row (frows q) -> length row = ld_width (ld q) /\ exists v t, row = v :: t /\ (0 <= v < 2 ^ 63 - 1)%Z.

Definition row_at (q f : nat) : list Z := nth f (frows q) [].
Definition fv (q f : nat) : Z := hd 0%Z (row_at q f).

Lemma row_in q f : q < P -> f < nu q -> In (row_at q f) (frows q) /\ nth_error (frows q) f = Some (row_at q f).
Proof. intros Hq Hf. rewrite <- Hlen in Hf by exact Hq. split; [now apply nth_In|now apply nth_error_nth']. Qed.

Lemma local_extent_ok q : q < P -> exists lo hi, local_extent L q = Some (Z.of_nat (ld_width (ld q)), (- lo, hi)%Z) /\
  (0 <= lo <= hi)%Z /\ (hi < 2 ^ 63 - 1)%Z /\ forall f, f < nu q -> (lo <= fv q f <= hi)%Z.
Proof.
  intro Hq. unfold local_extent. rewrite (HL q Hq). cbn [obind].
  rewrite (omap_map _ (hd 0%Z)) by (intros row Hr; destruct (Hrow q row Hq Hr) as (_ & v & t & -> & _); reflexivity). cbn [obind].
  set (firsts := map (hd 0%Z) (frows q)).
  assert (Hf : forall v, In v firsts -> (0 <= v < 2 ^ 63 - 1)%Z).
  { intros v Hv. apply in_map_iff in Hv as (row & <- & Hr). destruct (Hrow q row Hq Hr) as (_ & v & t & -> & B). exact B. }
  set (a := if 0 <? length firsts then (2 ^ 63 - 1)%Z else 0%Z).
  destruct (fold_zmin_spec firsts a) as (M1 & M2 & M3). destruct (fold_zmax_spec firsts 0%Z) as (N1 & N2 & N3).
  eexists _, _. split; [reflexivity|].
  assert (A0 : (0 <= a)%Z) by (unfold a; destruct (0 <? length firsts); lia).
  split; [split|split].
  - apply M3; [exact A0|]. intros v Hv. apply Hf in Hv. lia.
  - destruct firsts as [|x l] eqn:El; [cbn in *; lia|]. specialize (M2 x (or_introl eq_refl)). specialize (N2 x (or_introl eq_refl)). lia.
  - enough (fold_left Z.max firsts 0%Z <= 2 ^ 63 - 2)%Z by lia. apply N3; [lia|]. intros v Hv. apply Hf in Hv. lia.
  - intros f Hff. assert (Iv : In (fv q f) firsts) by (apply (in_map (hd 0%Z)); now apply row_in). split; [now apply M2|now apply N2].
Qed.

Lemma extent_ok : exists W lo hi, extent P L = Some (W, (lo, hi)) /\ (forall q, q < P -> ld_width (ld q) <= W) /\ (0 <= lo)%Z /\
  forall q f, q < P -> f < nu q -> (lo <= fv q f < hi)%Z.
Proof.
  unfold extent. destruct (omap_some (local_extent L) (seq 0 P)) as (es & Ees).
  { intros q Hq. apply in_seq in Hq. destruct (local_extent_ok q) as (lo & hi & E & _); [lia|eauto]. }
  rewrite Ees. cbn [obind].
  assert (Hes : forall e, In e es -> exists q, q < P /\ local_extent L q = Some e).
  { intros e He. apply In_nth_error in He as (k & Hk). pose proof (nth_error_bound _ _ _ Hk) as B. rewrite (omap_length _ _ _ Ees), seq_length in B. exists k. split; [exact B|].
    destruct (omap_nth _ _ _ Ees k k) as (b & Hb & E); [now rewrite nth_error_seq|]. rewrite Hk in Hb. injection Hb as ->. exact E. }
  assert (Hin : forall q, q < P -> exists e, In e es /\ local_extent L q = Some e).
  { intros q Hq. destruct (omap_nth _ _ _ Ees q q) as (b & Hb & E); [now rewrite nth_error_seq|]. exists b. split; [eapply nth_error_In; exact Hb|exact E]. }
  destruct (allreduce_zmax_spec (map fst es)) as (A1 & A2). destruct (allreduce_zmax_spec (map (fun e => fst (snd e)) es)) as (B1 & B2). destruct (allreduce_zmax_spec (map (fun e => snd (snd e)) es)) as (C1 & C2).
  set (w := allreduce_zmax (map fst es)) in *. set (mlo := allreduce_zmax (map (fun e => fst (snd e)) es)) in *. set (mhi := allreduce_zmax (map (fun e => snd (snd e)) es)) in *.
  assert (F : forall q, q < P -> (Z.of_nat (ld_width (ld q)) <= w)%Z /\ exists lo hi, (- lo <= mlo)%Z /\ (hi <= mhi)%Z /\ (0 <= lo <= hi)%Z /\ forall f, f < nu q -> (lo <= fv q f <= hi)%Z).
  { intros q Hq. destruct (Hin q Hq) as (e & He & E). destruct (local_extent_ok q Hq) as (lo & hi & E' & H1 & _ & H2). rewrite E in E'. injection E' as ->.
    split; [exact (A1 _ (in_map fst _ _ He))|]. exists lo, hi. split; [exact (B1 _ (in_map (fun e => fst (snd e)) _ _ He))|]. split; [exact (C1 _ (in_map (fun e => snd (snd e)) _ _ He))|]. auto. }
  assert (Mlo : (mlo <= 0)%Z).
  { apply B2; [lia|]. intros v Hv. apply in_map_iff in Hv as (e & <- & He). destruct (Hes e He) as (q & Hq & E). destruct (local_extent_ok q Hq) as (lo & hi & E' & H & _). rewrite E in E'. injection E' as ->. cbn. lia. }
  assert (Mhi : (mhi <= 2 ^ 63 - 2)%Z).
  { apply C2; [lia|]. intros v Hv. apply in_map_iff in Hv as (e & <- & He). destruct (Hes e He) as (q & Hq & E). destruct (local_extent_ok q Hq) as (lo & hi & E' & _ & H & _). rewrite E in E'. injection E' as ->. cbn [fst snd]. lia. }
  destruct (F 0 HP) as (F1 & lo0 & hi0 & F2 & F3 & F4 & _).
  exists (Z.to_nat w), (- mlo)%Z, (mhi + 1)%Z.
  destruct (Z.leb_spec 0 w) as [_|]; [|lia]. destruct (Z.leb_spec 0 (- mlo)) as [_|]; [|lia]. destruct (Z.leb_spec (- mlo) (mhi + 1)) as [_|]; [|lia]. destruct (Z.ltb_spec (mhi + 1) (2 ^ 63)) as [_|]; [|lia].
  cbn [andb]. split; [reflexivity|]. split; [intros q Hq; destruct (F q Hq) as (G & _); lia|]. split; [lia|].
  intros q f Hq Hf. destruct (F q Hq) as (_ & lo & hi & G1 & G2 & _ & G3). specialize (G3 f Hf). lia.
Qed.
End World.
