(** Repeated bisection of edges. *)
From Coq Require Import Reals Lra.
From Verif Require Import Base BaseProofs Algo AlgoProofs PlazaSpec PlazaTiling.
Open Scope nat_scope.

(** ** Volumes *)
Lemma Rabs_half x : (Rabs (x / 2) = Rabs x / 2)%R.
Proof. unfold Rdiv. rewrite Rabs_mult. f_equal. apply Rabs_right. lra. Qed.
Lemma Rabs_eq_half x y : (x = y / 2)%R -> (Rabs x = Rabs y / 2)%R.
Proof. intros ->. apply Rabs_half. Qed.
Lemma Rabs_eq_opp x y : (x = - y)%R -> Rabs x = Rabs y.
Proof. intros ->. apply Rabs_Ropp. Qed.

Lemma volume6_perm l l' : Permutation l l' -> volume6 l = volume6 l'.
Proof.
  intro H. induction H as [l|x y l1 l2|l l' l'' H1 H2 H3 H4] using Permutation_ind_transp; [reflexivity| |congruence].
  destruct l1 as [|a [|b [|c l1]]].
  - destruct l2 as [|p [|q [|r l2]]]; try reflexivity. cbn. apply Rabs_eq_opp. ring.
  - destruct l2 as [|p [|q l2]]; try reflexivity. cbn. apply Rabs_eq_opp. ring.
  - destruct l2 as [|p l2]; try reflexivity. cbn. apply Rabs_eq_opp. ring.
  - assert (L : forall (u v : nat -> R), volume6 ((a :: b :: c :: l1) ++ u :: v :: l2) = 0%R).
    { intros u v. destruct l1 as [|d [|e l1]]; reflexivity. }
    now rewrite !L.
Qed.
Lemma area2_perm l l' : Permutation l l' -> area2 l = area2 l'.
Proof.
  intro H. induction H as [l|x y l1 l2|l l' l'' H1 H2 H3 H4] using Permutation_ind_transp; [reflexivity| |congruence].
  destruct l1 as [|a [|b l1]].
  - destruct l2 as [|p [|q l2]]; try reflexivity. cbn. apply Rabs_eq_opp. ring.
  - destruct l2 as [|p l2]; try reflexivity. cbn. apply Rabs_eq_opp. ring.
  - assert (L : forall (u v : nat -> R), area2 ((a :: b :: l1) ++ u :: v :: l2) = 0%R).
    { intros u v. destruct l1 as [|d [|e l1]]; reflexivity. }
    now rewrite !L.
Qed.

Section Halves.
Variables (pl : nat -> nat -> R) (t : list nat) (a b m : nat).
Hypothesis Hn : NoDup t.
Hypothesis Ha : In a t.
Hypothesis Hb : In b t.
Hypothesis Hab : a <> b.
Hypothesis Hpl : forall c, pl m c = ((pl a c + pl b c) / 2)%R.
Lemma rep_eq x y : rep x y x = y.
Proof. unfold rep. now rewrite Nat.eqb_refl. Qed.
Lemma rep_neq x y z : z <> x -> rep x y z = z.
Proof. intro H. unfold rep. destruct (Nat.eqb_spec z x); congruence. Qed.
(** The edge is at the front. *)
Lemma front : exists r, Permutation t (a :: b :: r) /\ ~ In a r /\ ~ In b r.
Proof.
  apply in_split in Ha as (l1 & l2 & E). assert (P1 : Permutation t (a :: l1 ++ l2)) by (rewrite E; symmetry; apply Permutation_middle).
  assert (Hb' : In b (l1 ++ l2)). { apply (Permutation_in _ P1) in Hb. destruct Hb as [Hb'|Hb']; [congruence|exact Hb']. }
  apply in_split in Hb' as (k1 & k2 & E'). assert (P2 : Permutation t (a :: b :: k1 ++ k2)).
  { etransitivity; [exact P1|]. constructor. rewrite E'. symmetry. apply Permutation_middle. }
  exists (k1 ++ k2). split; [exact P2|]. pose proof (Permutation_NoDup P2 Hn) as N. inversion N as [|? ? N1 N2]; subst. inversion N2 as [|? ? N3 N4]; subst.
  split; [intro H; apply N1; now right|exact N3].
Qed.
Lemma rep_id x r : ~ In x r -> map (rep x m) r = r.
Proof.
  intro H. induction r as [|y r IH]; [reflexivity|]. cbn. rewrite rep_neq by (intros ->; apply H; now left).
  now rewrite IH by (intro; apply H; now right).
Qed.
Lemma volume6_half : volume6 (map pl (map (rep b m) t)) = (volume6 (map pl t) / 2)%R.
Proof.
  destruct front as (r & P & Na & Nb). rewrite (volume6_perm _ _ (Permutation_map pl (Permutation_map (rep b m) P))), (volume6_perm _ _ (Permutation_map pl P)).
  cbn [map]. rewrite rep_eq, (rep_neq b m a Hab), (rep_id b r Nb).
  destruct r as [|c [|d [|e r]]]; cbn; try (unfold Rdiv; now rewrite Rmult_0_l). apply Rabs_eq_half. rewrite !Hpl. field.
Qed.
Lemma area2_half : area2 (map pl (map (rep b m) t)) = (area2 (map pl t) / 2)%R.
Proof.
  destruct front as (r & P & Na & Nb). rewrite (area2_perm _ _ (Permutation_map pl (Permutation_map (rep b m) P))), (area2_perm _ _ (Permutation_map pl P)).
  cbn [map]. rewrite rep_eq, (rep_neq b m a Hab), (rep_id b r Nb).
  destruct r as [|c [|d r]]; cbn; try (unfold Rdiv; now rewrite Rmult_0_l). apply Rabs_eq_half. rewrite !Hpl. field.
Qed.
End Halves.

(** ** Bisecting edges in a given order *)
Definition bis_step (tdim e : nat) (t : list nat) : list (list nat) :=
  let '(a, b) := nth e (ref_edges tdim) (0, 0) in
  if mem a t && mem b t then [map (rep a (S tdim + e)) t; map (rep b (S tdim + e)) t] else [t].
Definition bisect (tdim : nat) (mark : nat -> bool) (p : list nat) (T : list (list nat)) : list (list nat) :=
  fold_left (fun T e => if mark e then flat_map (bis_step tdim e) T else T) p T.

Section Bisect.
Variables (tdim : nat) (X : nat -> nat -> R).
Hypothesis Hd : tdim = 2 \/ tdim = 3.
Notation pl := (place tdim X).

Lemma ends e a b : nth_error (ref_edges tdim) e = Some (a, b) -> a <= tdim /\ b <= tdim /\ a <> b.
Proof. intro H. destruct Hd as [-> | ->]; (repeat (destruct e as [|e]; [injection H as <- <-; cbn; lia|])); destruct e; discriminate. Qed.
Lemma pl_mid e a b c : nth_error (ref_edges tdim) e = Some (a, b) -> pl (S tdim + e) c = ((pl a c + pl b c) / 2)%R.
Proof.
  intro H. destruct (ends e a b H) as (A & B & _). unfold place. destruct (Nat.leb_spec (S tdim + e) tdim); [lia|].
  replace (S tdim + e - S tdim) with e by lia. rewrite H. destruct (Nat.leb_spec a tdim), (Nat.leb_spec b tdim); try lia. reflexivity.
Qed.

Lemma step_tl e t : e < length (ref_edges tdim) -> NoDup t -> ~ In (S tdim + e) t ->
  tl pl (bis_step tdim e t) t /\
  (forall d, In d (bis_step tdim e t) -> NoDup d /\ forall v, In v d -> In v t \/ v = S tdim + e) /\
  rsum (map (fun d => volume6 (map pl d)) (bis_step tdim e t)) = volume6 (map pl t) /\
  rsum (map (fun d => area2 (map pl d)) (bis_step tdim e t)) = area2 (map pl t).
Proof.
  intros He Hn Hm. unfold bis_step. destruct (nth e (ref_edges tdim) (0, 0)) as (a, b) eqn:E.
  assert (E' : nth_error (ref_edges tdim) e = Some (a, b)) by (rewrite <- E; now apply nth_error_nth'). clear E.
  destruct (ends e a b E') as (_ & _ & Hab). pose proof (fun c => pl_mid e a b c E') as Hp.
  destruct (mem a t && mem b t) eqn:Em.
  - apply andb_true_iff in Em as (Ma & Mb). apply mem_iff in Ma, Mb.
    assert (Hp' : forall c, pl (S tdim + e) c = ((pl b c + pl a c) / 2)%R) by (intro; rewrite Hp; lra).
    assert (Hba : b <> a) by congruence. split; [|split; [|split]].
    + now apply bisect_tl.
    + intros d [<-|[<-|[]]]; (split; [now apply rep_NoDup|]); intros v Hv.
      * apply (half_in t a (S tdim + e) Ma) in Hv. tauto.
      * apply (half_in t b (S tdim + e) Mb) in Hv. tauto.
    + cbn [map rsum fold_right]. rewrite (volume6_half pl t b a (S tdim + e) Hn Mb Ma Hba Hp'), (volume6_half pl t a b (S tdim + e) Hn Ma Mb Hab Hp). lra.
    + cbn [map rsum fold_right]. rewrite (area2_half pl t b a (S tdim + e) Hn Mb Ma Hba Hp'), (area2_half pl t a b (S tdim + e) Hn Ma Mb Hab Hp). lra.
  - split; [apply tl_self|]. split; [|cbn; split; lra]. intros d [<-|[]]. split; [exact Hn|]. auto.
Qed.

Lemma rsum_app l l' : rsum (l ++ l') = (rsum l + rsum l')%R.
Proof. unfold rsum. induction l as [|x l IH]; cbn; [lra|]. rewrite IH. lra. Qed.
Lemma rsum_flat (vol : list nat -> R) (h : list nat -> list (list nat)) T : (forall t, In t T -> rsum (map vol (h t)) = vol t) ->
  rsum (map vol (flat_map h T)) = rsum (map vol T).
Proof.
  induction T as [|t T IH]; intro H; [reflexivity|]. cbn [flat_map map]. rewrite map_app, rsum_app, IH by (intros; apply H; now right).
  rewrite (H t) by now left. unfold rsum. reflexivity.
Qed.

Lemma bisect_ok mark t0 p : forall T, NoDup p -> (forall e, In e p -> e < length (ref_edges tdim)) ->
  tl pl T t0 -> (forall t, In t T -> NoDup t /\ forall e, In e p -> ~ In (S tdim + e) t) ->
  let T' := bisect tdim mark p T in
  tl pl T' t0 /\ (forall t, In t T' -> NoDup t) /\
  rsum (map (fun d => volume6 (map pl d)) T') = rsum (map (fun d => volume6 (map pl d)) T) /\
  rsum (map (fun d => area2 (map pl d)) T') = rsum (map (fun d => area2 (map pl d)) T).
Proof.
  induction p as [|e p IH]; intros T Hn He HT Hl; cbn zeta.
  - cbn. split; [exact HT|]. split; [intros t Ht; apply (Hl t Ht)|auto].
  - inversion Hn as [|? ? Hep Hn']; subst. cbn [bisect fold_left]. destruct (mark e).
    + assert (HS : forall t, In t T -> _) by (intros t Ht; exact (step_tl e t (He e (or_introl eq_refl)) (proj1 (Hl t Ht)) (proj2 (Hl t Ht) e (or_introl eq_refl)))).
      destruct (IH (flat_map (bis_step tdim e) T)) as (A & B & C & D).
      * exact Hn'.
      * intros; apply He; now right.
      * apply tl_flat; [exact HT|]. intros t Ht. apply (HS t Ht).
      * intros d Hdd. apply in_flat_map in Hdd as (t & Ht & Hdd). destruct (HS t Ht) as (_ & H & _). destruct (H d Hdd) as (H1 & H2). split; [exact H1|].
        intros e' He' Hin. destruct (H2 _ Hin) as [H3|H3].
        -- exact (proj2 (Hl t Ht) e' (or_intror He') H3).
        -- assert (e' = e) as -> by lia. contradiction.
      * unfold bisect in *. split; [exact A|]. split; [exact B|]. rewrite C, D. split.
        -- apply (rsum_flat (fun d => volume6 (map pl d))). intros t Ht. apply (HS t Ht).
        -- apply (rsum_flat (fun d => area2 (map pl d))). intros t Ht. apply (HS t Ht).
    + apply IH; [exact Hn'|intros; apply He; now right|exact HT|]. intros t Ht. split; [apply (Hl t Ht)|]. intros e' He'. apply (Hl t Ht). now right.
Qed.

End Bisect.

(** Equal up to the order of the children and of their points *)
Fixpoint lexb (t t' : list nat) : bool :=
  match t, t' with
  | x :: t, y :: t' => (x <? y) || (x =? y) && lexb t t'
  | [], _ => true
  | _, [] => false
  end.
Definition canon (L : list (list nat)) : list (list nat) := isort lexb (map (isort Nat.leb) L).
Lemma isort_perm' {A} (leb : A -> A -> bool) l : Permutation l (isort leb l).
Proof.
  assert (I : forall x l, Permutation (x :: l) (insert leb x l)).
  { intros x l'. induction l' as [|y l' IH]; cbn; [reflexivity|]. destruct (leb x y); [reflexivity|].
    etransitivity; [apply perm_swap|]. now constructor. }
  induction l as [|x l IH]; cbn; [constructor|]. etransitivity; [|apply I]. now constructor.
Qed.
Lemma canon_perm L L' : canon L = canon L' -> exists L1, Permutation L L1 /\ Forall2 (@Permutation nat) L1 L'.
Proof.
  intro H. assert (P : Permutation (map (isort Nat.leb) L) (map (isort Nat.leb) L')).
  { etransitivity; [apply isort_perm'|]. unfold canon in H. rewrite H. symmetry. apply isort_perm'. }
  symmetry in P. apply Permutation_map_inv in P as (L1 & E & P). exists L1. split; [exact P|].
  clear - E. revert L1 E. induction L' as [|t' L' IH]; intros [|t L1] E; cbn in E; try discriminate; constructor.
  - injection E as E _. etransitivity; [apply (isort_perm' Nat.leb)|]. rewrite <- E. symmetry. apply isort_perm'.
  - apply IH. now injection E.
Qed.

Section Canon.
Variables (tdim : nat) (X : nat -> nat -> R).
Notation pl := (place tdim X).
Lemma seq_place : map X (seq 0 (S tdim)) = map pl (seq 0 (S tdim)).
Proof. apply map_ext_in. intros i Hi. apply in_seq in Hi. unfold place. destruct (Nat.leb_spec i tdim); [reflexivity|lia]. Qed.
Lemma canon_tiles T C t0 : tl pl T t0 -> (forall t, In t T -> NoDup t) -> canon T = canon C ->
  tiles (map (map pl) C) (map pl t0) /\ (forall t, In t C -> NoDup t) /\
  rsum (map volume6 (map (map pl) C)) = rsum (map (fun d => volume6 (map pl d)) T) /\
  rsum (map area2 (map (map pl) C)) = rsum (map (fun d => area2 (map pl d)) T).
Proof.
  intros A B Hc. destruct (canon_perm _ _ Hc) as (L1 & P1 & P2).
  assert (B1 : forall t, In t L1 -> NoDup t) by (intros t Ht; apply B; eapply Permutation_in; [symmetry; exact P1|exact Ht]).
  assert (HE : Forall2 (equiv pl) L1 C).
  { clear - B1 P2. induction P2 as [|t t' L1 C Ht P2 IH]; constructor; [apply equiv_perm; [apply B1; now left|exact Ht]|apply IH; intros; apply B1; now right]. }
  split; [|split; [|split]].
  - apply tl_tiles. apply (tl_equiv pl L1 C _ HE). exact (tl_perm pl _ _ _ P1 A).
  - intros t Ht. clear - B1 P2 Ht. induction P2 as [|s s' L1 C Hs P2 IH]; [destruct Ht|]. destruct Ht as [<-|Ht].
    + eapply Permutation_NoDup; [exact Hs|]. apply B1. now left.
    + apply IH; [intros; apply B1; now right|exact Ht].
  - rewrite !map_map. transitivity (rsum (map (fun d => volume6 (map pl d)) L1)).
    + clear - P2. induction P2 as [|s s' L1 C Hs P2 IH]; [reflexivity|]. cbn [map]. unfold rsum in *. cbn [fold_right]. rewrite IH. f_equal.
      symmetry. apply volume6_perm. now apply Permutation_map.
    + symmetry. exact (rsum_perm _ _ (Permutation_map (fun d => volume6 (map pl d)) P1)).
  - rewrite !map_map. transitivity (rsum (map (fun d => area2 (map pl d)) L1)).
    + clear - P2. induction P2 as [|s s' L1 C Hs P2 IH]; [reflexivity|]. cbn [map]. unfold rsum in *. cbn [fold_right]. rewrite IH. f_equal.
      symmetry. apply area2_perm. now apply Permutation_map.
    + symmetry. exact (rsum_perm _ _ (Permutation_map (fun d => area2 (map pl d)) P1)).
Qed.

Lemma bisect_children mark p C : tdim = 2 \/ tdim = 3 -> NoDup p -> (forall e, In e p -> e < length (ref_edges tdim)) ->
  canon (bisect tdim mark p [seq 0 (S tdim)]) = canon C ->
  tiles (map (map pl) C) (map X (seq 0 (S tdim))) /\ (forall t, In t C -> NoDup t) /\
  rsum (map volume6 (map (map pl) C)) = volume6 (map X (seq 0 (S tdim))) /\
  rsum (map area2 (map (map pl) C)) = area2 (map X (seq 0 (S tdim))).
Proof.
  intros Hd Hn He Hc.
  destruct (bisect_ok tdim X Hd mark (seq 0 (S tdim)) p [seq 0 (S tdim)] Hn He) as (A & B & V1 & V2).
  { apply tl_self. }
  { intros t [<-|[]]. split; [apply seq_NoDup|]. intros e _ Hin. apply in_seq in Hin. lia. }
  rewrite seq_place. destruct (canon_tiles _ _ _ A B Hc) as (T1 & T2 & T3 & T4). split; [exact T1|]. split; [exact T2|].
  rewrite T3, T4, V1, V2. cbn [map rsum fold_right]. split; lra.
Qed.

(** ** Four triangles *)
Lemma red_tl : tdim = 2 -> tl pl [[0; 4; 5]; [1; 3; 5]; [2; 3; 4]; [3; 4; 5]] [0; 1; 2].
Proof.
  intros ->. set (q := place 2 X).
  assert (P3 : forall c, q 3%nat c = ((q 1%nat c + q 2%nat c) / 2)%R) by reflexivity.
  assert (P4 : forall c, q 4%nat c = ((q 0%nat c + q 2%nat c) / 2)%R) by reflexivity.
  assert (P5 : forall c, q 5%nat c = ((q 0%nat c + q 1%nat c) / 2)%R) by reflexivity.
  clearbody q.
  assert (N0 : NoDup [0; 1; 2]) by (repeat first [apply NoDup_nil | apply NoDup_cons; [cbn; lia|]]).
  assert (N1 : NoDup [0; 4; 5]) by (repeat first [apply NoDup_nil | apply NoDup_cons; [cbn; lia|]]).
  assert (N2 : NoDup [1; 3; 5]) by (repeat first [apply NoDup_nil | apply NoDup_cons; [cbn; lia|]]).
  assert (N3 : NoDup [2; 3; 4]) by (repeat first [apply NoDup_nil | apply NoDup_cons; [cbn; lia|]]).
  assert (N4 : NoDup [3; 4; 5]) by (repeat first [apply NoDup_nil | apply NoDup_cons; [cbn; lia|]]).
  (* the weights of a child as weights of the parent *)
  set (up := fun (g : nat -> R) (t : list nat) (v : nat) =>
    fsum t (fun u => g u * (if (u =? v)%nat then 1 else if (u <? 3)%nat then 0 else if (u =? v + 3)%nat then 0 else / 2))%R).
  assert (U : forall t g, In t [[0; 4; 5]; [1; 3; 5]; [2; 3; 4]; [3; 4; 5]] ->
    fsum [0; 1; 2] (up g t) = fsum t g /\ forall c, fsum [0; 1; 2] (fun v => up g t v * q v c)%R = fsum t (fun v => g v * q v c)%R).
  { intros t g Ht. destruct Ht as [<-|[<-|[<-|[<-|[]]]]]; (split; [|intro c]); cbn; rewrite ?P3, ?P4, ?P5; lra. }
  set (inc := fun (t : list nat) (f : nat -> R) => match hd 9 t with 0 => (/2 < f 0%nat)%R | 1 => (/2 < f 1%nat)%R | 2 => (/2 < f 2%nat)%R
                                        | _ => (f 0%nat < /2 /\ f 1%nat < /2 /\ f 2%nat < /2)%R end).
  assert (I : forall t x, In t [[0; 4; 5]; [1; 3; 5]; [2; 3; 4]; [3; 4; 5]] -> in_interior (map q t) x ->
    exists f, (forall v, In v [0; 1; 2] -> (0 < f v)%R) /\ fsum [0; 1; 2] f = 1%R /\ (forall c, x c = fsum [0; 1; 2] (fun v => f v * q v c)%R) /\ inc t f).
  { intros t x Ht Hx. rewrite in_interior_fun in Hx by (destruct Ht as [<-|[<-|[<-|[<-|[]]]]]; assumption).
    destruct Hx as (g & A & B & C). destruct (U t g Ht) as (U1 & U2). exists (up g t). split; [|split; [|split]].
    - destruct Ht as [<-|[<-|[<-|[<-|[]]]]].
      + pose proof (A 0 ltac:(cbn; auto)). pose proof (A 4 ltac:(cbn; auto)). pose proof (A 5 ltac:(cbn; auto)).
        intros v [<-|[<-|[<-|[]]]]; cbn; lra.
      + pose proof (A 1 ltac:(cbn; auto)). pose proof (A 3 ltac:(cbn; auto)). pose proof (A 5 ltac:(cbn; auto)).
        intros v [<-|[<-|[<-|[]]]]; cbn; lra.
      + pose proof (A 2 ltac:(cbn; auto)). pose proof (A 3 ltac:(cbn; auto)). pose proof (A 4 ltac:(cbn; auto)).
        intros v [<-|[<-|[<-|[]]]]; cbn; lra.
      + pose proof (A 3 ltac:(cbn; auto)). pose proof (A 4 ltac:(cbn; auto)). pose proof (A 5 ltac:(cbn; auto)).
        intros v [<-|[<-|[<-|[]]]]; cbn; lra.
    - now rewrite U1.
    - intro c. now rewrite U2.
    - destruct Ht as [<-|[<-|[<-|[<-|[]]]]]; cbn in B |- *.
      + pose proof (A 0 ltac:(cbn; auto)). pose proof (A 4 ltac:(cbn; auto)). pose proof (A 5 ltac:(cbn; auto)). lra.
      + pose proof (A 1 ltac:(cbn; auto)). pose proof (A 3 ltac:(cbn; auto)). pose proof (A 5 ltac:(cbn; auto)). lra.
      + pose proof (A 2 ltac:(cbn; auto)). pose proof (A 3 ltac:(cbn; auto)). pose proof (A 4 ltac:(cbn; auto)). lra.
      + pose proof (A 3 ltac:(cbn; auto)). pose proof (A 4 ltac:(cbn; auto)). pose proof (A 5 ltac:(cbn; auto)). lra. }
  split.
  - intro x. split.
    + rewrite in_simplex_fun by assumption. intros (f & A & B & C).
      pose proof (A 0 ltac:(cbn; auto)) as A0. pose proof (A 1 ltac:(cbn; auto)) as A1. pose proof (A 2 ltac:(cbn; auto)) as A2. cbn in B.
      destruct (Rle_dec (/2) (f 0%nat)) as [D0|D0]; [|destruct (Rle_dec (/2) (f 1%nat)) as [D1|D1]; [|destruct (Rle_dec (/2) (f 2%nat)) as [D2|D2]]].
      * exists [0; 4; 5]. split; [cbn; auto|]. apply in_simplex_fun; [assumption|].
        exists (fun v => if (v =? 0)%nat then 2 * f 0%nat - 1 else if (v =? 4)%nat then 2 * f 2%nat else 2 * f 1%nat)%R. split; [|split].
        -- intros v [<-|[<-|[<-|[]]]]; cbn; lra.
        -- cbn. lra.
        -- intro c. rewrite C. cbn. rewrite P4, P5. replace (f 0%nat) with (1 - f 1%nat - f 2%nat)%R by lra. field.
      * exists [1; 3; 5]. split; [cbn; auto|]. apply in_simplex_fun; [assumption|].
        exists (fun v => if (v =? 1)%nat then 2 * f 1%nat - 1 else if (v =? 3)%nat then 2 * f 2%nat else 2 * f 0%nat)%R. split; [|split].
        -- intros v [<-|[<-|[<-|[]]]]; cbn; lra.
        -- cbn. lra.
        -- intro c. rewrite C. cbn. rewrite P3, P5. replace (f 1%nat) with (1 - f 0%nat - f 2%nat)%R by lra. field.
      * exists [2; 3; 4]. split; [cbn; auto|]. apply in_simplex_fun; [assumption|].
        exists (fun v => if (v =? 2)%nat then 2 * f 2%nat - 1 else if (v =? 3)%nat then 2 * f 1%nat else 2 * f 0%nat)%R. split; [|split].
        -- intros v [<-|[<-|[<-|[]]]]; cbn; lra.
        -- cbn. lra.
        -- intro c. rewrite C. cbn. rewrite P3, P4. replace (f 2%nat) with (1 - f 0%nat - f 1%nat)%R by lra. field.
      * exists [3; 4; 5]. split; [cbn; auto|]. apply in_simplex_fun; [assumption|].
        exists (fun v => if (v =? 3)%nat then 1 - 2 * f 0%nat else if (v =? 4)%nat then 1 - 2 * f 1%nat else 1 - 2 * f 2%nat)%R. split; [|split].
        -- intros v [<-|[<-|[<-|[]]]]; cbn; lra.
        -- cbn. lra.
        -- intro c. rewrite C. cbn. rewrite P3, P4, P5. replace (f 2%nat) with (1 - f 0%nat - f 1%nat)%R by lra. field.
    + intros (t & Ht & Hx). rewrite in_simplex_fun in Hx by (destruct Ht as [<-|[<-|[<-|[<-|[]]]]]; assumption).
      destruct Hx as (g & A & B & C). apply in_simplex_fun; [assumption|]. destruct (U t g Ht) as (U1 & U2). exists (up g t). split; [|split].
      * destruct Ht as [<-|[<-|[<-|[<-|[]]]]].
        -- pose proof (A 0 ltac:(cbn; auto)). pose proof (A 4 ltac:(cbn; auto)). pose proof (A 5 ltac:(cbn; auto)).
           intros v [<-|[<-|[<-|[]]]]; cbn; lra.
        -- pose proof (A 1 ltac:(cbn; auto)). pose proof (A 3 ltac:(cbn; auto)). pose proof (A 5 ltac:(cbn; auto)).
           intros v [<-|[<-|[<-|[]]]]; cbn; lra.
        -- pose proof (A 2 ltac:(cbn; auto)). pose proof (A 3 ltac:(cbn; auto)). pose proof (A 4 ltac:(cbn; auto)).
           intros v [<-|[<-|[<-|[]]]]; cbn; lra.
        -- pose proof (A 3 ltac:(cbn; auto)). pose proof (A 4 ltac:(cbn; auto)). pose proof (A 5 ltac:(cbn; auto)).
           intros v [<-|[<-|[<-|[]]]]; cbn; lra.
      * now rewrite U1.
      * intro c. now rewrite U2.
  - intros x t Ht Hx. apply in_interior_fun; [assumption|]. destruct (I t x Ht Hx) as (f & A & B & C & _). eauto.
  - intros Hi t Ht. rewrite independent_fun in Hi by assumption.
    apply independent_fun; [destruct Ht as [<-|[<-|[<-|[<-|[]]]]]; assumption|]. intros g A B.
    destruct (U t g Ht) as (U1 & U2).
    assert (Z : forall v, In v [0; 1; 2] -> up g t v = 0%R).
    { apply Hi; [now rewrite U1|]. intro c. now rewrite U2. }
    pose proof (Z 0 ltac:(cbn; auto)) as Z0. pose proof (Z 1 ltac:(cbn; auto)) as Z1. pose proof (Z 2 ltac:(cbn; auto)) as Z2.
    destruct Ht as [<-|[<-|[<-|[<-|[]]]]]; cbn in Z0, Z1, Z2; intros v [<-|[<-|[<-|[]]]]; lra.
  - intro Hi. rewrite independent_fun in Hi by assumption.
    assert (Ap : forall t t', In t [[0; 4; 5]; [1; 3; 5]; [2; 3; 4]; [3; 4; 5]] -> In t' [[0; 4; 5]; [1; 3; 5]; [2; 3; 4]; [3; 4; 5]] ->
      hd 9 t < hd 9 t' -> apart q t t').
    { intros t t' Ht Ht' Hlt x (H1 & H2). destruct (I t x Ht H1) as (f & Af & Bf & Cf & Df). destruct (I t' x Ht' H2) as (g & Ag & Bg & Cg & Dg).
      assert (Z : forall v, In v [0; 1; 2] -> (f v - g v = 0)%R).
      { apply Hi; [rewrite fsum_minus; lra|]. intro c. rewrite (fsum_ext _ _ (fun v => f v * q v c - g v * q v c)%R) by (intros; lra).
        rewrite fsum_minus, <- Cf, <- Cg. lra. }
      pose proof (Z 0 ltac:(cbn; auto)) as Z0. pose proof (Z 1 ltac:(cbn; auto)) as Z1. pose proof (Z 2 ltac:(cbn; auto)) as Z2.
      pose proof (Af 0 ltac:(cbn; auto)). pose proof (Af 1 ltac:(cbn; auto)). pose proof (Af 2 ltac:(cbn; auto)). cbn in Bf.
      destruct Ht as [<-|[<-|[<-|[<-|[]]]]], Ht' as [<-|[<-|[<-|[<-|[]]]]]; cbn in Hlt, Df, Dg; try lia; lra. }
    repeat (constructor; [repeat (constructor; [apply Ap; cbn; auto; lia|]); constructor|]). constructor.
Qed.
Lemma red_volume : tdim = 2 -> rsum (map (fun d => area2 (map pl d)) [[0; 4; 5]; [1; 3; 5]; [2; 3; 4]; [3; 4; 5]]) = area2 (map X [0; 1; 2]).
Proof.
  intros ->. cbn [map]. change (place 2 X 0%nat) with (X 0%nat). change (place 2 X 1%nat) with (X 1%nat). change (place 2 X 2%nat) with (X 2%nat).
  assert (P3 : forall c, place 2 X 3%nat c = ((X 1%nat c + X 2%nat c) / 2)%R) by reflexivity.
  assert (P4 : forall c, place 2 X 4%nat c = ((X 0%nat c + X 2%nat c) / 2)%R) by reflexivity.
  assert (P5 : forall c, place 2 X 5%nat c = ((X 0%nat c + X 1%nat c) / 2)%R) by reflexivity.
  assert (Q : forall x y, (x = y / 4 \/ x = - y / 4)%R -> (Rabs x = Rabs y / 4)%R).
  { intros x y H. unfold Rdiv in *. destruct H as [-> | ->]; rewrite Rabs_mult, ?Rabs_Ropp; f_equal; apply Rabs_right; lra. }
  unfold area2. set (d := ((X 1%nat 0%nat - X 0%nat 0%nat) * (X 2%nat 1%nat - X 0%nat 1%nat) - (X 1%nat 1%nat - X 0%nat 1%nat) * (X 2%nat 0%nat - X 0%nat 0%nat))%R).
  unfold rsum. cbn [fold_right]. rewrite !P3, !P4, !P5.
  rewrite (Q (((X 0%nat 0%nat + X 2%nat 0%nat) / 2 - X 0%nat 0%nat) * ((X 0%nat 1%nat + X 1%nat 1%nat) / 2 - X 0%nat 1%nat) - ((X 0%nat 1%nat + X 2%nat 1%nat) / 2 - X 0%nat 1%nat) * ((X 0%nat 0%nat + X 1%nat 0%nat) / 2 - X 0%nat 0%nat))%R d) by (right; unfold d; field).
  rewrite (Q (((X 1%nat 0%nat + X 2%nat 0%nat) / 2 - X 1%nat 0%nat) * ((X 0%nat 1%nat + X 1%nat 1%nat) / 2 - X 1%nat 1%nat) - ((X 1%nat 1%nat + X 2%nat 1%nat) / 2 - X 1%nat 1%nat) * ((X 0%nat 0%nat + X 1%nat 0%nat) / 2 - X 1%nat 0%nat))%R d) by (left; unfold d; field).
  rewrite (Q (((X 1%nat 0%nat + X 2%nat 0%nat) / 2 - X 2%nat 0%nat) * ((X 0%nat 1%nat + X 2%nat 1%nat) / 2 - X 2%nat 1%nat) - ((X 1%nat 1%nat + X 2%nat 1%nat) / 2 - X 2%nat 1%nat) * ((X 0%nat 0%nat + X 2%nat 0%nat) / 2 - X 2%nat 0%nat))%R d) by (right; unfold d; field).
  rewrite (Q (((X 0%nat 0%nat + X 2%nat 0%nat) / 2 - (X 1%nat 0%nat + X 2%nat 0%nat) / 2) * ((X 0%nat 1%nat + X 1%nat 1%nat) / 2 - (X 1%nat 1%nat + X 2%nat 1%nat) / 2) - ((X 0%nat 1%nat + X 2%nat 1%nat) / 2 - (X 1%nat 1%nat + X 2%nat 1%nat) / 2) * ((X 0%nat 0%nat + X 1%nat 0%nat) / 2 - (X 1%nat 0%nat + X 2%nat 0%nat) / 2))%R d) by (left; unfold d; field).
  lra.
Qed.
Lemma red_children C : tdim = 2 -> canon [[0; 4; 5]; [1; 3; 5]; [2; 3; 4]; [3; 4; 5]] = canon C ->
  tiles (map (map pl) C) (map X (seq 0 (S tdim))) /\ (forall t, In t C -> NoDup t) /\
  rsum (map area2 (map (map pl) C)) = area2 (map X (seq 0 (S tdim))).
Proof.
  intros Hd Hc. assert (E : seq 0 (S tdim) = [0; 1; 2]) by now rewrite Hd.
  pose proof seq_place as SP. rewrite E in SP |- *.
  destruct (canon_tiles _ C [0; 1; 2] (red_tl Hd)) as (A & B & _ & D).
  { intros t [<-|[<-|[<-|[<-|[]]]]]; (repeat first [apply NoDup_nil | apply NoDup_cons; [cbn; lia|]]). }
  { exact Hc. }
  split; [rewrite SP; exact A|]. split; [exact B|]. rewrite D. apply red_volume, Hd.
Qed.
End Canon.
