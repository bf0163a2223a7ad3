From Coq Require Import NArith.
From Verif Require Import Base BaseProofs Algo AlgoProofs TransProofs Ranges RangesProofs CellTypes Orient OrientSpec.
Open Scope nat_scope.

(** ** Sorting networks *)

Ltac zcmp := repeat match goal with
  | |- context [(?x <? ?y)%Z] => destruct (Z.ltb_spec x y); try (exfalso; lia)
  | |- context [(?x <=? ?y)%Z] => destruct (Z.leb_spec x y); try (exfalso; lia)
  end.
Ltac ncmp := repeat match goal with
  | |- context [?x <? ?y] => destruct (Nat.ltb_spec x y); try (exfalso; lia)
  end.

(** Positions in increasing order of the three values *)
Definition sigma3 (a b c : Z) : list nat := fst (orient3 0 1 2 a b c).
Lemma orient3_sigma l0 l1 l2 a b c : fst (orient3 l0 l1 l2 a b c) = map (fun i => nth i [l0; l1; l2] 0) (sigma3 a b c).
Proof.
  unfold sigma3, orient3, swap_if.
  destruct (b <? a)%Z; [destruct (c <? a)%Z; [destruct (c <? b)%Z|destruct (a <? b)%Z]|destruct (c <? b)%Z; [destruct (c <? a)%Z|destruct (b <? a)%Z]];
    repeat match goal with |- context [if ?b then _ else _] => destruct b end; reflexivity.
Qed.

Lemma sigma3_cases a b c : a <> b -> b <> c -> a <> c ->
  ((a < b < c)%Z /\ sigma3 a b c = [0; 1; 2]) \/ ((a < c < b)%Z /\ sigma3 a b c = [0; 2; 1]) \/
  ((b < a < c)%Z /\ sigma3 a b c = [1; 0; 2]) \/ ((b < c < a)%Z /\ sigma3 a b c = [1; 2; 0]) \/
  ((c < a < b)%Z /\ sigma3 a b c = [2; 0; 1]) \/ ((c < b < a)%Z /\ sigma3 a b c = [2; 1; 0]).
Proof.
  intros. unfold sigma3, orient3, swap_if.
  destruct (Z.ltb_spec b a), (Z.ltb_spec c b), (Z.ltb_spec c a); try (exfalso; lia); cbn; zcmp; cbn; zcmp; cbn;
    first [left; split; [lia|reflexivity] | right; left; split; [lia|reflexivity] | right; right; left; split; [lia|reflexivity]
          | right; right; right; left; split; [lia|reflexivity] | right; right; right; right; left; split; [lia|reflexivity]
          | right; right; right; right; right; split; [lia|reflexivity]].
Qed.

Lemma orient3_key l0 l1 l2 a b c : snd (orient3 l0 l1 l2 a b c) = isort Nat.leb [l0; l1; l2].
Proof.
  unfold orient3, swap_if.
  destruct (b <? a)%Z; [destruct (c <? a)%Z|destruct (c <? b)%Z];
    repeat match goal with |- context [if (?x <? ?y)%Z then _ else _] => destruct (x <? y)%Z end;
    cbn [isort fold_right insert fst snd];
    repeat match goal with
    | |- context [?x <? ?y] => destruct (Nat.ltb_spec x y); try (exfalso; lia)
    | |- context [?x <=? ?y] => destruct (Nat.leb_spec x y); try (exfalso; lia)
    end; cbn [insert];
    repeat match goal with
    | |- context [?x <? ?y] => destruct (Nat.ltb_spec x y); try (exfalso; lia)
    | |- context [?x <=? ?y] => destruct (Nat.leb_spec x y); try (exfalso; lia)
    end; cbn [snd]; repeat f_equal; lia.
Qed.

(** The permutation chosen for a quadrilateral *)
Definition sigma4 (g : list Z) : option (list nat) :=
  perm <- network (fun i j => (nth j g 0%Z <? nth i g 0%Z)%Z) [0; 1; 2; 3] ;;
  min_vertex_idx <- nth_error perm 0 ;;
  it <- index_in (3 - min_vertex_idx) perm ;;
  rotate_out it perm.

Lemma sigma4_cases a b c d : NoDup [a; b; c; d] ->
  exists s, sigma4 [a; b; c; d] = Some s /\
    ((a < b /\ a < c /\ a < d /\ b < c)%Z /\ s = [0; 1; 2; 3] \/ (a < b /\ a < c /\ a < d /\ c < b)%Z /\ s = [0; 2; 1; 3] \/
     (b < a /\ b < c /\ b < d /\ a < d)%Z /\ s = [1; 0; 3; 2] \/ (b < a /\ b < c /\ b < d /\ d < a)%Z /\ s = [1; 3; 0; 2] \/
     (c < a /\ c < b /\ c < d /\ a < d)%Z /\ s = [2; 0; 3; 1] \/ (c < a /\ c < b /\ c < d /\ d < a)%Z /\ s = [2; 3; 0; 1] \/
     (d < a /\ d < b /\ d < c /\ b < c)%Z /\ s = [3; 1; 2; 0] \/ (d < a /\ d < b /\ d < c /\ c < b)%Z /\ s = [3; 2; 1; 0]).
Proof.
  intros H.
  assert (a <> b /\ a <> c /\ a <> d /\ b <> c /\ b <> d /\ c <> d) as H'
    by (apply NoDup_cons_iff in H as [N1 H]; apply NoDup_cons_iff in H as [N2 H]; apply NoDup_cons_iff in H as [N3 H]; cbn in N1, N2, N3; repeat split; intros ->; tauto).
  clear H. unfold sigma4, network. cbn [ofold fst snd]. unfold cmpswap at 1. cbn [nth_error obind nth].
  destruct (Z.ltb_spec b a); cbn [upd obind];
  unfold cmpswap at 1; cbn [nth_error obind nth]; destruct (Z.ltb_spec d c); cbn [upd obind];
  unfold cmpswap at 1; cbn [nth_error obind nth]; zcmp; cbn [upd obind];
  unfold cmpswap at 1; cbn [nth_error obind nth]; zcmp; cbn [upd obind];
  unfold cmpswap at 1; cbn [nth_error obind nth]; zcmp; cbn [upd obind];
  cbn; eexists; (split; [reflexivity|]);
  first [left; split; [lia|reflexivity] | right; left; split; [lia|reflexivity]
    | do 2 right; left; split; [lia|reflexivity] | do 3 right; left; split; [lia|reflexivity]
    | do 4 right; left; split; [lia|reflexivity] | do 5 right; left; split; [lia|reflexivity]
    | do 6 right; left; split; [lia|reflexivity] | do 7 right; split; [lia|reflexivity] | idtac].
Qed.

Lemma network_sorts w x y z : network (fun a b => b <? a) [w; x; y; z] = Some (isort Nat.leb [w; x; y; z]).
Proof.
  unfold network. cbn [ofold fst snd].
  Ltac nc := repeat match goal with
    | |- context [?x <? ?y] => destruct (Nat.ltb_spec x y); try (exfalso; lia)
    end.
  unfold cmpswap at 1; cbn [nth_error obind]; nc; cbn [upd obind];
  unfold cmpswap at 1; cbn [nth_error obind]; nc; cbn [upd obind];
  unfold cmpswap at 1; cbn [nth_error obind]; nc; cbn [upd obind];
  unfold cmpswap at 1; cbn [nth_error obind]; nc; cbn [upd obind];
  unfold cmpswap at 1; cbn [nth_error obind]; nc; cbn [upd obind];
  cbn [isort fold_right insert];
  repeat (repeat match goal with |- context [?x <=? ?y] => destruct (Nat.leb_spec x y); try (exfalso; lia) end; cbn [insert]);
  repeat f_equal; lia.
Qed.

(** ** Rotations and reflections *)

Definition at3 {A} (a b c d : A) (i : nat) : A := match i with 0 => a | 1 => b | 2 => c | _ => d end.

Lemma to_int_id z : (-2147483648 <= z < 2147483648)%Z -> to_int z = z.
Proof. intros H. unfold to_int. rewrite Z.mod_small; lia. Qed.

Ltac crunch := repeat (cbn [argmin argmin_from obind option_map nth_error Nat.add Nat.modulo Nat.divmod snd fst Nat.sub map at3 andb orb Nat.eqb]; 
  match goal with
  | |- context [(?x <? ?y)%Z] => destruct (Z.ltb_spec x y); try (exfalso; lia)
  | |- context [?x <? ?y] => destruct (Nat.ltb_spec x y); try (exfalso; lia)
  end).

Lemma tri_core i j k a b c : i < j -> j < k -> a <> b -> b <> c -> a <> c ->
  (forall x, In x [a; b; c] -> (0 <= x < 2147483648)%Z) ->
  exists r n, triangle_rot_reflect (map (at3 i j k k) (sigma3 a b c)) (map (at3 a b c c) (sigma3 a b c)) = Some (r, n) /\
    n < 4 /\ turn r n [a; b; c] = map (at3 a b c c) (sigma3 a b c).
Proof.
  intros Hij Hjk Hab Hbc Hac Hr.
  pose proof (to_int_id a ltac:(specialize (Hr a); cbn in Hr; lia)) as Ea.
  pose proof (to_int_id b ltac:(specialize (Hr b); cbn in Hr; lia)) as Eb.
  pose proof (to_int_id c ltac:(specialize (Hr c); cbn in Hr; lia)) as Ec. clear Hr.
  unfold triangle_rot_reflect.
  destruct (sigma3_cases a b c Hab Hbc Hac) as [[O ->]|[[O ->]|[[O ->]|[[O ->]|[[O ->]|[O ->]]]]]];
    cbn [map at3]; crunch; cbn; rewrite ?Ea, ?Eb, ?Ec; crunch; cbn;
    do 2 eexists; (split; [reflexivity|]); split; try lia; reflexivity.
Qed.

Lemma quad_core i j k l a b c d s : i < j -> j < k -> k < l -> NoDup [a; b; c; d] -> sigma4 [a; b; c; d] = Some s ->
  exists r n, quad_rot_reflect (map (at3 i j k l) s) (map (at3 a b c d) s) = Some (r, n) /\
    n < 4 /\ turn r n [a; b; c; d] = map (at3 a b c d) s.
Proof.
  intros Hij Hjk Hkl ND Es. destruct (sigma4_cases a b c d ND) as (s' & Es' & Hs).
  assert (s' = s) as -> by congruence. clear Es Es' ND. unfold quad_rot_reflect.
  destruct Hs as [[O ->]|[[O ->]|[[O ->]|[[O ->]|[[O ->]|[[O ->]|[[O ->]|[O ->]]]]]]]];
    cbn [map at3]; crunch; cbn; crunch; cbn;
    do 2 eexists; (split; [reflexivity|]); split; try lia; reflexivity.
Qed.

(** ** Entities of a cell *)

Lemma ne_lt {A} (l : list A) i x : nth_error l i = Some x -> i < length l.
Proof. intros H. apply nth_error_Some. congruence. Qed.

Lemma omap_nth {A B} (f : A -> option B) l r i : omap f l = Some r ->
  nth_error r i = x <- nth_error l i ;; f x.
Proof.
  revert r i. induction l as [|x t IH]; intros r i; cbn [omap].
  - intros [= <-]. destruct i; reflexivity.
  - destruct (f x) as [y|] eqn:E; [|discriminate]. cbn [obind]. destruct (omap f t) as [ys|] eqn:Et; [|discriminate].
    cbn [obind]. intros [= <-]. destruct i; cbn [nth_error obind]; [now rewrite E|]. now apply IH.
Qed.
Lemma omap_len {A B} (f : A -> option B) l r : omap f l = Some r -> length r = length l.
Proof.
  revert r. induction l as [|x t IH]; intros r; cbn [omap]; [intros [= <-]; reflexivity|].
  destruct (f x); [|discriminate]. cbn [obind]. destruct (omap f t) eqn:Et; [|discriminate].
  intros [= <-]. cbn. f_equal. now apply IH.
Qed.

Lemma zfind_nth g i x : NoDup g -> nth_error g i = Some x -> zfind x g = i.
Proof.
  revert i. induction g as [|y t IH]; intros i ND Hi; [destruct i; discriminate|].
  apply NoDup_cons_iff in ND as [Ny ND]. destruct i as [|i]; cbn [nth_error] in Hi; cbn [zfind].
  - injection Hi as ->. now rewrite Z.eqb_refl.
  - destruct (Z.eqb_spec x y) as [E|]; [|f_equal; now apply IH].
    subst y. apply nth_error_In in Hi. contradiction.
Qed.

Section CellView.
Variables (l2g : nat -> option Z) (cv : list nat) (g : list Z).
Hypothesis (Hg : omap l2g cv = Some g) (ND : NoDup g).

Lemma view_at i : i < length g -> exists li gi, nth_error cv i = Some li /\ l2g li = Some gi /\ nth_error g i = Some gi /\ zfind gi g = i.
Proof.
  intros Hi. pose proof (omap_nth _ _ _ i Hg) as E. destruct (nth_error g i) as [gi|] eqn:Ei; [|apply nth_error_None in Ei; lia].
  destruct (nth_error cv i) as [li|]; [|discriminate]. cbn [obind] in E. exists li, gi. repeat split; auto. now apply zfind_nth.
Qed.
Lemma view_inj i j x : nth_error g i = Some x -> nth_error g j = Some x -> i = j.
Proof. intros Hi Hj. apply (zfind_nth g i x ND) in Hi. apply (zfind_nth g j x ND) in Hj. congruence. Qed.

(** What the face functions see for an entity with local vertices [ev] *)
Definition seen (vs : list Z) (ev : list nat) (r : bool) (n : nat) : Prop :=
  n < 4 /\ forallb (fun e => e <? length g) (map (fun v => zfind v g) vs) = true /\
  turn r n (map (fun i => nth i g 0%Z) ev) = vs.

Lemma edge_view i j el key : i < j -> j < length g -> build_entity l2g Interval [i; j] cv = Some (el, key) ->
  exists v0 v1, omap l2g el = Some [v0; v1] /\ (v0 < v1)%Z /\
    (let r := Bool.eqb (zfind v1 g <? zfind v0 g) (v0 <? v1)%Z in seen [v0; v1] [i; j] r 0).
Proof.
  intros Hij Hj. destruct (view_at i ltac:(lia)) as (li & a & Ci & La & Ga & Za), (view_at j Hj) as (lj & b & Cj & Lb & Gb & Zb).
  assert (a <> b) as Nab by (intros ->; pose proof (view_inj i j b Ga Gb); lia).
  unfold build_entity. cbn [omap]. rewrite Ci, Cj. cbn [obind]. cbn [omap]. rewrite La, Lb. cbn [obind].
  change (num_cell_vertices Interval) with 2. cbv iota. unfold orient2.
  assert (map (fun i => nth i g 0%Z) [i; j] = [a; b]) as Hv by (cbn; now rewrite (nth_error_nth _ _ _ Ga), (nth_error_nth _ _ _ Gb)).
  unfold seen. rewrite Hv.
  destruct (Z.leb_spec a b); intros [= <- _].
  - exists a, b. cbn [omap]. rewrite La, Lb. cbn [obind]. rewrite Za, Zb. repeat split; auto; try lia.
    + cbn. rewrite Za, Zb. apply andb_true_intro; split; [|apply andb_true_intro; split; [|reflexivity]]; apply Nat.ltb_lt; lia.
    + destruct (Nat.ltb_spec j i); [lia|]. destruct (Z.ltb_spec a b); [reflexivity|lia].
  - exists b, a. cbn [omap]. rewrite La, Lb. cbn [obind]. rewrite Za, Zb. repeat split; auto; try lia.
    + cbn. rewrite Za, Zb. apply andb_true_intro; split; [|apply andb_true_intro; split; [|reflexivity]]; apply Nat.ltb_lt; lia.
    + destruct (Nat.ltb_spec i j); [|lia]. destruct (Z.ltb_spec b a); [reflexivity|lia].
Qed.

Lemma tri_view i j k el key : i < j -> j < k -> k < length g -> Forall (fun v => (0 <= v < 2147483648)%Z) g ->
  build_entity l2g Triangle [i; j; k] cv = Some (el, key) ->
  exists vs r n, omap l2g el = Some vs /\ triangle_rot_reflect (map (fun v => zfind v g) vs) vs = Some (r, n) /\ seen vs [i; j; k] r n.
Proof.
  intros Hij Hjk Hk Hr.
  destruct (view_at i ltac:(lia)) as (li & a & Ci & La & Ga & Za), (view_at j ltac:(lia)) as (lj & b & Cj & Lb & Gb & Zb), (view_at k Hk) as (lk & c & Ck & Lc & Gc & Zc).
  assert (a <> b) as Nab by (intros ->; pose proof (view_inj i j b Ga Gb); lia).
  assert (b <> c) as Nbc by (intros ->; pose proof (view_inj j k c Gb Gc); lia).
  assert (a <> c) as Nac by (intros ->; pose proof (view_inj i k c Ga Gc); lia).
  unfold build_entity. cbn [omap]. rewrite Ci, Cj, Ck. cbn [obind]. cbn [omap]. rewrite La, Lb, Lc. cbn [obind].
  change (num_cell_vertices Triangle) with 3. cbv iota. intros [= E].
  assert (el = fst (orient3 li lj lk a b c)) as -> by now rewrite E. clear E. rewrite orient3_sigma.
  destruct (tri_core i j k a b c Hij Hjk Nab Nbc Nac) as (r & n & Hc & Hn & Ht).
  { intros x Hx. rewrite Forall_forall in Hr. apply Hr. cbn in Hx. destruct Hx as [<-|[<-|[<-|[]]]]; eapply nth_error_In; eassumption. }
  exists (map (at3 a b c c) (sigma3 a b c)), r, n.
  assert (map (fun i => nth i g 0%Z) [i; j; k] = [a; b; c]) as Hv
    by (cbn; now rewrite (nth_error_nth _ _ _ Ga), (nth_error_nth _ _ _ Gb), (nth_error_nth _ _ _ Gc)).
  assert (map (fun v => zfind v g) (map (at3 a b c c) (sigma3 a b c)) = map (at3 i j k k) (sigma3 a b c)) as Hz
    by (destruct (sigma3_cases a b c Nab Nbc Nac) as [[O ->]|[[O ->]|[[O ->]|[[O ->]|[[O ->]|[O ->]]]]]]; cbn [map at3]; now rewrite ?Za, ?Zb, ?Zc).
  split; [|split; [|split; [|split]]].
  - destruct (sigma3_cases a b c Nab Nbc Nac) as [[O ->]|[[O ->]|[[O ->]|[[O ->]|[[O ->]|[O ->]]]]]]; cbn [map at3 nth omap]; rewrite La, Lb, Lc; reflexivity.
  - now rewrite Hz.
  - exact Hn.
  - rewrite Hz. apply forallb_forall. intros x Hx. apply Nat.ltb_lt.
    destruct (sigma3_cases a b c Nab Nbc Nac) as [[O E]|[[O E]|[[O E]|[[O E]|[[O E]|[O E]]]]]]; rewrite E in Hx; cbn in Hx; lia.
  - now rewrite Hv.
Qed.

Lemma quad_view i j k l el key : i < j -> j < k -> k < l -> l < length g ->
  build_entity l2g Quadrilateral [i; j; k; l] cv = Some (el, key) ->
  exists vs r n, omap l2g el = Some vs /\ quad_rot_reflect (map (fun v => zfind v g) vs) vs = Some (r, n) /\ seen vs [i; j; k; l] r n.
Proof.
  intros Hij Hjk Hkl Hl.
  destruct (view_at i ltac:(lia)) as (li & a & Ci & La & Ga & Za), (view_at j ltac:(lia)) as (lj & b & Cj & Lb & Gb & Zb),
    (view_at k ltac:(lia)) as (lk & c & Ck & Lc & Gc & Zc), (view_at l Hl) as (ll & d & Cl & Ld & Gd & Zd).
  assert (NoDup [a; b; c; d]) as NDv.
  { assert (forall p q x y, nth_error g p = Some x -> nth_error g q = Some y -> p <> q -> x <> y) as Hd
      by (intros p q x y Hp Hq Npq ->; apply Npq; exact (view_inj p q y Hp Hq)).
    pose proof (Hd _ _ _ _ Ga Gb ltac:(lia)). pose proof (Hd _ _ _ _ Ga Gc ltac:(lia)). pose proof (Hd _ _ _ _ Ga Gd ltac:(lia)).
    pose proof (Hd _ _ _ _ Gb Gc ltac:(lia)). pose proof (Hd _ _ _ _ Gb Gd ltac:(lia)). pose proof (Hd _ _ _ _ Gc Gd ltac:(lia)).
    repeat first [apply NoDup_nil | apply NoDup_cons; [cbn; intuition congruence|]]. }
  unfold build_entity. cbn [omap]. rewrite Ci, Cj, Ck, Cl. cbn [obind]. cbn [omap]. rewrite La, Lb, Lc, Ld. cbn [obind].
  change (num_cell_vertices Quadrilateral) with 4. cbv iota. change (cell_eqb Quadrilateral Quadrilateral) with true.
  destruct (sigma4_cases a b c d NDv) as (s & Es & Hs).
  unfold orient4. change (negb (length [li; lj; lk; ll] =? 4)) with false. cbv iota.
  assert (forall A (f : list nat -> option A), (perm <- network (fun i j => (nth j [a; b; c; d] 0%Z <? nth i [a; b; c; d] 0%Z)%Z) [0; 1; 2; 3] ;;
    perm <- (min_vertex_idx <- nth_error perm 0 ;; it <- index_in (3 - min_vertex_idx) perm ;; rotate_out it perm) ;; f perm) = f s) as Hf.
  { intros A f. unfold sigma4 in Es. destruct (network _ _) as [p|]; [|discriminate]. cbn [obind] in *. rewrite Es. reflexivity. }
  rewrite Hf. clear Hf. intros He.
  destruct (quad_core i j k l a b c d s Hij Hjk Hkl NDv Es) as (r & n & Hc & Hn & Ht).
  exists (map (at3 a b c d) s), r, n.
  assert (omap (nth_error [li; lj; lk; ll]) s = Some el) as Hel.
  { destruct (omap (nth_error [li; lj; lk; ll]) s) as [el'|]; [|discriminate]. cbn [obind] in He. destruct (network _ el') eqn:En; [|discriminate]. cbn [obind] in He. congruence. }
  clear He.
  assert (map (fun i => nth i g 0%Z) [i; j; k; l] = [a; b; c; d]) as Hv
    by (cbn; now rewrite (nth_error_nth _ _ _ Ga), (nth_error_nth _ _ _ Gb), (nth_error_nth _ _ _ Gc), (nth_error_nth _ _ _ Gd)).
  assert (map (fun v => zfind v g) (map (at3 a b c d) s) = map (at3 i j k l) s) as Hz
    by (destruct Hs as [[O ->]|[[O ->]|[[O ->]|[[O ->]|[[O ->]|[[O ->]|[[O ->]|[O ->]]]]]]]]; cbn [map at3]; now rewrite ?Za, ?Zb, ?Zc, ?Zd).
  split; [|split; [|split; [|split]]].
  - destruct Hs as [[O ->]|[[O ->]|[[O ->]|[[O ->]|[[O ->]|[[O ->]|[[O ->]|[O ->]]]]]]]]; cbn in Hel; injection Hel as <-; cbn [omap map at3]; rewrite La, Lb, Lc, Ld; reflexivity.
  - now rewrite Hz.
  - exact Hn.
  - rewrite Hz. apply forallb_forall. intros x Hx. apply Nat.ltb_lt.
    destruct Hs as [[O E]|[[O E]|[[O E]|[[O E]|[[O E]|[[O E]|[[O E]|[O E]]]]]]]]; rewrite E in Hx; cbn in Hx; lia.
  - now rewrite Hv.
Qed.
End CellView.

(** ** Loops over entities and cells *)

Lemma enum_ind {S A} (f : S -> nat * A -> option S) (Inv : nat -> S -> Prop) l s :
  Inv 0 s -> (forall i a s, nth_error l i = Some a -> Inv i s -> exists s', f s (i, a) = Some s' /\ Inv (Datatypes.S i) s') ->
  exists s', ofold f (combine (seq 0 (length l)) l) s = Some s' /\ Inv (length l) s'.
Proof.
  intros H0 Hs.
  destruct (ofold_prefix_ind f (fun p s => Inv (length p) s) (combine (seq 0 (length l)) l) s H0) as (s' & E & HI).
  - intros p [i a] q s1 El HI.
    assert (nth_error (combine (seq 0 (length l)) l) (length p) = Some (i, a)) as Hp
      by (rewrite El, nth_error_app2 by lia; now rewrite Nat.sub_diag).
    rewrite combine_nth_error in Hp. destruct (nth_error (seq 0 (length l)) (length p)) as [i'|] eqn:Ei; [|discriminate].
    destruct (nth_error l (length p)) as [a'|] eqn:Ea; [|discriminate]. injection Hp as -> ->.
    assert (i = length p) as ->.
    { pose proof (nth_error_nth _ _ 0 Ei) as E2. rewrite seq_nth in E2; [lia|].
      rewrite <- (seq_length (length l) 0). apply nth_error_Some. congruence. }
    destruct (Hs (length p) a s1 Ea HI) as (s2 & E2 & H2). exists s2. split; [exact E2|].
    rewrite app_length. cbn. replace (length p + 1) with (Datatypes.S (length p)) by lia. exact H2.
  - exists s'. split; [exact E|]. rewrite combine_length, seq_length, Nat.min_id in HI. exact HI.
Qed.
Lemma seq_ind {S} (f : S -> nat -> option S) (Inv : nat -> S -> Prop) n s :
  Inv 0 s -> (forall i s, i < n -> Inv i s -> exists s', f s i = Some s' /\ Inv (Datatypes.S i) s') ->
  exists s', ofold f (seq 0 n) s = Some s' /\ Inv n s'.
Proof.
  intros H0 Hs.
  destruct (ofold_prefix_ind f (fun p s => Inv (length p) s) (seq 0 n) s H0) as (s' & E & HI).
  - intros p i q s1 El HI.
    assert (nth_error (seq 0 n) (length p) = Some i) as Hp by (rewrite El, nth_error_app2 by lia; now rewrite Nat.sub_diag).
    assert (length p < n) by (rewrite <- (seq_length n 0); apply nth_error_Some; congruence).
    pose proof (nth_error_nth _ _ 0 Hp) as E2. rewrite seq_nth in E2 by lia. cbn in E2. subst i.
    destruct (Hs (length p) s1 ltac:(lia) HI) as (s2 & E2 & H2). exists s2. split; [exact E2|].
    rewrite app_length. cbn. replace (length p + 1) with (Datatypes.S (length p)) by lia. exact H2.
  - exists s'. split; [exact E|]. now rewrite seq_length in HI.
Qed.

Lemma cell_fold f cells fp : NoDup cells ->
  (forall c, In c cells -> exists b b', nth_error fp c = Some b /\ f c b = Some b') ->
  exists fp', ofold (cell_step f) cells fp = Some fp' /\ length fp' = length fp /\
    (forall c b, In c cells -> nth_error fp c = Some b -> nth_error fp' c = f c b) /\
    (forall c, ~ In c cells -> nth_error fp' c = nth_error fp c).
Proof.
  revert fp. induction cells as [|c t IH]; intros fp ND H; cbn [ofold].
  - exists fp. repeat split; auto. intros c b [].
  - apply NoDup_cons_iff in ND as [Nc ND]. destruct (H c (or_introl eq_refl)) as (b & b' & Eb & Eb').
    unfold cell_step at 1. rewrite Eb. cbn [obind]. rewrite Eb'. cbn [obind].
    destruct (upd_some fp c b') as (fp1 & E1); [apply nth_error_Some; congruence|]. rewrite E1. cbn [obind].
    pose proof (upd_length _ _ _ _ E1) as L1.
    destruct (IH fp1 ND) as (fp' & E & L & Hin & Hout).
    { intros c' Hc'. destruct (H c' (or_intror Hc')) as (x & x' & Ex & Ex'). exists x, x'. split; [|exact Ex'].
      rewrite (upd_nth_neq _ _ _ c' _ E1); [exact Ex|]. intros ->. contradiction. }
    exists fp'. split; [exact E|]. split; [congruence|]. split.
    + intros c' x Hc' Ex. destruct (in_dec Nat.eq_dec c' t) as [Ht|Nt].
      * apply Hin; [exact Ht|]. rewrite (upd_nth_neq _ _ _ c' _ E1); [exact Ex|]. intros ->. contradiction.
      * destruct Hc' as [<-|]; [|contradiction]. rewrite (Hout c Nt), (upd_nth_eq _ _ _ _ E1). congruence.
    + intros c' Nc'. rewrite Hout by (intros X; apply Nc'; now right). apply (upd_nth_neq _ _ _ c' _ E1).
      intros ->. apply Nc'. now left.
Qed.

Lemma thread_cells_perm n threads : 0 < threads -> Permutation (thread_cells n threads) (seq 0 n).
Proof.
  intros HT. unfold thread_cells.
  set (rng := fun i => let '(a, b) := local_range (Z.of_nat i) (Z.of_nat n) (Z.of_nat threads) in seq (Z.to_nat a) (Z.to_nat b - Z.to_nat a)).
  assert (forall k, k <= threads -> (0 <= fst (local_range (Z.of_nat k) (Z.of_nat n) (Z.of_nat threads)))%Z /\
            concat (map rng (seq 0 k)) = seq 0 (Z.to_nat (fst (local_range (Z.of_nat k) (Z.of_nat n) (Z.of_nat threads))))) as Hk.
  { induction k as [|k IH]; intros Hk.
    - change (Z.of_nat 0) with 0%Z. rewrite local_range_first by lia. split; [lia|reflexivity].
    - destruct (IH ltac:(lia)) as [I1 I2]. rewrite seq_S, map_app, concat_app, I2. cbn [map concat Nat.add].
      pose proof (local_range_consecutive (Z.of_nat k) (Z.of_nat n) (Z.of_nat threads) ltac:(lia) ltac:(lia) ltac:(lia)) as Hc.
      pose proof (local_range_length (Z.of_nat k) (Z.of_nat n) (Z.of_nat threads) ltac:(lia) ltac:(lia)) as Hl.
      replace (Z.of_nat (S k)) with (Z.of_nat k + 1)%Z by lia. rewrite <- Hc. unfold rng.
      assert (0 <= Z.of_nat n / Z.of_nat threads)%Z by (apply Z.div_pos; lia).
      destruct (local_range (Z.of_nat k) (Z.of_nat n) (Z.of_nat threads)) as [a b]. cbn [fst snd] in *. split; [lia|].
      rewrite app_nil_r. pose proof (seq_app (Z.to_nat a) (Z.to_nat b - Z.to_nat a) 0) as Q. cbn [Nat.add] in Q. rewrite <- Q. f_equal. lia. }
  assert (concat (map rng (seq 0 threads)) = seq 0 n) as Hall.
  { destruct (Hk threads (le_n _)) as [_ ->].
    replace (Z.of_nat threads) with (Z.of_nat threads - 1 + 1)%Z at 1 by lia.
    rewrite <- local_range_consecutive by lia. rewrite local_range_last by lia. now rewrite Nat2Z.id. }
  rewrite <- Hall. destruct threads as [|m]; [lia|]. cbn [Nat.sub]. rewrite Nat.sub_0_r.
  change (seq 0 (S m)) with (0 :: seq 1 m). rewrite map_app, concat_app. cbn [map concat]. rewrite app_nil_r.
  apply Permutation_app_comm.
Qed.

(** ** Bits *)

Definition field (bits : list bool) (f : nat) : bool * bool * bool :=
  (nth (3 * f) bits false, nth (3 * f + 1) bits false, nth (3 * f + 2) bits false).
Definition code (r : bool) (n : nat) : bool * bool * bool := (r, n mod 2 =? 1, negb (n / 2 =? 0)).

Lemma upd_nthd {A} (l l' : list A) i j v d : upd l i v = Some l' -> nth j l' d = if i =? j then v else nth j l d.
Proof.
  intros H. rewrite <- !(nth_default_eq). unfold nth_default. rewrite (upd_nth _ _ _ j _ H). now destruct (i =? j).
Qed.

Lemma face_step_ok T ft g fv idx bits j id el vs r n f :
  nth_error fv id = Some el -> omap (t_l2g T) el = Some vs ->
  forallb (fun e => e <? length g) (map (fun v => zfind v g) vs) = true ->
  (if cell_eqb ft Triangle then triangle_rot_reflect (map (fun v => zfind v g) vs) vs else quad_rot_reflect (map (fun v => zfind v g) vs) vs) = Some (r, n) ->
  nth_error idx j = Some f -> 3 * f + 2 < length bits ->
  exists bits', face_step T ft g fv idx bits (j, id) = Some bits' /\ length bits' = length bits /\ field bits' f = code r n /\
    forall f', f' <> f -> field bits' f' = field bits f'.
Proof.
  intros Efv Evs Hall Hr Hj Hf. unfold face_step. cbn [fst snd]. rewrite Efv. cbn [obind]. rewrite Evs. cbn [obind].
  rewrite Hall. cbn [negb]. cbv iota. rewrite Hr. cbn [obind]. rewrite Hj. cbn [obind].
  destruct (upd_some bits (3 * f) r ltac:(lia)) as (b1 & E1). rewrite E1. cbn [obind]. pose proof (upd_length _ _ _ _ E1) as L1.
  destruct (upd_some b1 (3 * f + 1) (n mod 2 =? 1) ltac:(lia)) as (b2 & E2). rewrite E2. cbn [obind]. pose proof (upd_length _ _ _ _ E2) as L2.
  destruct (upd_some b2 (3 * f + 2) (negb (n / 2 =? 0)) ltac:(lia)) as (b3 & E3). rewrite E3. pose proof (upd_length _ _ _ _ E3) as L3.
  exists b3. split; [reflexivity|]. split; [congruence|].
  assert (forall k, nth k b3 false = if 3 * f + 2 =? k then negb (n / 2 =? 0) else if 3 * f + 1 =? k then n mod 2 =? 1 else if 3 * f =? k then r else nth k bits false) as Hk.
  { intros k. rewrite (upd_nthd _ _ _ k _ _ E3), (upd_nthd _ _ _ k _ _ E2), (upd_nthd _ _ _ k _ _ E1). reflexivity. }
  split.
  - unfold field, code. rewrite !Hk.
    repeat match goal with |- context [?x =? ?y] => match x with context [f] => destruct (Nat.eqb_spec x y); try (exfalso; lia) end end. reflexivity.
  - intros f' Nf. unfold field. rewrite !Hk.
    repeat match goal with |- context [?x =? ?y] => match x with context [f] => destruct (Nat.eqb_spec x y); try (exfalso; lia) end end. reflexivity.
Qed.

Lemma testbit_to_ulong bits i : N.testbit (to_ulong bits) (N.of_nat i) = nth i bits false.
Proof.
  revert i. induction bits as [|b t IH]; intros i.
  - destruct i; [reflexivity|apply N.bits_0].
  - change (to_ulong (b :: t)) with (N.b2n b + 2 * to_ulong t)%N. rewrite N.add_comm.
    destruct i as [|i]; cbn [nth].
    + change (N.of_nat 0) with 0%N. apply N.testbit_0_r.
    + rewrite Nat2N.inj_succ, N.testbit_succ_r. apply IH.
Qed.
Lemma to_ulong_bound bits : (to_ulong bits < 2 ^ N.of_nat (length bits))%N.
Proof.
  induction bits as [|b t IH]; [reflexivity|].
  change (to_ulong (b :: t)) with (N.b2n b + 2 * to_ulong t)%N. cbn [length]. rewrite Nat2N.inj_succ, N.pow_succ_r'.
  destruct b; cbn [N.b2n]; lia.
Qed.
Lemma land3 x i : N.land (N.shiftr x i) 3 = (N.b2n (N.testbit x i) + 2 * N.b2n (N.testbit x (i + 1)))%N.
Proof.
  change 3%N with (N.ones 2). rewrite N.land_ones. change (2 ^ 2)%N with (2 * 2)%N. rewrite N.mod_mul_r by lia.
  rewrite <- (N.bit0_mod (N.shiftr x i)), N.shiftr_spec', N.add_0_l. f_equal. f_equal.
  rewrite <- N.bit0_mod. rewrite <- N.div2_div, N.div2_spec, !N.shiftr_spec', N.add_0_l. f_equal. f_equal. lia.
Qed.
Lemma code_rots r n : n < 4 -> N.to_nat (N.b2n (snd (fst (code r n))) + 2 * N.b2n (snd (code r n))) = n.
Proof. intros H. do 4 (destruct n as [|n]; [reflexivity|]). lia. Qed.

(** ** Faces of the mesh *)

Lemma face_shape t ft f : cell_dim t = 3 -> (ft = Triangle \/ ft = Quadrilateral) -> In f (face_type_indices t ft) ->
  f < num_faces t /\ num_faces t <= 6 /\
  ((ft = Triangle /\ exists i j k, sub_vertices t 2 f = [i; j; k] /\ i < j /\ j < k /\ k < num_cell_vertices t) \/
   (ft = Quadrilateral /\ exists i j k l, sub_vertices t 2 f = [i; j; k; l] /\ i < j /\ j < k /\ k < l /\ l < num_cell_vertices t)).
Proof.
  intros D [-> | ->] Hf; destruct t; try discriminate D; vm_compute in Hf;
    repeat (destruct Hf as [<-|Hf]; [split; [vm_compute; lia|]; split; [vm_compute; lia|]|]); try contradiction;
    first [left; split; [reflexivity|]; do 3 eexists; split; [vm_compute; reflexivity|]; vm_compute; lia
          | right; split; [reflexivity|]; do 4 eexists; split; [vm_compute; reflexivity|]; vm_compute; lia].
Qed.
Lemma face_idx_NoDup t ft : NoDup (face_type_indices t ft).
Proof. unfold face_type_indices. destruct (cell_num_entities t 2); [apply NoDup_filter, seq_NoDup|constructor]. Qed.
Lemma face_idx_disjoint t ft ft' f : In f (face_type_indices t ft) -> In f (face_type_indices t ft') -> ft = ft'.
Proof.
  unfold face_type_indices. destruct (cell_num_entities t 2); [|intros []].
  rewrite !filter_In. intros [_ H1] [_ H2]. unfold cell_eqb in *. apply Z.eqb_eq in H1, H2. rewrite <- H2 in H1.
  destruct ft, ft'; first [reflexivity | discriminate H1].
Qed.
(* the remaining faces of a three-dimensional cell are triangles or quadrilaterals *)
Lemma face_idx_all t f : cell_dim t = 3 -> f < num_faces t -> In f (face_type_indices t (cell_facet_type t f)).
Proof.
  intros D Hf. destruct t; try discriminate D; vm_compute in Hf; do 6 (destruct f as [|f]; [vm_compute; lia|]); lia.
Qed.

Section Sched.
Variables (threads : nat) (sched : list nat -> list nat).
Hypothesis Ht : 0 < threads.
Hypothesis Hsched : forall l, Permutation (sched l) l.
Lemma sched_cells n c : (In c (sched (thread_cells n threads)) <-> c < n) .
Proof.
  split; intros H.
  - apply (Permutation_in _ (Permutation_trans (Hsched _) (thread_cells_perm n threads Ht))) in H. apply in_seq in H. lia.
  - apply (Permutation_in _ (Permutation_sym (Permutation_trans (Hsched _) (thread_cells_perm n threads Ht)))). apply in_seq. lia.
Qed.
Lemma sched_NoDup n : NoDup (sched (thread_cells n threads)).
Proof. eapply Permutation_NoDup; [symmetry; exact (Permutation_trans (Hsched _) (thread_cells_perm n threads Ht))|apply seq_NoDup]. Qed.

End Sched.

Section Faces.
Variable T : topo.
Hypothesis OK : topo_ok (2 ^ 31) T.
Definition cell_ok (c : nat) (cv : list nat) (g : list Z) : Prop :=
  nth_error (t_cv T) c = Some cv /\ omap (t_l2g T) cv = Some g.
Lemma cell_ok_g c cv g : cell_ok c cv g -> length g = num_cell_vertices (t_type T) /\ NoDup g /\ Forall (fun v => (0 <= v < 2147483648)%Z) g.
Proof. intros [H1 H2]. destruct (ok_cells _ T OK c cv H1) as (g' & E & H). assert (g' = g) as -> by congruence. exact H. Qed.

Lemma cells_valid c : c < length (t_cv T) -> exists cv g, cell_ok c cv g.
Proof.
  intros Hc. destruct (nth_error (t_cv T) c) as [cv|] eqn:E; [|apply nth_error_None in E; lia].
  destruct (ok_cells _ T OK c cv E) as (g & Eg & _). exists cv, g. now split.
Qed.

Hypothesis D3 : cell_dim (t_type T) = 3.
Definition face_fin (cv : list nat) (g : list Z) (ft : cell_type) (f : nat) (bits : list bool) : Prop :=
  exists el key vs r n, build_entity (t_l2g T) ft (sub_vertices (t_type T) 2 f) cv = Some (el, key) /\ omap (t_l2g T) el = Some vs /\
    seen g vs (sub_vertices (t_type T) 2 f) r n /\ field bits f = code r n.

Lemma face_view c cv g ft f el key : cell_ok c cv g -> (ft = Triangle \/ ft = Quadrilateral) -> In f (face_type_indices (t_type T) ft) ->
  build_entity (t_l2g T) ft (sub_vertices (t_type T) 2 f) cv = Some (el, key) ->
  exists vs r n, omap (t_l2g T) el = Some vs /\
    (if cell_eqb ft Triangle then triangle_rot_reflect (map (fun v => zfind v g) vs) vs else quad_rot_reflect (map (fun v => zfind v g) vs) vs) = Some (r, n) /\
    seen g vs (sub_vertices (t_type T) 2 f) r n.
Proof.
  intros Hc Hft Hf Hb. destruct (cell_ok_g _ _ _ Hc) as (Lg & NDg & Rg). destruct Hc as [_ Hg].
  destruct (face_shape _ _ _ D3 Hft Hf) as (_ & _ & [[-> (i & j & k & E & H1 & H2 & H3)]|[-> (i & j & k & l & E & H1 & H2 & H3 & H4)]]);
    rewrite E in *.
  - destruct (tri_view _ _ _ Hg NDg i j k el key H1 H2 ltac:(lia) Rg Hb) as (vs & r & n & Hvs & Hr & Hs).
    exists vs, r, n. auto.
  - destruct (quad_view _ _ _ Hg NDg i j k l el key H1 H2 H3 ltac:(lia) Hb) as (vs & r & n & Hvs & Hr & Hs).
    exists vs, r, n. auto.
Qed.

Lemma face_bits_ok i ft cf fv c cv g bits :
  nth_error (t_face_types T) i = Some ft -> nth_error (t_cf T) i = Some cf -> nth_error (t_fv T) i = Some fv ->
  cell_ok c cv g -> length bits = 32 ->
  exists bits', face_bits T ft cf fv (face_type_indices (t_type T) ft) c bits = Some bits' /\ length bits' = 32 /\
    (forall f, In f (face_type_indices (t_type T) ft) -> face_fin cv g ft f bits') /\
    (forall f, ~ In f (face_type_indices (t_type T) ft) -> field bits' f = field bits f).
Proof.
  intros Hi Hcf Hfv Hc Lb. set (idx := face_type_indices (t_type T) ft).
  assert (ft = Triangle \/ ft = Quadrilateral) as Hft by (apply (proj2 (ok_face_types _ T OK)); eapply nth_error_In; eassumption).
  destruct (ok_faces _ T OK D3 i ft Hi) as (cf' & fv' & Ecf & Efv & Hrows).
  assert (cf' = cf) as -> by congruence. assert (fv' = fv) as -> by congruence.
  destruct Hc as [Ecv Eg]. destruct (Hrows c cv Ecv) as (row & Erow & Lrow & Hrow). fold idx in Lrow, Hrow.
  unfold face_bits. rewrite Ecv. cbn [obind]. rewrite Eg. cbn [obind]. rewrite Erow. cbn [obind].
  destruct (enum_ind (face_step T ft g fv idx) (fun j b => length b = 32 /\
     (forall j' f, j' < j -> nth_error idx j' = Some f -> face_fin cv g ft f b) /\ (forall f, ~ In f idx -> field b f = field bits f)) row bits)
     as (bits' & E & L & Hin & Hout).
  - split; [exact Lb|]. split; [intros; lia|reflexivity].
  - intros j id b Hj (L & Hin & Hout).
    destruct (nth_error idx j) as [f|] eqn:Ef; [|apply nth_error_None in Ef; apply ne_lt in Hj; lia].
    destruct (Hrow j f id Ef Hj) as (el & key & Eel & Hb). pose proof (nth_error_In _ _ Ef) as Inf.
    destruct (face_view c cv g ft f el key (conj Ecv Eg) Hft Inf Hb) as (vs & r & n & Evs & Hr & Hs).
    destruct (face_shape _ _ _ D3 Hft Inf) as (F1 & F2 & _).
    destruct (face_step_ok T ft g fv idx b j id el vs r n f Eel Evs (proj1 (proj2 Hs)) Hr Ef ltac:(lia)) as (b' & E' & L' & Hf' & Ho').
    exists b'. split; [exact E'|]. split; [congruence|]. split.
    + intros j' f' Hj' Ef'. destruct (Nat.eq_dec f' f) as [->|Nf].
      * exists el, key, vs, r, n. auto.
      * assert (j' <> j) by congruence. destruct (Hin j' f' ltac:(lia) Ef') as (el' & key' & vs' & r' & n' & X1 & X2 & X3 & X4).
        exists el', key', vs', r', n'. repeat split; try apply X3; auto. now rewrite Ho'.
    + intros f' Nf'. rewrite Ho'; [now apply Hout|]. intros ->. contradiction.
  - exists bits'. split; [exact E|]. split; [exact L|]. split; [|exact Hout].
    intros f Inf. destruct (In_nth_error _ _ Inf) as (j & Ej). apply (Hin j f); [|exact Ej]. rewrite Lrow. now apply ne_lt in Ej.
Qed.

Variables (threads : nat) (sched : list nat -> list nat).
Hypothesis Ht : 0 < threads.
Hypothesis Hsched : forall l, Permutation (sched l) l.

Definition rows_ok (m : nat) (fp : list (list bool)) : Prop :=
  length fp = length (t_cv T) /\
  forall c cv g, cell_ok c cv g -> exists bits, nth_error fp c = Some bits /\ length bits = 32 /\
    (forall i ft f, i < m -> nth_error (t_face_types T) i = Some ft -> In f (face_type_indices (t_type T) ft) -> face_fin cv g ft f bits) /\
    (forall f, num_faces (t_type T) <= f -> field bits f = (false, false, false)).

Lemma face_permutations_ok : exists fp, face_permutations T threads sched = Some fp /\ rows_ok (length (t_face_types T)) fp.
Proof.
  unfold face_permutations. destruct (Nat.ltb_spec 1 (t_num_types T)) as [X|_]; [pose proof (ok_types _ T OK); lia|].
  set (cells := sched (thread_cells (length (t_cv T)) threads)).
  apply (enum_ind _ rows_ok).
  - split; [apply repeat_length|]. intros c cv g Hc. exists (repeat false 32).
    split; [apply nth_error_repeat; destruct Hc as [Hc _]; now apply ne_lt in Hc|]. split; [reflexivity|].
    split; [intros; lia|]. intros f _. unfold field. now rewrite !nth_repeat.
  - intros i ft fp Hi (L & Hrows). cbn [fst snd].
    assert (ft = Triangle \/ ft = Quadrilateral) as Hft by (apply (proj2 (ok_face_types _ T OK)); eapply nth_error_In; eassumption).
    destruct (face_type_indices (t_type T) ft) as [|x idx] eqn:Eidx.
    + exists fp. split; [reflexivity|]. split; [exact L|]. intros c cv g Hc. destruct (Hrows c cv g Hc) as (bits & Eb & Lb & H1 & H2).
      exists bits. split; [exact Eb|]. split; [exact Lb|]. split; [|exact H2].
      intros i' ft' f Hi' Eft' Inf. destruct (Nat.eq_dec i' i) as [->|N].
      * assert (ft' = ft) as -> by congruence. rewrite Eidx in Inf. destruct Inf.
      * apply (H1 i' ft' f); auto; lia.
    + destruct (ok_faces _ T OK D3 i ft Hi) as (cf & fv & Ecf & Efv & _). rewrite Ecf, Efv. cbn [obind]. rewrite <- Eidx.
      destruct (cell_fold (face_bits T ft cf fv (face_type_indices (t_type T) ft)) cells fp) as (fp' & E & L' & Hin & _).
      * now apply sched_NoDup.
      * intros c Hc. apply sched_cells in Hc; auto. destruct (cells_valid c Hc) as (cv & g & Hok).
        destruct (Hrows c cv g Hok) as (bits & Eb & Lb & _).
        destruct (face_bits_ok i ft cf fv c cv g bits Hi Ecf Efv Hok Lb) as (bits' & E' & _). exists bits, bits'. auto.
      * exists fp'. split; [exact E|]. split; [congruence|]. intros c cv g Hok.
        destruct (Hrows c cv g Hok) as (bits & Eb & Lb & H1 & H2).
        destruct (face_bits_ok i ft cf fv c cv g bits Hi Ecf Efv Hok Lb) as (bits' & E' & L2 & Hf & Ho).
        exists bits'. split; [rewrite (Hin c bits); [exact E'| |exact Eb]; apply sched_cells; auto; destruct Hok as [Hok _]; now apply ne_lt in Hok|].
        split; [exact L2|]. split.
        -- intros i' ft' f Hi' Eft' Inf. destruct (Nat.eq_dec i' i) as [->|N].
           ++ assert (ft' = ft) as -> by congruence. now apply Hf.
           ++ destruct (H1 i' ft' f ltac:(lia) Eft' Inf) as (el & key & vs & r & n & X1 & X2 & X3 & X4).
              exists el, key, vs, r, n. repeat split; try apply X3; auto. rewrite Ho; [exact X4|].
              intros Inf2. pose proof (face_idx_disjoint _ _ _ _ Inf Inf2) as ->.
              pose proof (NoDup_nth_error_inj _ _ _ _ (proj1 (ok_face_types _ T OK)) Eft' Hi). contradiction.
        -- intros f Hf'. rewrite Ho; [now apply H2|]. intros Inf.
           destruct (face_shape _ _ _ D3 Hft Inf) as (F1 & _). lia.
Qed.
End Faces.

(** ** Edges of the mesh *)

Lemma edge_shape t e : 1 < cell_dim t -> e < length (nth 1 (topology t) []) ->
  length (nth 1 (topology t) []) <= 12 /\ exists i j, sub_vertices t 1 e = [i; j] /\ i < j /\ j < num_cell_vertices t.
Proof.
  intros D He. destruct t; vm_compute in D; try (exfalso; lia); vm_compute in He; (split; [vm_compute; lia|]);
    do 12 (destruct e as [|e]; [first [exfalso; lia | do 2 eexists; split; [vm_compute; reflexivity|]; vm_compute; lia]|]); lia.
Qed.

Section Edges.
Variable T : topo.
Hypothesis OK : topo_ok (2 ^ 31) T.
Hypothesis D2 : 1 < cell_dim (t_type T).
Variables (threads : nat) (sched : list nat -> list nat).
Hypothesis Ht : 0 < threads.
Hypothesis Hsched : forall l, Permutation (sched l) l.
Let ne := length (nth 1 (topology (t_type T)) []).

Definition edge_fin (cv : list nat) (g : list Z) (e : nat) (bits : list bool) : Prop :=
  exists el key vs, build_entity (t_l2g T) Interval (sub_vertices (t_type T) 1 e) cv = Some (el, key) /\ omap (t_l2g T) el = Some vs /\
    seen g vs (sub_vertices (t_type T) 1 e) (nth e bits false) 0.

Lemma ne_eq : cell_num_entities (t_type T) 1 = Some ne.
Proof using D2. clear Ht. unfold ne. destruct (t_type T); try (exfalso; vm_compute in D2; lia); reflexivity. Qed.

Lemma edge_bits_ok c cv g : cell_ok T c cv g -> exists bits', edge_bits T ne c (repeat false 32) = Some bits' /\ length bits' = 32 /\
  (forall e, e < ne -> edge_fin cv g e bits') /\ (forall e, ne <= e -> nth e bits' false = false).
Proof.
  intros Hc. destruct (cell_ok_g T OK c cv g Hc) as (Lg & NDg & _). destruct Hc as [Ecv Eg].
  destruct (ok_edges _ T OK D2 c cv Ecv) as (row & Erow & Hrow).
  unfold edge_bits. rewrite Ecv. cbn [obind]. rewrite Eg. cbn [obind]. rewrite Erow. cbn [obind].
  match goal with |- exists b, ofold ?f _ _ = _ /\ _ => set (F := f) end.
  destruct (seq_ind F (fun k b => length b = 32 /\ (forall e, e < k -> edge_fin cv g e b) /\ (forall e, k <= e -> nth e b false = false)) ne (repeat false 32))
    as (b & E & L & Hin & Hout).
  - split; [reflexivity|]. split; [intros; lia|]. intros e _. apply nth_repeat.
  - intros e b He (L & Hin & Hout). destruct (Hrow e He) as (id & el & key & Eid & Eel & Hb).
    destruct (edge_shape _ e D2 He) as (L12 & i & j & Es & Hij & Hj). fold ne in L12.
    pose proof Hb as Hb'. rewrite Es in Hb'.
    destruct (edge_view _ _ _ Eg NDg i j el key Hij ltac:(lia) Hb') as (v0 & v1 & Ev & Hv & Hs). cbv zeta in Hs.
    unfold F. rewrite Eid. cbn [obind]. rewrite Eel. cbn [obind]. rewrite Ev. cbn [obind nth_error].
    set (bit := Bool.eqb _ _) in *.
    destruct (upd_some b e bit ltac:(lia)) as (b' & E'). rewrite E'. exists b'. split; [reflexivity|].
    split; [now rewrite (upd_length _ _ _ _ E')|]. split.
    + intros e' He'. unfold edge_fin. rewrite (upd_nthd _ _ _ e' _ _ E'). destruct (Nat.eqb_spec e e') as [<-|N].
      * exists el, key, [v0; v1]. split; [exact Hb|]. split; [exact Ev|]. rewrite Es. exact Hs.
      * apply (Hin e'). lia.
    + intros e' He'. rewrite (upd_nthd _ _ _ e' _ _ E'). destruct (Nat.eqb_spec e e'); [lia|]. apply Hout. lia.
  - exists b. auto.
Qed.

Lemma edge_reflections_ok : exists ep, edge_reflections T threads sched = Some ep /\ length ep = length (t_cv T) /\
  forall c cv g, cell_ok T c cv g -> exists bits, nth_error ep c = Some bits /\ length bits = 32 /\
    (forall e, e < ne -> edge_fin cv g e bits) /\ (forall e, ne <= e -> nth e bits false = false).
Proof.
  unfold edge_reflections. rewrite ne_eq. cbn [obind].
  assert (forall c, c < length (t_cv T) -> nth_error (repeat (repeat false 32) (length (t_cv T))) c = Some (repeat false 32)) as Hrep
    by (intros c Hc; now apply nth_error_repeat).
  destruct (cell_fold (edge_bits T ne) (sched (thread_cells (length (t_cv T)) threads)) (repeat (repeat false 32) (length (t_cv T))))
    as (ep & E & L & Hin & _).
  - now apply sched_NoDup.
  - intros c Hc. apply sched_cells in Hc; auto. destruct (cells_valid T OK c Hc) as (cv & g & Hok).
    destruct (edge_bits_ok c cv g Hok) as (b & Eb & _). exists (repeat false 32), b. auto.
  - exists ep. split; [exact E|]. split; [rewrite L; apply repeat_length|]. intros c cv g Hok.
    assert (c < length (t_cv T)) as Hc by (destruct Hok as [Hok _]; now apply ne_lt in Hok).
    destruct (edge_bits_ok c cv g Hok) as (b & Eb & H). exists b. split; [|exact H].
    rewrite (Hin c (repeat false 32)); [exact Eb| |now apply Hrep]. apply sched_cells; auto.
Qed.
End Edges.

(** ** Packing *)

Lemma rows_nth {A B} (f : A -> list B) k l c i x : (forall x, length (f x) = k) -> nth_error l c = Some x -> i < k ->
  nth_error (concat (map f l)) (c * k + i) = nth_error (f x) i.
Proof.
  intros Hk. revert c. induction l as [|y t IH]; intros c Hc Hi; [destruct c; discriminate|].
  cbn [map concat]. destruct c as [|c]; cbn [nth_error] in Hc.
  - injection Hc as ->. apply nth_error_app1. rewrite Hk. lia.
  - rewrite nth_error_app2 by (rewrite Hk; lia). rewrite <- (IH c Hc Hi). f_equal. rewrite Hk. lia.
Qed.
Lemma rows_length {A B} (f : A -> list B) k l : (forall x, length (f x) = k) -> length (concat (map f l)) = length l * k.
Proof. intros Hk. induction l as [|y t IH]; [reflexivity|]. cbn [map concat length]. rewrite app_length, Hk, IH. lia. Qed.
Lemma nth_seq_map {A} (f : nat -> A) n i : i < n -> nth_error (map f (seq 0 n)) i = Some (f i).
Proof. intros H. rewrite nth_error_map. rewrite (nth_error_nth' (seq 0 n) 0) by (rewrite seq_length; lia). rewrite seq_nth by lia. reflexivity. Qed.

Lemma u32_bit n k : (k < 32)%N -> N.testbit (to_u32 n) k = N.testbit n k.
Proof. intros H. unfold to_u32. now apply N.mod_pow2_bits_low. Qed.

(** The packed word of face bits and edge bits *)
Definition word (fb eb : list bool) (used : nat) : N := N.lor (to_u32 (to_ulong fb)) (to_u32 (N.shiftl (to_ulong eb) (N.of_nat used))).
Lemma word_bit fb eb used k : k < 32 -> N.testbit (word fb eb used) (N.of_nat k) = nth k fb false || (if k <? used then false else nth (k - used) eb false).
Proof.
  intros Hk. unfold word. rewrite N.lor_spec, !u32_bit by lia. rewrite testbit_to_ulong. f_equal.
  destruct (Nat.ltb_spec k used) as [H|H].
  - apply N.shiftl_spec_low. lia.
  - rewrite N.shiftl_spec_high' by lia. rewrite <- testbit_to_ulong. f_equal. lia.
Qed.

Lemma word_face fb eb nf f : f < nf -> 3 * nf <= 30 -> 
  (face_reflect (word fb eb (3 * nf)) f = nth (3 * f) fb false) /\
  (face_rotations (word fb eb (3 * nf)) f = N.to_nat (N.b2n (nth (3 * f + 1) fb false) + 2 * N.b2n (nth (3 * f + 2) fb false))).
Proof.
  intros Hf Hn. unfold face_reflect, face_rotations. rewrite land3.
  replace (N.of_nat (3 * f + 1) + 1)%N with (N.of_nat (3 * f + 2)) by lia. rewrite !word_bit by lia.
  repeat match goal with |- context [?x <? ?y] => destruct (Nat.ltb_spec x y); [|lia] end. now rewrite !orb_false_r.
Qed.
Lemma land7 x i : N.land (N.shiftr x i) 7 = (N.b2n (N.testbit x i) + 2 * N.land (N.shiftr x (i + 1)) 3)%N.
Proof.
  change 7%N with (N.ones 3). change 3%N with (N.ones 2) at 2. rewrite !N.land_ones. change (2 ^ 3)%N with (2 * 4)%N. change (2 ^ 2)%N with 4%N.
  rewrite N.mod_mul_r by lia. rewrite <- (N.bit0_mod (N.shiftr x i)), N.shiftr_spec', N.add_0_l. do 3 f_equal.
  rewrite <- N.div2_div, N.div2_spec, N.shiftr_shiftr. reflexivity.
Qed.

Section Main.
Variable T : topo.
Hypothesis OK : topo_ok (2 ^ 31) T.
Hypothesis D2 : 1 < cell_dim (t_type T).
Variables (threads : nat) (sched : list nat -> list nat).
Hypothesis Ht : 0 < threads.
Hypothesis Hsched : forall l, Permutation (sched l) l.
Let ne := length (nth 1 (topology (t_type T)) []).
Let nf := num_faces (t_type T).

(** The turned local view of a sub-entity is the stored entity. *)
Definition agrees (cv : list nat) (g : list Z) (type : cell_type) (d i : nat) (r : bool) (n : nat) : Prop :=
  exists el key, build_entity (t_l2g T) type (sub_vertices (t_type T) d i) cv = Some (el, key) /\
    omap (t_l2g T) el = Some (turn r n (map (fun j => nth j g 0%Z) (sub_vertices (t_type T) d i))).

Definition result_ok (facets info : list N) : Prop :=
  length info = length (t_cv T) /\
  forall c cv g, cell_ok T c cv g -> exists x, nth_error info c = Some x /\
    (forall e, e < ne -> agrees cv g Interval 1 e (edge_reflect x nf e) 0) /\
    (forall ft f, f < nf -> In ft (t_face_types T) -> ft = cell_facet_type (t_type T) f -> agrees cv g ft 2 f (face_reflect x f) (face_rotations x f)) /\
    (forall f, f < nf -> nth_error facets (c * nf + f) = Some (N.b2n (face_reflect x f) + 2 * N.of_nat (face_rotations x f))%N) /\
    (cell_dim (t_type T) = 2 -> forall e, e < ne -> nth_error facets (c * ne + e) = Some (N.b2n (edge_reflect x 0 e))).

Lemma perms_ok : exists facets info, compute_entity_permutations T threads sched = Some (facets, info) /\ result_ok facets info.
Proof.
  unfold compute_entity_permutations. destruct (Nat.ltb_spec threads 1) as [X|_]; [lia|]. cbv zeta.
  destruct (Nat.ltb_spec 0 (cell_dim (t_type T))) as [_|X]; [|lia].
  destruct (edge_reflections_ok T OK D2 threads sched Ht Hsched) as (ep & Eep & Lep & Hep).
  destruct (Nat.ltb_spec 1 (cell_dim (t_type T))) as [_|X]; [|lia].
  assert (ne <= 12) as Hne by (unfold ne; destruct (t_type T); vm_compute; lia).
  destruct (Nat.eq_dec (cell_dim (t_type T)) 3) as [D3|N3].
  - (* three-dimensional *)
    assert (cell_num_entities (t_type T) (cell_dim (t_type T) - 1) = Some nf) as Enf
      by (unfold nf; destruct (t_type T); try discriminate D3; reflexivity).
    assert (cell_num_entities (t_type T) 2 = Some nf) as Enf2 by (unfold nf; destruct (t_type T); try discriminate D3; reflexivity).
    assert (nf <= 6) as Hnf by (unfold nf; destruct (t_type T); vm_compute; lia).
    assert (3 * nf + ne < 32) as Hbits by (unfold nf, ne; destruct (t_type T); vm_compute; lia).
    rewrite Enf. cbn [obind]. destruct (Nat.ltb_spec 2 (cell_dim (t_type T))) as [_|X]; [|lia].
    rewrite Enf2. cbn [obind].
    destruct (face_permutations_ok T OK D3 threads sched Ht Hsched) as (fp & Efp & Lfp & Hfp). rewrite Efp. cbn [obind].
    rewrite (ne_eq T D2). fold ne. cbn [obind]. rewrite Eep. cbn [obind].
    destruct (Nat.ltb_spec (nf * 3 + ne) 32) as [_|X]; [|lia].
    destruct (Nat.eqb_spec (cell_dim (t_type T)) 2) as [X|_]; [lia|].
    do 2 eexists. split; [reflexivity|]. split.
    { rewrite map_length, combine_length, map_length, Lfp, Lep. apply Nat.min_id. }
    intros c cv g Hc. destruct (Hep c cv g Hc) as (eb & Eeb & Leb & He1 & _), (Hfp c cv g Hc) as (fb & Efb & Lfb & Hf1 & Hf2).
    exists (word fb eb (3 * nf)).
    split.
    { rewrite nth_error_map, combine_nth_error, nth_error_map, Efb, Eeb. cbn [option_map fst snd]. unfold word. now rewrite (Nat.mul_comm 3 nf). }
    split; [|split; [|split]].
    + intros e He. destruct (He1 e He) as (el & key & vs & Hb & Evs & Hs). exists el, key. split; [exact Hb|].
      unfold edge_reflect. rewrite word_bit by (fold ne in He; lia). destruct (Nat.ltb_spec (3 * nf + e) (3 * nf)); [lia|].
      replace (3 * nf + e - 3 * nf) with e by lia.
      assert (nth (3 * nf + e) fb false = false) as ->.
      { pose proof (Nat.div_mod (3 * nf + e) 3 ltac:(lia)) as Hdm. pose proof (Nat.mod_upper_bound (3 * nf + e) 3 ltac:(lia)) as Hm.
        assert (nf <= (3 * nf + e) / 3) as Hq by (apply Nat.div_le_lower_bound; lia).
        specialize (Hf2 _ Hq). unfold field in Hf2.
        set (q := (3 * nf + e) / 3) in *. set (m := (3 * nf + e) mod 3) in *. rewrite Hdm.
        destruct m as [|[|[|m]]]; [rewrite Nat.add_0_r| | |lia]; congruence. }
      rewrite orb_false_l, Evs. f_equal. symmetry. apply Hs.
    + intros ft f Hf Inft ->. destruct (In_nth_error _ _ Inft) as (i & Ei).
      destruct (Hf1 i _ f (ne_lt _ _ _ Ei) Ei (face_idx_all _ _ D3 Hf)) as (el & key & vs & r & n & Hb & Evs & Hs & Hfield).
      exists el, key. split; [exact Hb|]. destruct (word_face fb eb nf f Hf ltac:(lia)) as [-> ->].
      unfold field, code in Hfield. apply pair_equal_spec in Hfield as [Hfield F3]. apply pair_equal_spec in Hfield as [F1 F2]. rewrite F1, F2, F3.
      pose proof (code_rots r n (proj1 Hs)) as Hn. cbn [code fst snd] in Hn. rewrite Hn. rewrite Evs. f_equal. symmetry. apply Hs.
    + intros f Hf. erewrite rows_nth; [|intros x; now rewrite map_length, seq_length|rewrite nth_error_map, Efb; reflexivity|exact Hf].
      rewrite nth_seq_map by exact Hf. f_equal. rewrite land7. unfold face_rotations. rewrite N2Nat.id.
      rewrite !land3. unfold face_reflect.
      replace (N.of_nat (3 * f) + 1)%N with (N.of_nat (3 * f + 1)) by lia.
      replace (N.of_nat (3 * f + 1) + 1)%N with (N.of_nat (3 * f + 2)) by lia.
      rewrite !word_bit by lia. rewrite !u32_bit by lia. rewrite !testbit_to_ulong.
      repeat match goal with |- context [?x <? ?y] => destruct (Nat.ltb_spec x y); [|lia] end. now rewrite !orb_false_r.
    + intros D'. lia.
  - (* two-dimensional *)
    assert (cell_dim (t_type T) = 2) as D by (destruct (t_type T); cbn in *; lia).
    assert (nf = 0) as Hnf by (unfold nf, num_faces; rewrite D; reflexivity).
    assert (cell_num_entities (t_type T) (cell_dim (t_type T) - 1) = Some ne) as Ene by (rewrite D; apply (ne_eq T D2)).
    rewrite Ene. cbn [obind]. destruct (Nat.ltb_spec 2 (cell_dim (t_type T))) as [X|_]; [lia|]. cbn [obind].
    rewrite (ne_eq T D2). fold ne. cbn [obind]. rewrite Eep. cbn [obind].
    destruct (Nat.ltb_spec (0 + ne) 32) as [_|X]; [|lia].
    destruct (Nat.eqb_spec (cell_dim (t_type T)) 2) as [_|X]; [|lia].
    do 2 eexists. split; [reflexivity|]. split.
    { rewrite map_length, combine_length, repeat_length, Lep. apply Nat.min_id. }
    intros c cv g Hc. destruct (Hep c cv g Hc) as (eb & Eeb & Leb & He1 & _).
    assert (c < length (t_cv T)) as Hcl by (destruct Hc as [Hc _]; now apply ne_lt in Hc).
    exists (word [] eb 0).
    assert (forall e, e < ne -> edge_reflect (word [] eb 0) 0 e = nth e eb false) as Hbit.
    { intros e He. unfold edge_reflect. rewrite word_bit by lia. cbn [Nat.mul Nat.add Nat.ltb Nat.leb]. rewrite Nat.sub_0_r. now destruct e. }
    split.
    { rewrite nth_error_map, combine_nth_error, Eeb, nth_error_repeat by exact Hcl. cbn [option_map fst snd]. reflexivity. }
    split; [|split; [|split]].
    + intros e He. destruct (He1 e He) as (el & key & vs & Hb & Evs & Hs). exists el, key. split; [exact Hb|].
      rewrite Hnf, Hbit by exact He. rewrite Evs. f_equal. symmetry. apply Hs.
    + intros ft f Hf. lia.
    + intros f Hf. lia.
    + intros _ e He. erewrite rows_nth; [|intros x; now rewrite map_length, seq_length|exact Eeb|exact He].
      rewrite nth_seq_map by exact He. now rewrite Hbit.
Qed.
End Main.

(** ** Stored entities do not depend on the cell *)

(** Local vertices and their global indices *)
Lemma build_inv l2g type ev vertices el key : build_entity l2g type ev vertices = Some (el, key) ->
  exists l g, omap (nth_error vertices) ev = Some l /\ omap l2g l = Some g.
Proof.
  unfold build_entity. destruct (omap (nth_error vertices) ev) as [l|]; [|discriminate]. cbn [obind].
  destruct (omap l2g l) as [g|] eqn:E; [|discriminate]. eauto.
Qed.

Lemma omap_perm {A B} (f : A -> option B) l l' r : Permutation l l' -> omap f l = Some r -> exists r', omap f l' = Some r' /\ Permutation r r'.
Proof.
  intros P. revert r. induction P as [|x l l' P IH|x y l|l1 l2 l3 P1 IH1 P2 IH2]; intros r; cbn [omap].
  - intros [= <-]. eauto.
  - destruct (f x); [|discriminate]. cbn [obind]. destruct (omap f l) as [t|]; [|discriminate]. cbn [obind]. intros [= <-].
    destruct (IH t eq_refl) as (t' & -> & Pt). cbn [obind]. eauto.
  - destruct (f y) as [b|]; [|discriminate]. cbn [obind]. destruct (f x) as [a|]; [|discriminate]. cbn [obind].
    destruct (omap f l) as [t|]; [|discriminate]. cbn [obind]. intros [= <-]. eexists. split; [reflexivity|constructor].
  - intros H. destruct (IH1 r H) as (r2 & E2 & Q2). destruct (IH2 r2 E2) as (r3 & E3 & Q3). exists r3. split; [exact E3|]. etransitivity; eassumption.
Qed.

Lemma simplex_spec l2g type ev vertices l g : (type = Interval \/ type = Triangle) ->
  length ev = num_cell_vertices type -> omap (nth_error vertices) ev = Some l -> omap l2g l = Some g -> NoDup g ->
  exists el key, build_entity l2g type ev vertices = Some (el, key) /\ Permutation l el /\ increasing l2g el /\ key = isort Nat.leb l.
Proof.
  intros Hty Lev El Eg ND. unfold build_entity. rewrite El. cbn [obind]. rewrite Eg. cbn [obind].
  pose proof (omap_len _ _ _ El) as Ll. pose proof (omap_len _ _ _ Eg) as Lg. destruct Hty as [-> | ->]; cbn in Lev.
  - destruct l as [|l0 [|l1 [|]]]; cbn in Ll; try lia. destruct g as [|a [|b [|]]]; cbn in Lg; try lia.
    change (num_cell_vertices Interval) with 2. cbv iota. unfold orient2.
    assert (a <> b) as Nab by (apply NoDup_cons_iff in ND as [N _]; cbn in N; intuition congruence).
    cbn [omap] in Eg. destruct (l2g l0) as [x|] eqn:E0; [|discriminate]. cbn [obind] in Eg. destruct (l2g l1) as [y|] eqn:E1; [|discriminate].
    cbn [obind] in Eg. injection Eg as -> ->.
    destruct (Z.leb_spec a b).
    + exists [l0; l1], [Nat.min l0 l1; Nat.max l0 l1]. split; [reflexivity|]. split; [reflexivity|]. split.
      * exists [a; b]. cbn [omap]. rewrite E0, E1. split; [reflexivity|]. repeat constructor. lia.
      * cbn. destruct (Nat.leb_spec l0 l1); repeat f_equal; lia.
    + exists [l1; l0], [Nat.min l1 l0; Nat.max l1 l0]. split; [reflexivity|]. split; [apply perm_swap|]. split.
      * exists [b; a]. cbn [omap]. rewrite E0, E1. split; [reflexivity|]. repeat constructor. lia.
      * cbn. destruct (Nat.leb_spec l0 l1); repeat f_equal; lia.
  - destruct l as [|l0 [|l1 [|l2 [|]]]]; cbn in Ll; try lia. destruct g as [|a [|b [|c [|]]]]; cbn in Lg; try lia.
    change (num_cell_vertices Triangle) with 3. cbv iota.
    assert (a <> b /\ b <> c /\ a <> c) as (Nab & Nbc & Nac).
    { apply NoDup_cons_iff in ND as [N1 ND]. apply NoDup_cons_iff in ND as [N2 ND]. cbn in N1, N2. intuition congruence. }
    cbn [omap] in Eg. destruct (l2g l0) as [x|] eqn:E0; [|discriminate]. cbn [obind] in Eg. destruct (l2g l1) as [y|] eqn:E1; [|discriminate].
    cbn [obind] in Eg. destruct (l2g l2) as [z|] eqn:E2; [|discriminate]. cbn [obind] in Eg. injection Eg as -> -> ->.
    exists (fst (orient3 l0 l1 l2 a b c)), (snd (orient3 l0 l1 l2 a b c)). split; [f_equal; apply surjective_pairing|].
    rewrite orient3_key, orient3_sigma.
    destruct (sigma3_cases a b c Nab Nbc Nac) as [[O ->]|[[O ->]|[[O ->]|[[O ->]|[[O ->]|[O ->]]]]]]; cbn [map nth];
      (split; [|split; [eexists; cbn [omap]; rewrite E0, E1, E2; split; [reflexivity|]; repeat constructor; lia|reflexivity]]).
    + reflexivity.
    + apply perm_skip, perm_swap.
    + apply perm_swap.
    + apply (Permutation_cons_app [l1; l2] []). reflexivity.
    + symmetry. apply (Permutation_cons_app [l0; l1] []). reflexivity.
    + eapply perm_trans; [apply perm_swap|]. eapply perm_trans; [apply perm_skip, perm_swap|]. apply perm_swap.
Qed.

Lemma quad_spec l2g ev vertices l g : length ev = 4 ->
  omap (nth_error vertices) ev = Some l -> omap l2g l = Some g -> NoDup g ->
  exists e0 e1 e2 e3 key, build_entity l2g Quadrilateral ev vertices = Some ([e0; e1; e2; e3], key) /\ same_quad l [e0; e1; e2; e3] /\
    (exists g0 g1 g2 g3, omap l2g [e0; e1; e2; e3] = Some [g0; g1; g2; g3] /\ g0 < g1 /\ g0 < g2 /\ g0 < g3 /\ g1 < g2)%Z /\
    key = isort Nat.leb [e0; e1; e2; e3].
Proof.
  intros Lev El Eg ND. unfold build_entity. rewrite El. cbn [obind]. rewrite Eg. cbn [obind].
  pose proof (omap_len _ _ _ El) as Ll. pose proof (omap_len _ _ _ Eg) as Lg.
  destruct l as [|l0 [|l1 [|l2 [|l3 [|]]]]]; cbn in Ll; try lia. destruct g as [|a [|b [|c [|d [|]]]]]; cbn in Lg; try lia.
  change (num_cell_vertices Quadrilateral) with 4. cbv iota. change (cell_eqb Quadrilateral Quadrilateral) with true.
  destruct (sigma4_cases a b c d ND) as (s & Es & Hs).
  unfold orient4. change (negb (length [l0; l1; l2; l3] =? 4)) with false. cbv iota.
  assert (forall A (f : list nat -> option A), (perm <- network (fun i j => (nth j [a; b; c; d] 0%Z <? nth i [a; b; c; d] 0%Z)%Z) [0; 1; 2; 3] ;;
    perm <- (min_vertex_idx <- nth_error perm 0 ;; it <- index_in (3 - min_vertex_idx) perm ;; rotate_out it perm) ;; f perm) = f s) as Hf.
  { intros A f. unfold sigma4 in Es. destruct (network _ _) as [p|]; [|discriminate]. cbn [obind] in *. rewrite Es. reflexivity. }
  rewrite Hf. clear Hf.
  cbn [omap] in Eg. destruct (l2g l0) as [x|] eqn:E0; [|discriminate]. cbn [obind] in Eg. destruct (l2g l1) as [y|] eqn:E1; [|discriminate].
  cbn [obind] in Eg. destruct (l2g l2) as [z|] eqn:E2; [|discriminate]. cbn [obind] in Eg. destruct (l2g l3) as [w|] eqn:E3; [|discriminate].
  cbn [obind] in Eg. injection Eg as -> -> -> ->.
  destruct Hs as [[O ->]|[[O ->]|[[O ->]|[[O ->]|[[O ->]|[[O ->]|[[O ->]|[O ->]]]]]]]]; cbn [omap nth_error obind]; rewrite network_sorts; cbn [obind];
    (do 5 eexists; split; [reflexivity|]; split; [|split; [do 4 eexists; cbn [omap]; rewrite E0, E1, E2, E3; split; [reflexivity|]; lia|reflexivity]];
     split; [|intros x y; cbn; tauto]).
  - reflexivity.
  - apply perm_skip, perm_swap.
  - eapply perm_trans; [apply perm_swap|]. do 2 apply perm_skip. apply perm_swap.
  - apply (Permutation_cons_app [l1; l3] [l2]). cbn. apply perm_skip. apply perm_swap.
  - apply Permutation_sym. apply (Permutation_cons_app [l0; l1] [l3]). cbn. apply perm_skip. apply perm_swap.
  - apply (Permutation_cons_app [l2; l3] [l1]). cbn. apply (Permutation_cons_app [l2; l3] []). reflexivity.
  - apply (Permutation_cons_app [l3; l1; l2] []). cbn. apply Permutation_sym. apply (Permutation_cons_app [l1; l2] []). reflexivity.
  - apply (Permutation_rev [l0; l1; l2; l3]).
Qed.

(** The canonical listing is determined by the quadrilateral. *)
Lemma quad_unique a b c d a' b' c' d' : NoDup [a; b; c; d] -> same_quad [a; b; c; d] [a'; b'; c'; d'] ->
  (a < b /\ a < c /\ a < d /\ b < c)%Z -> (a' < b' /\ a' < c' /\ a' < d' /\ b' < c')%Z -> [a; b; c; d] = [a'; b'; c'; d'].
Proof.
  intros ND [P Ho] H H'.
  assert (a = a') as <-.
  { assert (In a [a'; b'; c'; d']) as I1 by (eapply Permutation_in; [exact P|now left]).
    assert (In a' [a; b; c; d]) as I2 by (eapply Permutation_in; [symmetry; exact P|now left]). cbn in I1, I2. lia. }
  assert (opposite [a; b'; c'; d'] a d) as Hd by (apply Ho; cbn; tauto). cbn in Hd.
  assert (d = d') as <- by lia.
  assert (In b [a; b'; c'; d]) as Ib by (eapply Permutation_in; [exact P|cbn; tauto]).
  assert (In c [a; b'; c'; d]) as Ic by (eapply Permutation_in; [exact P|cbn; tauto]).
  assert (b <> d /\ c <> d) as [Nb Nc]
    by (apply NoDup_cons_iff in ND as [N1 ND]; apply NoDup_cons_iff in ND as [N2 ND]; apply NoDup_cons_iff in ND as [N3 ND]; cbn in N2, N3; intuition congruence).
  cbn in Ib, Ic. assert (b = b' /\ c = c') as [-> ->] by lia. reflexivity.
Qed.

Lemma same_quad_trans {A} (x y z : list A) : same_quad x y -> same_quad y z -> same_quad x z.
Proof. intros [P1 H1] [P2 H2]. split; [etransitivity; eassumption|]. intros u v. rewrite H1. apply H2. Qed.
Lemma same_quad_sym {A} (x y : list A) : same_quad x y -> same_quad y x.
Proof. intros [P1 H1]. split; [now symmetry|]. intros u v. symmetry. apply H1. Qed.

Lemma quad_globals l2g ev vertices l g el key : length ev = 4 ->
  omap (nth_error vertices) ev = Some l -> omap l2g l = Some g -> NoDup g ->
  build_entity l2g Quadrilateral ev vertices = Some (el, key) ->
  exists a b c d, omap l2g el = Some [a; b; c; d] /\ same_quad g [a; b; c; d] /\ (a < b /\ a < c /\ a < d /\ b < c)%Z.
Proof.
  intros Lev El Eg ND Hb. unfold build_entity in Hb. rewrite El in Hb. cbn [obind] in Hb. rewrite Eg in Hb. cbn [obind] in Hb.
  pose proof (omap_len _ _ _ El) as Ll. pose proof (omap_len _ _ _ Eg) as Lg.
  destruct l as [|l0 [|l1 [|l2 [|l3 [|]]]]]; cbn in Ll; try lia. destruct g as [|a [|b [|c [|d [|]]]]]; cbn in Lg; try lia.
  change (num_cell_vertices Quadrilateral) with 4 in Hb. cbv iota in Hb. change (cell_eqb Quadrilateral Quadrilateral) with true in Hb.
  destruct (sigma4_cases a b c d ND) as (s & Es & Hs).
  unfold orient4 in Hb. change (negb (length [l0; l1; l2; l3] =? 4)) with false in Hb. cbv iota in Hb.
  assert (forall A (f : list nat -> option A), (perm <- network (fun i j => (nth j [a; b; c; d] 0%Z <? nth i [a; b; c; d] 0%Z)%Z) [0; 1; 2; 3] ;;
    perm <- (min_vertex_idx <- nth_error perm 0 ;; it <- index_in (3 - min_vertex_idx) perm ;; rotate_out it perm) ;; f perm) = f s) as Hf.
  { intros A f. unfold sigma4 in Es. destruct (network _ _) as [p|]; [|discriminate]. cbn [obind] in *. rewrite Es. reflexivity. }
  rewrite Hf in Hb. clear Hf.
  cbn [omap] in Eg. destruct (l2g l0) as [x|] eqn:E0; [|discriminate]. cbn [obind] in Eg. destruct (l2g l1) as [y|] eqn:E1; [|discriminate].
  cbn [obind] in Eg. destruct (l2g l2) as [z|] eqn:E2; [|discriminate]. cbn [obind] in Eg. destruct (l2g l3) as [w|] eqn:E3; [|discriminate].
  cbn [obind] in Eg. injection Eg as -> -> -> ->.
  destruct Hs as [[O ->]|[[O ->]|[[O ->]|[[O ->]|[[O ->]|[[O ->]|[[O ->]|[O ->]]]]]]]]; cbn [omap nth_error obind] in Hb; rewrite network_sorts in Hb; cbn [obind] in Hb;
    injection Hb as <- _; (do 4 eexists; cbn [omap]; rewrite E0, E1, E2, E3; split; [reflexivity|]; split; [|lia]; split; [|intros u v; cbn; tauto]).
  - reflexivity.
  - apply perm_skip, perm_swap.
  - eapply perm_trans; [apply perm_swap|]. do 2 apply perm_skip. apply perm_swap.
  - apply (Permutation_cons_app [b; d] [c]). cbn. apply perm_skip. apply perm_swap.
  - apply Permutation_sym. apply (Permutation_cons_app [a; b] [d]). cbn. apply perm_skip. apply perm_swap.
  - apply (Permutation_cons_app [c; d] [b]). cbn. apply (Permutation_cons_app [c; d] []). reflexivity.
  - apply (Permutation_cons_app [d; b; c] []). cbn. apply Permutation_sym. apply (Permutation_cons_app [b; c] []). reflexivity.
  - apply (Permutation_rev [a; b; c; d]).
Qed.

Lemma SS_lt_unique l l' : Permutation l l' -> StronglySorted Z.lt l -> StronglySorted Z.lt l' -> l = l'.
Proof.
  revert l'. induction l as [|x t IH]; intros l' P S S'; [apply Permutation_nil in P; now subst|].
  destruct l' as [|y t']; [symmetry in P; apply Permutation_nil in P; discriminate|].
  inversion S as [|? ? St Fx]; subst. inversion S' as [|? ? St' Fy]; subst. rewrite Forall_forall in Fx, Fy.
  assert (x = y) as <-.
  { destruct (Z.eq_dec x y) as [|N]; [assumption|].
    assert (In x t') as I1 by (destruct (Permutation_in x P (or_introl eq_refl)); [congruence|assumption]).
    assert (In y t) as I2 by (destruct (Permutation_in y (Permutation_sym P) (or_introl eq_refl)); [congruence|assumption]).
    apply Fy in I1. apply Fx in I2. lia. }
  f_equal. apply IH; auto. eapply Permutation_cons_inv; eassumption.
Qed.


Lemma cell_independent type l2g ev vertices l g el key l2g' ev' vertices' l' g' el' key' :
  (type = Interval \/ type = Triangle \/ type = Quadrilateral) ->
  length ev = num_cell_vertices type -> length ev' = num_cell_vertices type ->
  omap (nth_error vertices) ev = Some l -> omap l2g l = Some g -> NoDup g ->
  omap (nth_error vertices') ev' = Some l' -> omap l2g' l' = Some g' ->
  same_entity type g g' ->
  build_entity l2g type ev vertices = Some (el, key) -> build_entity l2g' type ev' vertices' = Some (el', key') ->
  omap l2g el = omap l2g' el'.
Proof.
  intros Hty Lev Lev' El Eg ND El' Eg' Hsame Hb Hb'.
  assert (Permutation g g') as P by (destruct type; try exact Hsame; apply Hsame).
  assert (NoDup g') as ND' by (eapply Permutation_NoDup; eassumption).
  assert (type = Quadrilateral \/ (type = Interval \/ type = Triangle)) as [-> | Hs] by tauto.
  - destruct (quad_globals _ _ _ _ _ _ _ Lev El Eg ND Hb) as (a & b & c & d & E & Q & O).
    destruct (quad_globals _ _ _ _ _ _ _ Lev' El' Eg' ND' Hb') as (a' & b' & c' & d' & E' & Q' & O').
    rewrite E, E'. f_equal. apply quad_unique; auto.
    + eapply Permutation_NoDup; [exact (proj1 Q)|exact ND].
    + eapply same_quad_trans; [apply same_quad_sym; exact Q|]. eapply same_quad_trans; [exact Hsame|exact Q'].
  - destruct (simplex_spec _ _ _ _ _ _ Hs Lev El Eg ND) as (e1 & k1 & B1 & P1 & (s1 & S1 & S1') & _).
    destruct (simplex_spec _ _ _ _ _ _ Hs Lev' El' Eg' ND') as (e2 & k2 & B2 & P2 & (s2 & S2 & S2') & _).
    assert (e1 = el) as -> by congruence. assert (e2 = el') as -> by congruence. rewrite S1, S2. f_equal. apply SS_lt_unique; auto.
    destruct (omap_perm _ _ _ _ P1 Eg) as (x1 & X1 & Y1). destruct (omap_perm _ _ _ _ P2 Eg') as (x2 & X2 & Y2).
    assert (x1 = s1) as -> by congruence. assert (x2 = s2) as -> by congruence.
    etransitivity; [symmetry; exact Y1|]. etransitivity; [exact P|exact Y2].
Qed.

Lemma perms_spec : forall T threads sched,
  topo_ok (2 ^ 31) T -> 1 < cell_dim (t_type T) -> 0 < threads -> (forall l, Permutation (sched l) l) ->
  let ne := length (nth 1 (topology (t_type T)) []) in
  let nf := num_faces (t_type T) in
  let stored cv type d i := option_map fst (build_entity (t_l2g T) type (sub_vertices (t_type T) d i) cv) in
  let view (g : list Z) d i := map (fun j => nth j g 0%Z) (sub_vertices (t_type T) d i) in
  exists facets info, compute_entity_permutations T threads sched = Some (facets, info) /\
    length info = length (t_cv T) /\
    forall c cv g, nth_error (t_cv T) c = Some cv -> omap (t_l2g T) cv = Some g ->
    exists x, nth_error info c = Some x /\
      (forall e, e < ne -> exists el, stored cv Interval 1 e = Some el /\
         omap (t_l2g T) el = Some (turn (edge_reflect x nf e) 0 (view g 1 e))) /\
      (forall f, f < nf -> In (cell_facet_type (t_type T) f) (t_face_types T) ->
         exists el, stored cv (cell_facet_type (t_type T) f) 2 f = Some el /\
           omap (t_l2g T) el = Some (turn (face_reflect x f) (face_rotations x f) (view g 2 f))) /\
      (forall f, f < nf -> nth_error facets (c * nf + f) = Some (N.b2n (face_reflect x f) + 2 * N.of_nat (face_rotations x f))%N) /\
      (cell_dim (t_type T) = 2 -> forall e, e < ne -> nth_error facets (c * ne + e) = Some (N.b2n (edge_reflect x 0 e))).
Proof.
  intros T threads sched OK D2 Ht Hs ne nf stored view.
  destruct (perms_ok T OK D2 threads sched Ht Hs) as (facets & info & E & L & H). exists facets, info. split; [exact E|]. split; [exact L|].
  intros c cv g Hc Hg. destruct (H c cv g (conj Hc Hg)) as (x & Ex & H1 & H2 & H3 & H4). exists x. split; [exact Ex|].
  split; [|split; [|split; [exact H3|exact H4]]].
  - intros e He. destruct (H1 e He) as (el & key & B & V). exists el. unfold stored. rewrite B. split; [reflexivity|exact V].
  - intros f Hf Hin. destruct (H2 _ f Hf Hin eq_refl) as (el & key & B & V). exists el. unfold stored. rewrite B. split; [reflexivity|exact V].
Qed.
