(** The divisions of quadrilaterals, hexahedra and prisms: products of divided segments and
    triangles. *)
From Coq Require Import Reals Lra.
From Verif Require Import Base BaseProofs CellTypes GenerationSpec GridTiling GridShapes Uniform UniformSpec UniformShapes.
Open Scope nat_scope.

Lemma nth_cell k (cs : list (list nat)) c : In c cs -> k = length cs -> exists i, i < k /\ nth i cs [] = c.
Proof. intros Hc ->. apply (In_nth cs c []) in Hc as (i & Hi & E). exists i. auto. Qed.

(** ** Quadrilaterals *)
Lemma quad_params s t l : l = quad_w s t -> (nth 1 l 0 + nth 3 l 0 = s)%R /\ (nth 2 l 0 + nth 3 l 0 = t)%R.
Proof. intros ->. unfold quad_w, times, segment. cbn [map concat app nth]. split; ring. Qed.
Lemma quad_hat k a b i : k < 4 -> unit a -> unit b -> i < 9 ->
  let l := pw Quadrilateral (nth k quad_cs []) (quad_w a b) in
  exists x y, hat [(2 * (nth 1 l 0 + nth 3 l 0) - INR (fst (quad_co i)))%R] x /\ hat [(2 * (nth 2 l 0 + nth 3 l 0) - INR (snd (quad_co i)))%R] y /\
    weight i (nth k quad_cs []) (quad_w a b) = (x * y)%R.
Proof.
  intros Hk Ha Hb Hi l. assert (Hc : fst (quad_co i) < 3 /\ snd (quad_co i) < 3).
  { do 9 (destruct i as [|i]; [cbn; lia|]). lia. }
  assert (Hp : unit (snd (fst (quad_map k a b))) /\ unit (snd (snd (quad_map k a b)))).
  { do 3 (destruct k as [|k]; [split; assumption|]). split; assumption. }
  pose proof (quad_child k a b Hk) as H. destruct (quad_map k a b) as [[h p] [g q]]. cbn [fst snd] in Hp. destruct H as (El & Hw).
  exists (half_weight h p (fst (quad_co i))), (half_weight g q (snd (quad_co i))).
  destruct (quad_params _ _ l El) as (-> & ->). split; [apply hat_half; [apply Hp|apply Hc]|]. split; [apply hat_half; [apply Hp|apply Hc]|].
  apply Hw, Hi.
Qed.
Lemma quad_divides : divides Quadrilateral quad_cs.
Proof.
  apply divide; [vm_compute; reflexivity|vm_compute; reflexivity|..]; cbn [cell_weights].
  - intros l Hl. apply (quad_ok l Hl).
  - intros c m Hc (a & b & Ha & Hb & ->). destruct (nth_cell 4 _ c Hc eq_refl) as (k & Hk & <-).
    assert (Hp : unit (snd (fst (quad_map k a b))) /\ unit (snd (snd (quad_map k a b)))).
    { do 3 (destruct k as [|k]; [split; assumption|]). split; assumption. }
    pose proof (quad_child k a b Hk) as H. destruct (quad_map k a b) as [[h p] [g q]]. cbn [fst snd] in Hp. destruct H as (El & _).
    exists (at_half h p), (at_half g q). split; [apply unit_half, Hp|]. split; [apply unit_half, Hp|exact El].
  - intros l (s & t & Hs & Ht & ->).
    assert (F : forall k a b, k < 4 -> unit a -> unit b ->
      at_half (fst (fst (quad_map k a b))) (snd (fst (quad_map k a b))) = s -> at_half (fst (snd (quad_map k a b))) (snd (snd (quad_map k a b))) = t ->
      exists c m, In c quad_cs /\ quad_weights m /\ pw Quadrilateral c m = times (segment s) (segment t)).
    { intros k a b Hk Ha Hb E1 E2. exists (nth k quad_cs []), (quad_w a b). split; [apply nth_In; exact Hk|]. split; [exists a, b; auto|].
      pose proof (quad_child k a b Hk) as H. destruct (quad_map k a b) as [[h p] [g q]]. cbn [fst snd] in E1, E2. rewrite (proj1 H), E1, E2. reflexivity. }
    destruct (some_half s Hs) as [(a & Ha & Ea)|(a & Ha & Ea)]; destruct (some_half t Ht) as [(b & Hb & Eb)|(b & Hb & Eb)].
    + apply (F 0 a b); auto; lia.
    + apply (F 2 a b); auto; lia.
    + apply (F 1 b a); auto; lia.
    + apply (F 3 a b); auto; lia.
  - intros c c' m m' Hc Hc' (a & b & Ha & Hb & ->) (a' & b' & Ha' & Hb' & ->) Ew i Hi.
    destruct (nth_cell 4 _ c Hc eq_refl) as (k & Hk & <-). destruct (nth_cell 4 _ c' Hc' eq_refl) as (k' & Hk' & <-).
    pose proof (quad_hat k a b i Hk Ha Hb Hi) as (x & y & H1 & H2 & E). pose proof (quad_hat k' a' b' i Hk' Ha' Hb' Hi) as (x' & y' & H1' & H2' & E').
    unfold quad_w in *. rewrite E, E'. rewrite Ew in H1, H2. rewrite (hat_fun _ _ _ H1 H1'), (hat_fun _ _ _ H2 H2'). reflexivity.
Qed.

(** ** Hexahedra *)
Definition hex_cs : list (list nat) :=
  [[0; 9; 8; 20; 10; 22; 21; 26]; [1; 11; 8; 20; 12; 23; 21; 26]; [2; 13; 9; 20; 14; 24; 22; 26]; [3; 13; 11; 20; 15; 24; 23; 26];
   [4; 16; 10; 21; 17; 25; 22; 26]; [5; 16; 12; 21; 18; 25; 23; 26]; [6; 17; 14; 22; 19; 25; 24; 26]; [7; 18; 15; 23; 19; 25; 24; 26]].
Definition hex_w (s t u : R) : list R := times (times (segment s) (segment t)) (segment u).
Definition hex_map (k : nat) (a b d : R) : (half * R) * (half * R) * (half * R) :=
  match k with
  | 0 => ((Lower, b), (Lower, a), (Lower, d)) | 1 => ((Upper, b), (Lower, a), (Lower, d))
  | 2 => ((Lower, a), (Upper, b), (Lower, d)) | 3 => ((Upper, a), (Upper, b), (Lower, d))
  | 4 => ((Lower, a), (Lower, d), (Upper, b)) | 5 => ((Upper, a), (Lower, d), (Upper, b))
  | 6 => ((Lower, d), (Upper, a), (Upper, b)) | _ => ((Upper, d), (Upper, a), (Upper, b))
  end.
Definition hex_co (i : nat) : nat * nat * nat :=
  nth i [(0, 0, 0); (2, 0, 0); (0, 2, 0); (2, 2, 0); (0, 0, 2); (2, 0, 2); (0, 2, 2); (2, 2, 2);
         (1, 0, 0); (0, 1, 0); (0, 0, 1); (2, 1, 0); (2, 0, 1); (1, 2, 0); (0, 2, 1); (2, 2, 1); (1, 0, 2); (0, 1, 2); (2, 1, 2); (1, 2, 2);
         (1, 1, 0); (1, 0, 1); (0, 1, 1); (2, 1, 1); (1, 2, 1); (1, 1, 2); (1, 1, 1)] (0, 0, 0).
Ltac prodh := unfold hex_w, times, segment, hex_co; cbn [map concat app]; pwc; cbn [at_half half_weight fst snd].
Lemma hex_child k a b d : k < 8 -> let '((h, p), (g, q), (f, o)) := hex_map k a b d in
  pw Hexahedron (nth k hex_cs []) (hex_w a b d) = hex_w (at_half h p) (at_half g q) (at_half f o) /\
  forall i, i < 27 -> weight i (nth k hex_cs []) (hex_w a b d)
    = (half_weight h p (fst (fst (hex_co i))) * half_weight g q (snd (fst (hex_co i))) * half_weight f o (snd (hex_co i)))%R.
Proof.
  intro Hk. unfold hex_cs. do 8 (destruct k as [|k]; [cbn [hex_map nth]; split;
   [prodh; lists; field | intros i Hi; do 27 (destruct i as [|i]; [prodh; ring|]); lia]|]). lia.
Qed.
Lemma hex_params s t u l : l = hex_w s t u ->
  (nth 1 l 0 + nth 3 l 0 + nth 5 l 0 + nth 7 l 0 = s)%R /\ (nth 2 l 0 + nth 3 l 0 + nth 6 l 0 + nth 7 l 0 = t)%R /\
  (nth 4 l 0 + nth 5 l 0 + nth 6 l 0 + nth 7 l 0 = u)%R.
Proof. intros ->. unfold hex_w, times, segment. cbn [map concat app nth]. split; [ring|split; ring]. Qed.
Lemma hex_map_unit k a b d : unit a -> unit b -> unit d ->
  unit (snd (fst (fst (hex_map k a b d)))) /\ unit (snd (snd (fst (hex_map k a b d)))) /\ unit (snd (snd (hex_map k a b d))).
Proof. intros. do 7 (destruct k as [|k]; [cbn; auto|]). cbn. auto. Qed.
Lemma hex_hat k a b d i : k < 8 -> unit a -> unit b -> unit d -> i < 27 ->
  let l := pw Hexahedron (nth k hex_cs []) (hex_w a b d) in
  hat3 (2 * (nth 1 l 0 + nth 3 l 0 + nth 5 l 0 + nth 7 l 0) - INR (fst (fst (hex_co i))))%R
       (2 * (nth 2 l 0 + nth 3 l 0 + nth 6 l 0 + nth 7 l 0) - INR (snd (fst (hex_co i))))%R
       (2 * (nth 4 l 0 + nth 5 l 0 + nth 6 l 0 + nth 7 l 0) - INR (snd (hex_co i)))%R (weight i (nth k hex_cs []) (hex_w a b d)).
Proof.
  intros Hk Ha Hb Hd Hi l. assert (Hc : fst (fst (hex_co i)) < 3 /\ snd (fst (hex_co i)) < 3 /\ snd (hex_co i) < 3).
  { do 27 (destruct i as [|i]; [cbn; lia|]). lia. }
  pose proof (hex_map_unit k a b d Ha Hb Hd) as Hp.
  pose proof (hex_child k a b d Hk) as H. destruct (hex_map k a b d) as [[[h p] [g q]] [f o]]. cbn [fst snd] in Hp. destruct H as (El & Hw).
  destruct (hex_params _ _ _ l El) as (-> & -> & ->).
  exists (half_weight h p (fst (fst (hex_co i)))), (half_weight g q (snd (fst (hex_co i)))), (half_weight f o (snd (hex_co i))).
  split; [apply hat_half; [apply Hp|apply Hc]|]. split; [apply hat_half; [apply Hp|apply Hc]|]. split; [apply hat_half; [apply Hp|apply Hc]|].
  apply Hw, Hi.
Qed.
Lemma hex_divides : divides Hexahedron hex_cs.
Proof.
  apply divide; [vm_compute; reflexivity|vm_compute; reflexivity|..]; cbn [cell_weights].
  - intros l Hl. apply (hex_ok l Hl).
  - intros c m Hc (a & b & d & Ha & Hb & Hd & ->). destruct (nth_cell 8 _ c Hc eq_refl) as (k & Hk & <-).
    pose proof (hex_map_unit k a b d Ha Hb Hd) as Hp.
    pose proof (hex_child k a b d Hk) as H. destruct (hex_map k a b d) as [[[h p] [g q]] [f o]]. cbn [fst snd] in Hp. destruct H as (El & _).
    exists (at_half h p), (at_half g q), (at_half f o). split; [apply unit_half, Hp|]. split; [apply unit_half, Hp|]. split; [apply unit_half, Hp|exact El].
  - intros l (s & t & u & Hs & Ht & Hu & ->).
    assert (F : forall k a b d, k < 8 -> unit a -> unit b -> unit d ->
      at_half (fst (fst (fst (hex_map k a b d)))) (snd (fst (fst (hex_map k a b d)))) = s ->
      at_half (fst (snd (fst (hex_map k a b d)))) (snd (snd (fst (hex_map k a b d)))) = t ->
      at_half (fst (snd (hex_map k a b d))) (snd (snd (hex_map k a b d))) = u ->
      exists c m, In c hex_cs /\ hex_weights m /\ pw Hexahedron c m = times (times (segment s) (segment t)) (segment u)).
    { intros k a b d Hk Ha Hb Hd E1 E2 E3. exists (nth k hex_cs []), (hex_w a b d). split; [apply nth_In; exact Hk|]. split; [exists a, b, d; auto|].
      pose proof (hex_child k a b d Hk) as H. destruct (hex_map k a b d) as [[[h p] [g q]] [f o]]. cbn [fst snd] in E1, E2, E3. rewrite (proj1 H), E1, E2, E3. reflexivity. }
    destruct (some_half s Hs) as [(a & Ha & Ea)|(a & Ha & Ea)]; destruct (some_half t Ht) as [(b & Hb & Eb)|(b & Hb & Eb)];
      destruct (some_half u Hu) as [(d & Hd & Ed)|(d & Hd & Ed)].
    + apply (F 0 b a d); auto; lia.
    + apply (F 4 a d b); auto; lia.
    + apply (F 2 a b d); auto; lia.
    + apply (F 6 b d a); auto; lia.
    + apply (F 1 b a d); auto; lia.
    + apply (F 5 a d b); auto; lia.
    + apply (F 3 a b d); auto; lia.
    + apply (F 7 b d a); auto; lia.
  - intros c c' m m' Hc Hc' (a & b & d & Ha & Hb & Hd & ->) (a' & b' & d' & Ha' & Hb' & Hd' & ->) Ew i Hi.
    destruct (nth_cell 8 _ c Hc eq_refl) as (k & Hk & <-). destruct (nth_cell 8 _ c' Hc' eq_refl) as (k' & Hk' & <-).
    pose proof (hex_hat k a b d i Hk Ha Hb Hd Hi) as H. pose proof (hex_hat k' a' b' d' i Hk' Ha' Hb' Hd' Hi) as H'. cbv zeta in H, H'.
    unfold hex_w in *. rewrite Ew in H. exact (hat3_fun _ _ _ _ _ H H').
Qed.

(** ** Prisms *)
Definition prism_cs : list (list nat) :=
  [[0; 6; 7; 8; 15; 16]; [6; 1; 9; 15; 10; 17]; [7; 9; 2; 16; 17; 11]; [6; 9; 7; 15; 17; 16]; [15; 17; 16; 12; 14; 13];
   [8; 15; 16; 3; 12; 13]; [11; 17; 16; 5; 14; 13]; [10; 15; 17; 4; 12; 14]].
(** The child of the triangle, and the half of the segment *)
Definition prism_map (k : nat) : list nat * half :=
  match k with
  | 0 => ([0; 5; 4], Lower) | 1 => ([5; 1; 3], Lower) | 2 => ([4; 3; 2], Lower) | 3 => ([5; 3; 4], Lower)
  | 4 => ([5; 3; 4], Upper') | 5 => ([0; 5; 4], Upper') | 6 => ([2; 3; 4], Upper') | _ => ([1; 5; 3], Upper')
  end.
Definition prism_co (i : nat) : nat * nat :=
  nth i [(0, 0); (1, 0); (2, 0); (0, 2); (1, 2); (2, 2); (5, 0); (4, 0); (0, 1); (3, 0); (1, 1); (2, 1); (5, 2); (4, 2); (3, 2); (5, 1); (4, 1); (3, 1)] (0, 0).
Ltac prodp := unfold times, segment, prism_co; cbn [map concat app]; pwc; cbn [at_half half_weight fst snd].
Lemma prism_child k x y z a : k < 8 ->
  pw Prism (nth k prism_cs []) (times [x; y; z] (segment a)) = times (pw Triangle (fst (prism_map k)) [x; y; z]) (segment (at_half (snd (prism_map k)) a)) /\
  forall i, i < 18 -> weight i (nth k prism_cs []) (times [x; y; z] (segment a))
    = (weight (fst (prism_co i)) (fst (prism_map k)) [x; y; z] * half_weight (snd (prism_map k)) a (snd (prism_co i)))%R.
Proof.
  intro Hk. unfold prism_cs. do 8 (destruct k as [|k]; [cbn [prism_map nth fst snd]; split;
   [prodp; unfold times, segment; cbn [map concat app]; lists; field | intros i Hi; do 18 (destruct i as [|i]; [prodp; ring|]); lia]|]). lia.
Qed.
Lemma prism_map_in k : In (fst (prism_map k)) tri_all.
Proof. unfold tri_all, tri_cs. do 7 (destruct k as [|k]; [cbn; auto 12|]). cbn; auto 12. Qed.
Lemma prism_params l k t : simplex_weights 3 k -> l = times k (segment t) ->
  (nth 3 l 0 + nth 4 l 0 + nth 5 l 0 = t)%R /\ (nth 1 l 0 + nth 4 l 0 = nth 1 k 0)%R /\ (nth 2 l 0 + nth 5 l 0 = nth 2 k 0)%R.
Proof.
  intros Hk ->. apply weights3' in Hk as (x & y & z & -> & _ & _ & _ & E). unfold times, segment. cbn [map concat app nth].
  split; [|split; ring]. replace x with (1 - y - z)%R by lra. ring.
Qed.
Lemma prism_hat k m a i : k < 8 -> simplex_weights 3 m -> unit a -> i < 18 ->
  let l := pw Prism (nth k prism_cs []) (times m (segment a)) in
  exists x y, hat [ (2 * ((nth 1 l 0 + nth 4 l 0) + (nth 2 l 0 + nth 5 l 0)) - fst (tri_co (fst (prism_co i))))%R;
                    (2 * (nth 2 l 0 + nth 5 l 0) - snd (tri_co (fst (prism_co i))))%R ] x /\
    hat [(2 * (nth 3 l 0 + nth 4 l 0 + nth 5 l 0) - INR (snd (prism_co i)))%R] y /\
    weight i (nth k prism_cs []) (times m (segment a)) = (x * y)%R.
Proof.
  intros Hk Hm Ha Hi l. assert (Hc : fst (prism_co i) < 6 /\ snd (prism_co i) < 3).
  { do 18 (destruct i as [|i]; [cbn; lia|]). lia. }
  pose proof (tri_in _ m (prism_map_in k) Hm) as Hin.
  pose proof (tri_hat _ m (fst (prism_co i)) (prism_map_in k) Hm (proj1 Hc)) as Ht.
  pose proof (hat_half (snd (prism_map k)) a (snd (prism_co i)) Ha (proj2 Hc)) as Hh.
  apply weights3' in Hm as (x & y & z & -> & Hx & Hy & Hz & E). destruct (prism_child k x y z a Hk) as (El & Hw).
  destruct (prism_params l _ _ Hin El) as (E1 & E2 & E3). rewrite E1, E2, E3. eexists _, _. split; [exact Ht|]. split; [exact Hh|]. apply Hw, Hi.
Qed.
Lemma prism_divides : divides Prism prism_cs.
Proof.
  apply divide; [vm_compute; reflexivity|vm_compute; reflexivity|..]; cbn [cell_weights].
  - intros l Hl. apply (prism_ok l Hl).
  - intros c m Hc (k & a & Hk & Ha & ->). destruct (nth_cell 8 _ c Hc eq_refl) as (n & Hn & <-).
    pose proof (tri_in _ k (prism_map_in n) Hk) as Hin.
    apply weights3' in Hk as (x & y & z & -> & _ & _ & _ & E). destruct (prism_child n x y z a Hn) as (El & _).
    eexists _, _. split; [exact Hin|]. split; [apply unit_half, Ha|exact El].
  - intros l (k & t & Hk & Ht & ->).
    assert (F : forall n m a, n < 8 -> simplex_weights 3 m -> unit a -> pw Triangle (fst (prism_map n)) m = k -> at_half (snd (prism_map n)) a = t ->
      exists c m, In c prism_cs /\ prism_weights m /\ pw Prism c m = times k (segment t)).
    { intros n m a Hn Hm Ha E1 E2. exists (nth n prism_cs []), (times m (segment a)). split; [apply nth_In; exact Hn|]. split; [exists m, a; auto|].
      apply weights3' in Hm as (x & y & z & -> & _ & _ & _ & E). destruct (prism_child n x y z a Hn) as (El & _). rewrite El, E1, E2. reflexivity. }
    assert (Hh : (exists a, unit a /\ at_half Lower a = t) \/ exists a, unit a /\ at_half Upper' a = t).
    { destruct Ht as (H1 & H2). destruct (Rle_dec t (/ 2)) as [L|L]; [left; exists (2 * t)%R|right; exists (2 * t - 1)%R]; (split; [split; lra|cbn; lra]). }
    destruct Hh as [(a & Ha & Ea)|(a & Ha & Ea)].
    + destruct (tri_cover k Hk) as (_ & (c & m & Hc & Hm & Ec) & _). cases0 Hc;
        [apply (F 0 m a)|apply (F 1 m a)|apply (F 2 m a)|apply (F 3 m a)]; auto; lia.
    + destruct (tri_cover k Hk) as (_ & _ & c & m & Hc & Hm & Ec). cases0 Hc;
        [apply (F 5 m a)|apply (F 7 m a)|apply (F 6 m a)|apply (F 4 m a)]; auto; lia.
  - intros c c' m m' Hc Hc' (k & a & Hk & Ha & ->) (k' & a' & Hk' & Ha' & ->) Ew i Hi.
    destruct (nth_cell 8 _ c Hc eq_refl) as (n & Hn & <-). destruct (nth_cell 8 _ c' Hc' eq_refl) as (n' & Hn' & <-).
    pose proof (prism_hat n k a i Hn Hk Ha Hi) as (x & y & H1 & H2 & E). pose proof (prism_hat n' k' a' i Hn' Hk' Ha' Hi) as (x' & y' & H1' & H2' & E').
    rewrite E, E'. rewrite Ew in H1, H2. rewrite (hat_fun _ _ _ H1 H1'), (hat_fun _ _ _ H2 H2'). reflexivity.
Qed.
