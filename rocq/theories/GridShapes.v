(** The divisions of a cuboid of the grid into tetrahedra, hexahedra, prisms, and of squares
    and segments. *)
From Coq Require Import Reals Lra.
From Verif Require Import Base BaseProofs GenerationSpec GridTiling GridCells.
Open Scope nat_scope.

Definition q0 : place := (0, 0, 0).
Definition q1 : place := (1, 0, 0).
Definition q2 : place := (0, 1, 0).
Definition q3 : place := (1, 1, 0).
Definition q4 : place := (0, 0, 1).
Definition q5 : place := (1, 0, 1).
Definition q6 : place := (0, 1, 1).
Definition q7 : place := (1, 1, 1).
Definition tetD : list (list place) :=
  [ [q0; q1; q3; q7]; [q0; q1; q7; q5]; [q0; q5; q7; q4]; [q0; q3; q2; q7]; [q0; q6; q4; q7]; [q0; q2; q6; q7] ].
Definition hexD : list (list place) := [ [q0; q1; q2; q3; q4; q5; q6; q7] ].
Definition prismD : list (list place) := [ [q0; q1; q2; q4; q5; q6]; [q1; q2; q3; q5; q6; q7] ].
Definition quadD : list (list place) := [ [q0; q2; q1; q3] ].
Definition segD : list (list place) := [ [q0; q1] ].

Lemma hat_wit ds r i k : i < S (length ds) -> k < S (length ds) ->
  (1 - nth i (0%R :: ds) 0%R + nth k (0%R :: ds) 0%R <= r)%R ->
  exists a b, In a (0%R :: ds) /\ In b (0%R :: ds) /\ (1 - a + b <= r)%R.
Proof. intros Hi Hk H. eexists _, _. split; [apply nth_In; exact Hi|]. split; [apply nth_In; exact Hk|]. exact H. Qed.

(** Weights *)
Lemma simplex_ok k l : simplex_weights k l -> length l = k /\ (forall a, In a l -> (0 <= a)%R) /\ rsum l = 1%R.
Proof. exact (fun H => H). Qed.
Lemma times_ok k m : (forall a, In a k -> (0 <= a)%R) -> (forall a, In a m -> (0 <= a)%R) ->
  length (times k m) = length k * length m /\ (forall a, In a (times k m) -> (0 <= a)%R) /\ rsum (times k m) = (rsum k * rsum m)%R.
Proof.
  intros Hk Hm. unfold times. split; [|split].
  - clear. induction m as [|b m IH]; [cbn; lia|]. cbn [map concat length]. rewrite app_length, map_length, IH. lia.
  - intros a Ha. apply in_concat in Ha as (t & Ht & Ha). apply in_map_iff in Ht as (b & <- & Hb). apply in_map_iff in Ha as (c & <- & Hc).
    apply Rmult_le_pos; auto.
  - clear. induction m as [|b m IH]; [cbn; lra|]. cbn [map concat]. rewrite rsum_app, IH. cbn [rsum fold_right]. fold (rsum m).
    assert (E : rsum (map (fun a => (a * b)%R) k) = (rsum k * b)%R).
    { clear. induction k as [|a k IH]; [cbn; lra|]. cbn [map rsum fold_right]. fold (rsum k). unfold rsum in *. rewrite IH. lra. }
    rewrite E. lra.
Qed.
Lemma segment_ok t : unit t -> (forall a, In a (segment t) -> (0 <= a)%R) /\ rsum (segment t) = 1%R.
Proof. intros (H1 & H2). split; [|cbn; lra]. intros a [<-|[<-|[]]]; lra. Qed.

Lemma quad_ok l : quad_weights l -> length l = 4 /\ (forall a, In a l -> (0 <= a)%R) /\ rsum l = 1%R.
Proof.
  intros (s & t & Hs & Ht & ->). destruct (segment_ok s Hs) as (Ps & Es). destruct (segment_ok t Ht) as (Pt & Et).
  destruct (times_ok _ _ Ps Pt) as (L & P & E). split; [reflexivity|]. split; [exact P|]. rewrite E, Es, Et. lra.
Qed.
Lemma hex_ok l : hex_weights l -> length l = 8 /\ (forall a, In a l -> (0 <= a)%R) /\ rsum l = 1%R.
Proof.
  intros (s & t & u & Hs & Ht & Hu & ->). destruct (segment_ok s Hs) as (Ps & Es). destruct (segment_ok t Ht) as (Pt & Et).
  destruct (segment_ok u Hu) as (Pu & Eu).
  destruct (times_ok _ _ Ps Pt) as (L & P & E). destruct (times_ok _ _ P Pu) as (L' & P' & E').
  split; [reflexivity|]. split; [exact P'|]. rewrite E', E, Es, Et, Eu. lra.
Qed.
Lemma prism_ok l : prism_weights l -> length l = 6 /\ (forall a, In a l -> (0 <= a)%R) /\ rsum l = 1%R.
Proof.
  intros (k & t & (Lk & Pk & Ek) & Ht & ->). destruct (segment_ok t Ht) as (Pt & Et).
  destruct (times_ok _ _ Pk Pt) as (L & P & E). split; [rewrite L, Lk; reflexivity|]. split; [exact P|]. rewrite E, Ek, Et. lra.
Qed.

(** ** Tetrahedra *)
Lemma binary w : (forall j, co j w <= 1) -> exists a b c, a <= 1 /\ b <= 1 /\ c <= 1 /\ w = (a, b, c).
Proof. destruct w as [[a b] c]. intro H. exists a, b, c. split; [exact (H 0)|]. split; [exact (H 1)|]. split; [exact (H 2)|reflexivity]. Qed.
Ltac bits H := let a := fresh "a" in let b := fresh "b" in let c := fresh "c" in
  let Ha := fresh in let Hb := fresh in let Hc := fresh in
  apply binary in H as (a & b & c & Ha & Hb & Hc & ->);
  destruct a as [|[|a]]; [| |lia]; (destruct b as [|[|b]]; [| |lia]); (destruct c as [|[|c]]; [| |lia]).
Ltac cases0 H := repeat (destruct H as [<-|H]); try contradiction.

Ltac hat_go := split; [lra|split;
  [first [left; lra | right; let a := fresh in let b := fresh in let Ha := fresh in let Hb := fresh in
      intros a b Ha Hb; cbn [In] in Ha, Hb; destruct Ha as [<-|[<-|[<-|[<-|[]]]]]; destruct Hb as [<-|[<-|[<-|[<-|[]]]]]; lra ]
  |first [ apply (hat_wit _ _ 1 0); [cbn; lia|cbn; lia|cbn [nth]; lra] | apply (hat_wit _ _ 2 0); [cbn; lia|cbn; lia|cbn [nth]; lra]
         | apply (hat_wit _ _ 3 0); [cbn; lia|cbn; lia|cbn [nth]; lra] | apply (hat_wit _ _ 0 1); [cbn; lia|cbn; lia|cbn [nth]; lra]
         | apply (hat_wit _ _ 0 2); [cbn; lia|cbn; lia|cbn [nth]; lra] | apply (hat_wit _ _ 0 3); [cbn; lia|cbn; lia|cbn [nth]; lra]
         | apply (hat_wit _ _ 1 2); [cbn; lia|cbn; lia|cbn [nth]; lra] | apply (hat_wit _ _ 1 3); [cbn; lia|cbn; lia|cbn [nth]; lra]
         | apply (hat_wit _ _ 2 3); [cbn; lia|cbn; lia|cbn [nth]; lra] | apply (hat_wit _ _ 2 1); [cbn; lia|cbn; lia|cbn [nth]; lra]
         | apply (hat_wit _ _ 3 1); [cbn; lia|cbn; lia|cbn [nth]; lra] | apply (hat_wit _ _ 3 2); [cbn; lia|cbn; lia|cbn [nth]; lra] ]]].

Lemma four l : length l = 4 -> exists a b c d : R, l = [a; b; c; d].
Proof. destruct l as [|a [|b [|c [|d [|e l]]]]]; try discriminate. intros _. exists a, b, c, d. reflexivity. Qed.
Lemma three l : length l = 3 -> exists a b c : R, l = [a; b; c].
Proof. destruct l as [|a [|b [|c [|e l]]]]; try discriminate. intros _. exists a, b, c. reflexivity. Qed.
Ltac combs := unfold comb, rsum; cbn [map combine fold_right fst snd co peqb Nat.eqb andb INR q0 q1 q2 q3 q4 q5 q6 q7].

Lemma tet_in D l w : In D tetD -> simplex_weights 4 l -> (forall j, co j w <= 1) ->
  hat [ (comb (fun d => INR (co 0 d)) D l - INR (co 0 w))%R;
        (comb (fun d => INR (co 1 d)) D l - INR (co 1 w))%R;
        (comb (fun d => INR (co 2 d)) D l - INR (co 2 w))%R ] (comb (fun d => if peqb d w then 1%R else 0%R) D l).
Proof.
  intros HD (L & P & E) Hw. apply four in L as (a & b & c & d & ->).
  assert (Ha : (0 <= a)%R) by (apply P; cbn; auto). assert (Hb : (0 <= b)%R) by (apply P; cbn; auto).
  assert (Hc : (0 <= c)%R) by (apply P; cbn; auto). assert (Hd : (0 <= d)%R) by (apply P; cbn; auto).
  cbn in E. clear P. bits Hw; unfold tetD in HD; cases0 HD; combs; hat_go.
Qed.

Lemma tet_cover t : (forall j, j < 3 -> unit (t j)) -> (forall j, 3 <= j -> t j = 0%R) ->
  exists D l, In D tetD /\ simplex_weights 4 l /\ forall j, comb (fun d => INR (co j d)) D l = t j.
Proof.
  intros Ht Hz. destruct (Ht 0 ltac:(lia)) as (A1 & A2). destruct (Ht 1 ltac:(lia)) as (B1 & B2). destruct (Ht 2 ltac:(lia)) as (C1 & C2).
  assert (F : forall D l, In D tetD -> length l = 4 -> (forall a, In a l -> (0 <= a)%R) -> rsum l = 1%R ->
    comb (fun d => INR (co 0 d)) D l = t 0 -> comb (fun d => INR (co 1 d)) D l = t 1 -> comb (fun d => INR (co 2 d)) D l = t 2 ->
    exists D l, In D tetD /\ simplex_weights 4 l /\ forall j, comb (fun d => INR (co j d)) D l = t j).
  { intros D l HD L P E E0 E1 E2. exists D, l. split; [exact HD|]. split; [split; [exact L|split; [exact P|exact E]]|].
    intros [|[|[|j]]]; [exact E0|exact E1|exact E2|]. rewrite (Hz (S (S (S j)))) by lia. apply comb_zero. intros d _. reflexivity. }
  destruct (Rle_dec (t 1) (t 0)) as [L1|L1]; destruct (Rle_dec (t 2) (t 1)) as [L2|L2]; destruct (Rle_dec (t 2) (t 0)) as [L3|L3]; try lra.
  - apply (F [q0; q1; q3; q7] [1 - t 0%nat; t 0%nat - t 1%nat; t 1%nat - t 2%nat; t 2%nat]%R); [cbn; auto 10|reflexivity|..]; try (combs; lra).
    intros a Ha. cases0 Ha; lra.
  - apply (F [q0; q1; q7; q5] [1 - t 0%nat; t 0%nat - t 2%nat; t 1%nat; t 2%nat - t 1%nat]%R); [cbn; auto 10|reflexivity|..]; try (combs; lra).
    intros a Ha. cases0 Ha; lra.
  - apply (F [q0; q5; q7; q4] [1 - t 2%nat; t 0%nat - t 1%nat; t 1%nat; t 2%nat - t 0%nat]%R); [cbn; auto 10|reflexivity|..]; try (combs; lra).
    intros a Ha. cases0 Ha; lra.
  - apply (F [q0; q3; q2; q7] [1 - t 1%nat; t 0%nat - t 2%nat; t 1%nat - t 0%nat; t 2%nat]%R); [cbn; auto 10|reflexivity|..]; try (combs; lra).
    intros a Ha. cases0 Ha; lra.
  - apply (F [q0; q2; q6; q7] [1 - t 1%nat; t 1%nat - t 2%nat; t 2%nat - t 0%nat; t 0%nat]%R); [cbn; auto 10|reflexivity|..]; try (combs; lra).
    intros a Ha. cases0 Ha; lra.
  - apply (F [q0; q6; q4; q7] [1 - t 2%nat; t 1%nat - t 0%nat; t 2%nat - t 1%nat; t 0%nat]%R); [cbn; auto 10|reflexivity|..]; try (combs; lra).
    intros a Ha. cases0 Ha; lra.
Qed.

(** ** Products *)
Definition hat3 (d0 d1 d2 r : R) : Prop := exists a b c, hat [d0] a /\ hat [d1] b /\ hat [d2] c /\ r = (a * b * c)%R.
Lemma hat3_fun d0 d1 d2 r s : hat3 d0 d1 d2 r -> hat3 d0 d1 d2 s -> r = s.
Proof.
  intros (a & b & c & Ha & Hb & Hc & ->) (a' & b' & c' & Ha' & Hb' & Hc' & ->).
  rewrite (hat_fun _ _ _ Ha Ha'), (hat_fun _ _ _ Hb Hb'), (hat_fun _ _ _ Hc Hc'). reflexivity.
Qed.
Lemma hat_some ds : exists r, hat ds r.
Proof.
  (* the least of finitely many numbers *)
  set (L := 0%R :: ds).
  assert (M : forall l, l <> [] -> exists x : R, In x l /\ forall y, In y l -> (x <= y)%R).
  { induction l as [|x l IH]; [congruence|]. intros _. destruct l as [|y l].
    - exists x. split; [left; reflexivity|]. intros z [->|[]]. lra.
    - destruct IH as (m & Hm & Lm); [discriminate|]. destruct (Rle_dec x m) as [H|H].
      + exists x. split; [left; reflexivity|]. intros z [->|Hz]; [lra|]. specialize (Lm z Hz). lra.
      + exists m. split; [right; exact Hm|]. intros z [->|Hz]; [lra|]. exact (Lm z Hz). }
  destruct (M (concat (map (fun a => map (fun b => (1 - a + b)%R) L) L))) as (m & Hm & Lm).
  { unfold L. cbn. discriminate. }
  assert (In' : forall a b, In a L -> In b L -> In (1 - a + b)%R (concat (map (fun a => map (fun b => (1 - a + b)%R) L) L))).
  { intros a b Ha Hb. apply in_concat. exists (map (fun b => (1 - a + b)%R) L). split.
    - apply (in_map (fun a => map (fun b => (1 - a + b)%R) L)), Ha.
    - apply (in_map (fun b => (1 - a + b)%R)), Hb. }
  apply in_concat in Hm as (t & Ht & Hm). apply in_map_iff in Ht as (a & <- & Ha). apply in_map_iff in Hm as (b & <- & Hb).
  destruct (Rle_dec 0 (1 - a + b)) as [P|P].
  - exists (1 - a + b)%R. split; [exact P|]. split; [right; intros x y Hx Hy; apply Lm, In'; assumption|].
    exists a, b. split; [exact Ha|]. split; [exact Hb|lra].
  - exists 0%R. split; [lra|]. split; [left; reflexivity|]. exists a, b. split; [exact Ha|]. split; [exact Hb|lra].
Qed.
Lemma hat3_out d0 d1 d2 d : In d [d0; d1; d2] -> (d <= -1 \/ 1 <= d)%R -> hat3 d0 d1 d2 0%R.
Proof.
  intros Hd H. destruct (hat_some [d0]) as (a & Ha). destruct (hat_some [d1]) as (b & Hb). destruct (hat_some [d2]) as (c & Hc).
  pose proof (hat_out [d] d (or_introl eq_refl) H) as Z.
  cbn in Hd. destruct Hd as [<-|[<-|[<-|[]]]]; [exists 0%R, b, c|exists a, 0%R, c|exists a, b, 0%R];
    (split; [assumption|]; split; [assumption|]; split; [assumption|]; lra).
Qed.

(** The weights of the ends of a segment *)
Definition seg (s : R) (w : nat) : R := match w with 0 => (1 - s)%R | 1 => s | _ => 0%R end.
Lemma hat_seg s w : unit s -> w <= 1 -> hat [(s - INR w)%R] (seg s w).
Proof.
  intros (H1 & H2) Hw. destruct w as [|[|w]]; [| |lia]; cbn [seg INR].
  - split; [lra|]. split; [right; intros a b Ha Hb; cases0 Ha; cases0 Hb; lra|]. apply (hat_wit _ _ 1 0); [cbn; lia|cbn; lia|cbn [nth]; lra].
  - split; [lra|]. split; [right; intros a b Ha Hb; cases0 Ha; cases0 Hb; lra|]. apply (hat_wit _ _ 0 1); [cbn; lia|cbn; lia|cbn [nth]; lra].
Qed.

Lemma hat3_at s t u w d0 d1 d2 r : unit s -> unit t -> unit u -> (forall j, co j w <= 1) ->
  d0 = (s - INR (co 0 w))%R -> d1 = (t - INR (co 1 w))%R -> d2 = (u - INR (co 2 w))%R ->
  r = (seg s (co 0 w) * seg t (co 1 w) * seg u (co 2 w))%R -> hat3 d0 d1 d2 r.
Proof.
  intros Hs Ht Hu Hw -> -> -> ->. exists (seg s (co 0 w)), (seg t (co 1 w)), (seg u (co 2 w)).
  split; [apply hat_seg; [exact Hs|apply Hw]|]. split; [apply hat_seg; [exact Ht|apply Hw]|]. split; [apply hat_seg; [exact Hu|apply Hw]|reflexivity].
Qed.
Ltac prods := unfold times, segment; cbn [map concat app]; combs; cbn [seg].

Lemma hex_in D l w : In D hexD -> hex_weights l -> (forall j, co j w <= 1) ->
  hat3 (comb (fun d => INR (co 0 d)) D l - INR (co 0 w))%R
       (comb (fun d => INR (co 1 d)) D l - INR (co 1 w))%R
       (comb (fun d => INR (co 2 d)) D l - INR (co 2 w))%R (comb (fun d => if peqb d w then 1%R else 0%R) D l).
Proof.
  intros HD (s & t & u & Hs & Ht & Hu & ->) Hw. unfold hexD in HD. cases0 HD. apply (hat3_at s t u w); try assumption.
  - prods. ring.
  - prods. ring.
  - prods. ring.
  - bits Hw; prods; ring.
Qed.
Lemma hex_cover t : (forall j, j < 3 -> unit (t j)) -> (forall j, 3 <= j -> t j = 0%R) ->
  exists D l, In D hexD /\ hex_weights l /\ forall j, comb (fun d => INR (co j d)) D l = t j.
Proof.
  intros Ht Hz. eexists _, _. split; [left; reflexivity|]. split.
  - exists (t 0), (t 1), (t 2). split; [apply Ht; lia|]. split; [apply Ht; lia|]. split; [apply Ht; lia|reflexivity].
  - intros [|[|[|j]]]; [prods; ring|prods; ring|prods; ring|]. rewrite (Hz (S (S (S j)))) by lia. apply comb_zero. intros d _. reflexivity.
Qed.

Lemma quad_in D l w : In D quadD -> quad_weights l -> (forall j, co j w <= 1) ->
  hat3 (comb (fun d => INR (co 0 d)) D l - INR (co 0 w))%R
       (comb (fun d => INR (co 1 d)) D l - INR (co 1 w))%R
       (comb (fun d => INR (co 2 d)) D l - INR (co 2 w))%R (comb (fun d => if peqb d w then 1%R else 0%R) D l).
Proof.
  intros HD (s & t & Hs & Ht & ->) Hw. unfold quadD in HD. cases0 HD.
  assert (H0 : unit 0) by (split; lra). apply (hat3_at t s 0 w); try assumption.
  - prods. ring.
  - prods. ring.
  - prods. ring.
  - bits Hw; prods; ring.
Qed.
Lemma quad_cover t : (forall j, j < 2 -> unit (t j)) -> (forall j, 2 <= j -> t j = 0%R) ->
  exists D l, In D quadD /\ quad_weights l /\ forall j, comb (fun d => INR (co j d)) D l = t j.
Proof.
  intros Ht Hz. eexists _, _. split; [left; reflexivity|]. split.
  - exists (t 1), (t 0). split; [apply Ht; lia|]. split; [apply Ht; lia|reflexivity].
  - intros [|[|[|j]]]; [prods; ring|prods; ring|rewrite (Hz 2) by lia; prods; ring|]. rewrite (Hz (S (S (S j)))) by lia. apply comb_zero. intros d _. reflexivity.
Qed.

Lemma two l : length l = 2 -> exists a b : R, l = [a; b].
Proof. destruct l as [|a [|b [|c l]]]; try discriminate. intros _. exists a, b. reflexivity. Qed.
Lemma seg_in D l w : In D segD -> simplex_weights 2 l -> (forall j, co j w <= 1) ->
  hat3 (comb (fun d => INR (co 0 d)) D l - INR (co 0 w))%R
       (comb (fun d => INR (co 1 d)) D l - INR (co 1 w))%R
       (comb (fun d => INR (co 2 d)) D l - INR (co 2 w))%R (comb (fun d => if peqb d w then 1%R else 0%R) D l).
Proof.
  intros HD (L & P & E) Hw. apply two in L as (a & b & ->). unfold segD in HD. cases0 HD.
  assert (Ha : (0 <= a)%R) by (apply P; cbn; auto). assert (Hb : (0 <= b)%R) by (apply P; cbn; auto). cbn in E.
  assert (H0 : unit 0) by (split; lra). assert (Hu : unit b) by (split; lra). assert (Ea : a = (1 - b)%R) by lra. subst a.
  apply (hat3_at b 0 0 w); try assumption.
  - prods. ring.
  - prods. ring.
  - prods. ring.
  - bits Hw; prods; ring.
Qed.
Lemma seg_cover t : unit (t 0) -> (forall j, 1 <= j -> t j = 0%R) ->
  exists D l, In D segD /\ simplex_weights 2 l /\ forall j, comb (fun d => INR (co j d)) D l = t j.
Proof.
  intros Ht Hz. exists [q0; q1], (segment (t 0)). split; [left; reflexivity|]. split.
  - destruct (segment_ok _ Ht) as (P & E). split; [reflexivity|]. split; [exact P|exact E].
  - intros [|[|[|j]]]; [prods; ring|rewrite (Hz 1) by lia; prods; ring|rewrite (Hz 2) by lia; prods; ring|]. rewrite (Hz (S (S (S j)))) by lia. apply comb_zero. intros d _. reflexivity.
Qed.

(** ** Prisms *)
Definition hatp (d0 d1 d2 r : R) : Prop := exists a b, hat [d0; (- d1)%R] a /\ hat [d2] b /\ r = (a * b)%R.
Lemma hatp_fun d0 d1 d2 r s : hatp d0 d1 d2 r -> hatp d0 d1 d2 s -> r = s.
Proof.
  intros (a & b & Ha & Hb & ->) (a' & b' & Ha' & Hb' & ->).
  rewrite (hat_fun _ _ _ Ha Ha'), (hat_fun _ _ _ Hb Hb'). reflexivity.
Qed.
Lemma hatp_out d0 d1 d2 d : In d [d0; d1; d2] -> (d <= -1 \/ 1 <= d)%R -> hatp d0 d1 d2 0%R.
Proof.
  intros Hd H. destruct (hat_some [d0; (- d1)%R]) as (a & Ha). destruct (hat_some [d2]) as (b & Hb).
  cbn in Hd. destruct Hd as [<-|[<-|[<-|[]]]].
  - exists 0%R, b. split; [apply (hat_out _ d0); [left; reflexivity|exact H]|]. split; [exact Hb|lra].
  - exists 0%R, b. split; [apply (hat_out _ (- d1)%R); [right; left; reflexivity|]; lra|]. split; [exact Hb|lra].
  - exists a, 0%R. split; [exact Ha|]. split; [apply (hat_out _ d2); [left; reflexivity|exact H]|lra].
Qed.
Ltac hat_go2 := split; [lra|split;
  [first [left; lra | right; let a := fresh in let b := fresh in let Ha := fresh in let Hb := fresh in
      intros a b Ha Hb; cbn [In] in Ha, Hb; destruct Ha as [<-|[<-|[<-|[]]]]; destruct Hb as [<-|[<-|[<-|[]]]]; lra ]
  |first [ apply (hat_wit _ _ 1 0); [cbn; lia|cbn; lia|cbn [nth]; lra] | apply (hat_wit _ _ 2 0); [cbn; lia|cbn; lia|cbn [nth]; lra]
         | apply (hat_wit _ _ 0 1); [cbn; lia|cbn; lia|cbn [nth]; lra] | apply (hat_wit _ _ 0 2); [cbn; lia|cbn; lia|cbn [nth]; lra]
         | apply (hat_wit _ _ 1 2); [cbn; lia|cbn; lia|cbn [nth]; lra] | apply (hat_wit _ _ 2 1); [cbn; lia|cbn; lia|cbn [nth]; lra] ]]].
Definition leftD : list (list place) := [ [q0; q1; q2]; [q1; q2; q3] ].
Lemma left_in D k w : In D leftD -> simplex_weights 3 k -> (forall j, co j w <= 1) -> co 2 w = 0 ->
  hat [ (comb (fun d => INR (co 0 d)) D k - INR (co 0 w))%R;
        (- (comb (fun d => INR (co 1 d)) D k - INR (co 1 w)))%R ] (comb (fun d => if peqb d w then 1%R else 0%R) D k).
Proof.
  intros HD (L & P & E) Hw Hz. apply three in L as (a & b & c & ->).
  assert (Ha : (0 <= a)%R) by (apply P; cbn; auto). assert (Hb : (0 <= b)%R) by (apply P; cbn; auto).
  assert (Hc : (0 <= c)%R) by (apply P; cbn; auto).
  cbn in E. clear P. bits Hw; try discriminate; unfold leftD in HD; cases0 HD; combs; hat_go2.
Qed.
Lemma prism_in D l w : In D prismD -> prism_weights l -> (forall j, co j w <= 1) ->
  hatp (comb (fun d => INR (co 0 d)) D l - INR (co 0 w))%R
       (comb (fun d => INR (co 1 d)) D l - INR (co 1 w))%R
       (comb (fun d => INR (co 2 d)) D l - INR (co 2 w))%R (comb (fun d => if peqb d w then 1%R else 0%R) D l).
Proof.
  intros HD (k & t & Hk & Ht & ->) Hw. set (w' := (co 0 w, co 1 w, 0)).
  assert (Hw' : forall j, co j w' <= 1) by (intros [|[|[|j]]]; [apply (Hw 0)|apply (Hw 1)|cbn; lia|cbn; lia]).
  assert (F : forall D', In D' leftD -> D = D' ++ map (fun d => (fst d, 1)) D' ->
    hatp (comb (fun d => INR (co 0 d)) D (times k (segment t)) - INR (co 0 w))%R
       (comb (fun d => INR (co 1 d)) D (times k (segment t)) - INR (co 1 w))%R
       (comb (fun d => INR (co 2 d)) D (times k (segment t)) - INR (co 2 w))%R (comb (fun d => if peqb d w then 1%R else 0%R) D (times k (segment t)))).
  { intros D' HD' ED. exists (comb (fun d => if peqb d w' then 1%R else 0%R) D' k), (seg t (co 2 w)).
    pose proof (left_in D' k w' HD' Hk Hw' eq_refl) as H. destruct Hk as (L & P & E). apply three in L as (a & b & c & ->). cbn in E.
    split; [|split].
    - replace (comb (fun d => INR (co 0 d)) D (times [a; b; c] (segment t)) - INR (co 0 w))%R
        with (comb (fun d => INR (co 0 d)) D' [a; b; c] - INR (co 0 w'))%R
        by (change (co 0 w') with (co 0 w); change (co 1 w') with (co 1 w); rewrite ED; unfold leftD in HD'; cases0 HD'; prods; ring).
      replace (- (comb (fun d => INR (co 1 d)) D (times [a; b; c] (segment t)) - INR (co 1 w)))%R
        with (- (comb (fun d => INR (co 1 d)) D' [a; b; c] - INR (co 1 w')))%R
        by (change (co 0 w') with (co 0 w); change (co 1 w') with (co 1 w); rewrite ED; unfold leftD in HD'; cases0 HD'; prods; ring).
      exact H.
    - replace (comb (fun d => INR (co 2 d)) D (times [a; b; c] (segment t)) - INR (co 2 w))%R with (t - INR (co 2 w))%R.
      + apply hat_seg; [exact Ht|apply Hw].
      + assert (Ea : a = (1 - b - c)%R) by lra. rewrite Ea. rewrite ED; unfold leftD in HD'; cases0 HD'; prods; ring.
    - rewrite ED. clear H. unfold w'. clear w' Hw'. bits Hw; unfold leftD in HD'; cases0 HD'; prods; ring. }
  unfold prismD in HD. cases0 HD.
  - apply (F [q0; q1; q2]); [left; reflexivity|reflexivity].
  - apply (F [q1; q2; q3]); [right; left; reflexivity|reflexivity].
Qed.
Lemma prism_cover t : (forall j, j < 3 -> unit (t j)) -> (forall j, 3 <= j -> t j = 0%R) ->
  exists D l, In D prismD /\ prism_weights l /\ forall j, comb (fun d => INR (co j d)) D l = t j.
Proof.
  intros Ht Hz. pose proof (Ht 0 ltac:(lia)) as (A1 & A2). pose proof (Ht 1 ltac:(lia)) as (B1 & B2).
  destruct (Rle_dec (t 0%nat + t 1%nat) 1) as [L|L].
  - exists [q0; q1; q2; q4; q5; q6], (times [1 - t 0%nat - t 1%nat; t 0%nat; t 1%nat]%R (segment (t 2))). split; [left; reflexivity|]. split.
    + eexists _, (t 2). split; [|split; [apply Ht; lia|reflexivity]]. split; [reflexivity|]. split; [|cbn; lra].
      intros a Ha. cases0 Ha; lra.
    + intros [|[|[|j]]]; [prods; ring|prods; ring|prods; ring|]. rewrite (Hz (S (S (S j)))) by lia. apply comb_zero. intros d _. reflexivity.
  - exists [q1; q2; q3; q5; q6; q7], (times [1 - t 1%nat; 1 - t 0%nat; t 0%nat + t 1%nat - 1]%R (segment (t 2))). split; [right; left; reflexivity|]. split.
    + eexists _, (t 2). split; [|split; [apply Ht; lia|reflexivity]]. split; [reflexivity|]. split; [|cbn; lra].
      intros a Ha. cases0 Ha; lra.
    + intros [|[|[|j]]]; [prods; ring|prods; ring|prods; ring|]. rewrite (Hz (S (S (S j)))) by lia. apply comb_zero. intros d _. reflexivity.
Qed.
