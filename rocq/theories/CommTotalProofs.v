(** Proofs about the total of what is sent. *)
From Verif Require Import Base BaseProofs AdjList AdjListSpec IndexMap IndexMapSpec IndexMapProofs CommGraph CommGraphSpec CommGraphProofs.

Section G.
Variables (P : nat) (maps : nat -> imap).
Hypothesis Hok : maps_ok P maps.

Definition holds (r g : nat) : bool := (im_lo (maps r) <=? g) && (g <? im_hi (maps r)).
Lemma holds_iff r g : holds r g = true <-> owns (maps r) g.
Proof. unfold holds, owns. rewrite andb_true_iff, Nat.leb_le, Nat.ltb_lt. tauto. Qed.

Lemma lsum_zero l : (forall x, In x l -> x = 0) -> lsum l = 0.
Proof. induction l as [|x t IH]; intro H; [reflexivity|]. unfold lsum in *. cbn. rewrite (H x (or_introl eq_refl)), IH; [reflexivity|]. intros; apply H; now right. Qed.
Lemma lsum_add {A} (f g : A -> nat) l : lsum (map (fun x => f x + g x) l) = lsum (map f l) + lsum (map g l).
Proof. induction l as [|x t IH]; [reflexivity|]. unfold lsum in *. cbn. rewrite IH. lia. Qed.
Lemma lsum_one (f : nat -> nat) l a : NoDup l -> In a l -> f a = 1 -> (forall x, In x l -> x <> a -> f x = 0) -> lsum (map f l) = 1.
Proof.
  intros Hn Ha Ea H. induction l as [|x t IH]; [easy|]. inversion Hn as [|? ? Hx Ht]; subst. unfold lsum in *. cbn. destruct Ha as [->|Ha].
  - rewrite Ea. enough (E : lsum (map f t) = 0) by (unfold lsum in E; rewrite E; reflexivity). apply lsum_zero. intros y Hy. apply in_map_iff in Hy as (z & <- & Hz). apply H; [now right|]. intros ->. contradiction.
  - rewrite (H x (or_introl eq_refl)) by (intros ->; contradiction). rewrite IH; [reflexivity|assumption|assumption|]. intros; apply H; [now right|assumption].
Qed.

Lemma one_owner q g : q < P -> In g (im_ghosts (maps q)) -> lsum (map (fun r => if holds r g then 1 else 0) (seq 0 P)) = 1.
Proof.
  intros Hq Hg. destruct (In_nth_error _ _ Hg) as (k & Hk). destruct (nth_error (im_owners (maps q)) k) as [o|] eqn:Eo.
  2:{ apply nth_error_None in Eo. rewrite (mo_len _ _ Hok q Hq) in Eo. apply nth_error_None in Eo. congruence. }
  destruct (mo_owner _ _ Hok q k g o Hq Hk Eo) as (Ho & _ & Hw). apply (lsum_one _ _ o); [apply seq_NoDup|apply in_seq; lia| |].
  - now rewrite (proj2 (holds_iff o g) Hw).
  - intros r Hr N. apply in_seq in Hr. destruct (holds r g) eqn:E; [|reflexivity]. exfalso. apply N. apply holds_iff in E. apply (owner_unique P maps Hok r o g); try assumption; lia.
Qed.

Lemma total_ok q : q < P -> lsum (map (fun r => length (ghosts_from maps r q)) (seq 0 P)) = length (im_ghosts (maps q)).
Proof.
  intro Hq. pose proof (one_owner q) as H. unfold ghosts_from. revert H. generalize (im_ghosts (maps q)) as gs. induction gs as [|g gs IH]; intro H.
  - apply lsum_zero. intros x Hx. apply in_map_iff in Hx as (r & <- & _). reflexivity.
  - rewrite (map_ext _ (fun r => (if holds r g then 1 else 0) + length (filter (fun g => (im_lo (maps r) <=? g) && (g <? im_hi (maps r))) gs))).
    + rewrite lsum_add, (H g Hq (or_introl eq_refl)), IH; [reflexivity|]. intros g' Hq' Hg'. apply H; [exact Hq'|now right].
    + intro r. cbn [filter]. unfold holds. now destruct ((im_lo (maps r) <=? g) && (g <? im_hi (maps r))).
Qed.

(** The weights of the edges into [q] in row [r] *)
Lemma row_weight node r q : r < P -> q < P ->
  lsum (map (fun e => snd (fst e)) (filter (fun e => fst (fst e) =? q) (edges_from P maps node r))) = length (ghosts_from maps r q).
Proof.
  intros Hr Hq. unfold edges_from, receivers.
  assert (Z : r = q -> length (ghosts_from maps r q) = 0).
  { intros ->. rewrite <- (owner_counts P maps Hok q q Hq Hq). destruct (filter (Nat.eqb q) (im_owners (maps q))) as [|o t] eqn:E; [reflexivity|exfalso].
    assert (F : In o (filter (Nat.eqb q) (im_owners (maps q)))) by (rewrite E; now left). apply filter_In in F as (F & Eo). apply Nat.eqb_eq in Eo. subst o.
    destruct (In_nth_error _ _ F) as (k & Hk). destruct (nth_error (im_ghosts (maps q)) k) as [g|] eqn:Eg.
    - now destruct (mo_owner _ _ Hok q k g q Hq Eg Hk) as (_ & N & _).
    - apply nth_error_None in Eg. rewrite <- (mo_len _ _ Hok q Hq) in Eg. apply nth_error_None in Eg. congruence. }
  assert (G : forall l, NoDup l -> lsum (map (fun e : nat * nat * nat => snd (fst e)) (filter (fun e => fst (fst e) =? q)
     (map (fun q => (q, length (ghosts_from maps r q), if node q =? node r then 1 else 0)) (filter (fun q => negb (q =? r) && negb (length (ghosts_from maps r q) =? 0)) l))))
     = if existsb (Nat.eqb q) l then length (ghosts_from maps r q) else 0).
  { induction l as [|x t IH]; intro Hn; [reflexivity|]. inversion Hn as [|? ? Hx Ht]; subst. specialize (IH Ht). cbn [filter existsb].
    destruct (Nat.eqb_spec q x) as [<-|N].
    - cbn [orb]. assert (E : existsb (Nat.eqb q) t = false).
      { destruct (existsb (Nat.eqb q) t) eqn:E; [|reflexivity]. apply existsb_exists in E as (y & Hy & E). apply Nat.eqb_eq in E. now subst. }
      rewrite E in IH. destruct (negb (q =? r) && negb (length (ghosts_from maps r q) =? 0)) eqn:C.
      + cbn [map filter fst snd]. rewrite Nat.eqb_refl. cbn [map fst snd]. unfold lsum in *. cbn [fold_right]. rewrite IH. lia.
      + rewrite IH. symmetry. apply andb_false_iff in C as [C|C]; apply negb_false_iff, Nat.eqb_eq in C; [now apply Z|exact C].
    - cbn [orb]. destruct (negb (x =? r) && negb (length (ghosts_from maps r x) =? 0)); [|exact IH].
      cbn [map filter fst snd]. destruct (Nat.eqb_spec x q); [congruence|exact IH]. }
  rewrite G by apply seq_NoDup. assert (existsb (Nat.eqb q) (seq 0 P) = true) as ->; [|reflexivity].
  apply existsb_exists. exists q. split; [apply in_seq; lia|apply Nat.eqb_refl].
Qed.

Lemma into_ok node q : q < P ->
  lsum (map (fun e => snd (fst e)) (filter (fun e => fst (fst e) =? q) (concat (map (edges_from P maps node) (seq 0 P))))) = length (im_ghosts (maps q)).
Proof.
  intro Hq. rewrite <- (total_ok q Hq).
  assert (G : forall l, (forall r, In r l -> r < P) -> lsum (map (fun e => snd (fst e)) (filter (fun e => fst (fst e) =? q) (concat (map (edges_from P maps node) l)))) = lsum (map (fun r => length (ghosts_from maps r q)) l)).
  { induction l as [|r t IH]; intro H; [reflexivity|]. cbn [map concat]. rewrite filter_app, map_app, lsum_app. change (lsum (?x :: ?y)) with (x + lsum y).
    rewrite IH by (intros; apply H; now right). rewrite row_weight by (try assumption; apply H; now left). reflexivity. }
  apply G. intros r Hr. apply in_seq in Hr. lia.
Qed.
End G.
