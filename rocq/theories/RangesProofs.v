From Verif Require Import Base Ranges.
Open Scope Z_scope.

Ltac divmod N P := pose proof (Z.div_mod N P); pose proof (Z.mod_pos_bound N P);
                   assert (0 <= N / P) by (apply Z.div_pos; lia).

Lemma local_range_first N P : 0 < P -> 0 <= N -> fst (local_range 0 N P) = 0.
Proof. intros HP HN. unfold local_range. divmod N P. destruct (Z.ltb_spec 0 (N mod P)); cbn; lia. Qed.

Lemma local_range_last N P : 0 < P -> 0 <= N -> snd (local_range (P - 1) N P) = N.
Proof.
  intros HP HN. unfold local_range. divmod N P. destruct (Z.ltb_spec (P - 1) (N mod P)); cbn; nia.
Qed.

Lemma local_range_consecutive r N P : 0 < P -> 0 <= N -> 0 <= r ->
  snd (local_range r N P) = fst (local_range (r + 1) N P).
Proof.
  intros HP HN Hr. unfold local_range. divmod N P.
  destruct (Z.ltb_spec r (N mod P)), (Z.ltb_spec (r + 1) (N mod P)); cbn; nia.
Qed.

Lemma local_range_length r N P : 0 < P -> 0 <= N ->
  N / P <= snd (local_range r N P) - fst (local_range r N P) <= N / P + 1.
Proof. intros HP HN. unfold local_range. destruct (r <? N mod P); cbn; lia. Qed.

Lemma local_range_inv P i N a : 0 < P -> 0 <= i < N -> 0 <= a < P ->
  fst (local_range a N P) <= i < snd (local_range a N P) -> index_owner P i N = Some a.
Proof.
  intros HP Hi Ha H. unfold local_range in H. unfold index_owner. divmod N P.
  destruct (Z.ltb_spec a (N mod P)); cbn in H.
  - assert (i < N mod P * (N / P + 1)) by nia.
    destruct (Z.ltb_spec i (N mod P * (N / P + 1))); [|lia]. f_equal.
    symmetry. apply Z.div_unique with (r := i - a * (N / P + 1)); lia.
  - assert (N mod P * (N / P + 1) <= i) by nia.
    destruct (Z.ltb_spec i (N mod P * (N / P + 1))); [lia|].
    destruct (Z.eqb_spec (N / P) 0); [nia|]. f_equal.
    cut (a - N mod P = (i - N mod P * (N / P + 1)) / (N / P)); [lia|].
    apply Z.div_unique with (r := i - (a * (N / P) + N mod P)); [lia|nia].
Qed.

Lemma index_owner_spec P i N : 0 < P -> 0 <= i < N ->
  exists r, index_owner P i N = Some r /\ 0 <= r < P /\
    fst (local_range r N P) <= i < snd (local_range r N P).
Proof.
  intros HP Hi. unfold index_owner. divmod N P.
  destruct (Z.ltb_spec i (N mod P * (N / P + 1))) as [L|L].
  - exists (i / (N / P + 1)). split; [reflexivity|].
    assert (i / (N / P + 1) < N mod P) by (apply Z.div_lt_upper_bound; lia).
    assert (0 <= i / (N / P + 1)) by (apply Z.div_pos; lia).
    split; [lia|]. unfold local_range. destruct (Z.ltb_spec (i / (N / P + 1)) (N mod P)); [cbn|lia].
    pose proof (Z.div_mod i (N / P + 1)). pose proof (Z.mod_pos_bound i (N / P + 1)). nia.
  - destruct (Z.eqb_spec (N / P) 0) as [E|Ne]; [nia|].
    set (q := (i - N mod P * (N / P + 1)) / (N / P)).
    assert (0 <= q) by (apply Z.div_pos; lia).
    assert (q < P - N mod P) by (apply Z.div_lt_upper_bound; nia).
    exists (N mod P + q). split; [reflexivity|]. split; [lia|].
    unfold local_range. destruct (Z.ltb_spec (N mod P + q) (N mod P)); [lia|cbn].
    pose proof (Z.div_mod (i - N mod P * (N / P + 1)) (N / P)).
    pose proof (Z.mod_pos_bound (i - N mod P * (N / P + 1)) (N / P)). fold q in H5. nia.
Qed.

Lemma index_owner_iff P i N a : 0 < P -> 0 <= i < N ->
  index_owner P i N = Some a <->
  0 <= a < P /\ fst (local_range a N P) <= i < snd (local_range a N P).
Proof.
  intros HP Hi. split.
  - intro H. destruct (index_owner_spec P i N HP Hi) as (r & Hr & H1 & H2).
    rewrite H in Hr. injection Hr as ->. auto.
  - intros (Ha & H). now apply local_range_inv.
Qed.
