(** The distances of many bodies. *)
From Coq Require Import Reals.
From Verif Require Import Base BaseProofs Ranges RangesProofs Gjk GjkSpec.

Lemma interleaving_perm {A} (threads : list (list A)) rest : interleaving threads rest -> Permutation (concat threads) rest.
Proof.
  induction 1 as [threads H|before x t after rest H IH].
  - replace (concat threads) with (@nil A); [reflexivity|]. symmetry. induction threads as [|t l IH]; [reflexivity|]. cbn. rewrite (H t (or_introl eq_refl)). apply IH. intros u Hu. apply H. right. exact Hu.
  - rewrite concat_app in *. cbn [concat app] in *. rewrite <- Permutation_middle. constructor. exact IH.
Qed.
Lemma interleaving_exists {A} (threads : list (list A)) : interleaving threads (concat threads).
Proof.
  assert (G : forall (threads before : list (list A)), (forall t, In t before -> t = []) -> interleaving (before ++ threads) (concat threads)).
  { induction threads0 as [|t l IH]; intros before H.
    - rewrite app_nil_r. constructor. exact H.
    - induction t as [|x t IHt]; cbn [concat app].
      + specialize (IH (before ++ [[]])). rewrite <- app_assoc in IH. cbn [app] in IH. apply IH. intros u Hu. apply in_app_iff in Hu as [Hu|[<-|[]]]; [apply H, Hu|reflexivity].
      + constructor. exact IHt. }
  exact (G threads [] ltac:(intros ? [])).
Qed.
Lemma chunks_all (bodies : list (list vec)) n : (0 < n)%Z -> concat (chunks bodies n) = seq 0 (length bodies).
Proof.
  intro Hn. set (N := Z.of_nat (length bodies)). assert (HN : (0 <= N)%Z) by (unfold N; lia). unfold chunks.
  assert (G : forall k, (Z.of_nat k <= n)%Z -> concat (map (chunk bodies n) (seq 0 k)) = seq 0 (Z.to_nat (fst (local_range (Z.of_nat k) N n))) /\ (0 <= fst (local_range (Z.of_nat k) N n))%Z).
  { induction k as [|k IH]; intro Hk.
    - cbn [seq map concat Z.of_nat]. rewrite (local_range_first N n Hn HN). split; [reflexivity|lia].
    - destruct (IH ltac:(lia)) as (E & P). rewrite seq_S, map_app, concat_app, E. cbn [map concat Nat.add]. rewrite app_nil_r. unfold chunk. fold N.
      pose proof (local_range_consecutive (Z.of_nat k) N n Hn HN ltac:(lia)) as C. pose proof (local_range_length (Z.of_nat k) N n Hn HN) as Le.
      assert (0 <= N / n)%Z by (apply Z.div_pos; lia).
      replace (Z.of_nat (S k)) with (Z.of_nat k + 1)%Z by lia. rewrite <- C. destruct (local_range (Z.of_nat k) N n) as (c0, c1). cbn [fst snd] in *. split; [|lia].
      replace (Z.to_nat c1) with (Z.to_nat c0 + Z.to_nat (c1 - c0))%nat by lia. rewrite seq_app. reflexivity. }
  destruct (G (Z.to_nat n) ltac:(lia)) as (E & _). rewrite E. f_equal.
  pose proof (local_range_last N n Hn HN) as La. rewrite (local_range_consecutive (n - 1) N n Hn HN ltac:(lia)) in La. replace (Z.of_nat (Z.to_nat n)) with (n - 1 + 1)%Z by lia. rewrite La. unfold N. lia.
Qed.
Lemma distances_ok diag eps bodies q n sched dist : (0 < n)%Z -> interleaving (chunks bodies (num_threads_used bodies n)) sched ->
  Forall2 (fun b x => compute_distance_gjk diag eps b q = Distance x) bodies dist -> compute_distances_gjk diag eps bodies q n sched = Some dist.
Proof.
  intros Hn Hi HF. apply interleaving_perm in Hi. rewrite chunks_all in Hi by (unfold num_threads_used; lia).
  assert (Ld : length bodies = length dist) by (clear - HF; induction HF; cbn; congruence).
  assert (Hd : forall i b, nth_error bodies i = Some b -> exists x, nth_error dist i = Some x /\ compute_distance_gjk diag eps b q = Distance x).
  { clear - HF. induction HF as [|b x l l' H HF IH]; intros [|i] c Hc; try discriminate Hc; cbn in Hc; [injection Hc as <-; exists x; auto|apply IH; exact Hc]. }
  unfold compute_distances_gjk. destruct (Z.leb_spec n 0); [lia|].
  destruct (ofold_prefix_ind (compute_one diag eps bodies q) (fun p res => length res = length dist /\ forall i, In i p -> nth_error res i = nth_error dist i) sched (repeat zero_vec (length bodies))) as (res & E & L & G).
  - split; [rewrite repeat_length; exact Ld|intros i []].
  - intros p a r res Es (L & G). assert (Ha : In a (seq 0 (length bodies))) by (eapply Permutation_in; [symmetry; exact Hi|]; rewrite Es; apply in_app_iff; right; left; reflexivity).
    apply in_seq in Ha. destruct (nth_error_lt bodies a ltac:(lia)) as (b & Hb). destruct (Hd a b Hb) as (x & Hx & Ex). unfold compute_one. rewrite Hb. cbn [obind]. rewrite Ex.
    assert (U : upd res a x = modify res a (fun _ => x)) by (unfold modify; destruct (nth_error_lt res a ltac:(lia)) as (y & ->); reflexivity).
    destruct (modify_some res a (fun _ => x) ltac:(lia)) as (res' & Em). exists res'. rewrite U. split; [exact Em|]. split; [rewrite (modify_length _ _ _ _ Em); exact L|].
    intros i Hin. rewrite (modify_nth _ _ _ i _ Em). destruct (Nat.eqb_spec a i) as [<-|Ne].
    + destruct (nth_error_lt res a ltac:(lia)) as (y & ->). cbn. symmetry. exact Hx.
    + apply in_app_iff in Hin as [Hin|[Hin|[]]]; [apply G, Hin|contradiction].
  - rewrite E. f_equal. apply nth_error_ext. intro i. destruct (Nat.lt_ge_cases i (length dist)) as [Hl|Hl].
    + apply G. eapply Permutation_in; [exact Hi|]. apply in_seq. lia.
    + rewrite !(proj2 (nth_error_None _ _)) by lia. reflexivity.
Qed.
