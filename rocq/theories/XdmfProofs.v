(** Proofs about XDMF files, for properties C86 and C87. *)
From Coq Require Import Permutation.
From Verif Require Import Base BaseProofs Ranges RangesProofs CellTypes Cells CellsSpec CellsInverse PlazaOrder Xdmf XdmfSpec.
Open Scope nat_scope.

Lemma nth_firstn {A} k (l : list A) i : i < k -> nth_error (firstn k l) i = nth_error l i.
Proof. revert l i. induction k as [|k IH]; intros [|a l] [|i] Hi; try reflexivity; try lia. cbn [firstn nth_error]. apply IH. lia. Qed.
Lemma nth_skipn {A} k (l : list A) i : nth_error (skipn k l) i = nth_error l (k + i).
Proof. revert l i. induction k as [|k IH]; intros [|a l] i; try reflexivity; [destruct i; reflexivity|]. cbn [skipn nth_error Nat.add]. apply IH. Qed.
Lemma exscan_before n r : exscan n r = before n r.
Proof. unfold exscan, before. induction (map n (seq 0 r)) as [|a l IH]; [reflexivity|]. rewrite lsum_cons. cbn [list_sum fold_right]. unfold list_sum in IH. cbn. now rewrite IH. Qed.
Lemma before_S n r : before n (S r) = before n r + n r.
Proof. unfold before. rewrite seq_S, map_app, list_sum_app. cbn. lia. Qed.
Lemma before_le n r s : r <= s -> before n r <= before n s.
Proof. induction 1; [lia|]. rewrite before_S. lia. Qed.
Lemma before_ext n n' r : (forall i, i < r -> n i = n' i) -> before n r = before n' r.
Proof. induction r as [|r IH]; intro H; [reflexivity|]. rewrite !before_S, IH by (intros; apply H; lia). now rewrite H by lia. Qed.
(** Every row belongs to a process. *)
Lemma before_find n P j : j < before n P -> exists r, r < P /\ before n r <= j < before n (S r).
Proof.
  induction P as [|P IH]; [cbn; lia|]. intro Hj. destruct (Nat.lt_ge_cases j (before n P)) as [H|H].
  - destruct (IH H) as (r & Hr & H1). exists r. split; [lia|exact H1].
  - exists P. split; [lia|]. lia.
Qed.

Section Gather.
Context {A : Type}.
Variables (P w : nat) (n : nat -> nat) (d : nat -> list A).
Hypothesis Hd : forall r, r < P -> length (d r) = n r * w.
Lemma gathered_S Q : gathered (S Q) d = gathered Q d ++ d Q.
Proof. unfold gathered. rewrite seq_S, map_app, concat_app. cbn [map concat Nat.add]. now rewrite app_nil_r. Qed.
Lemma gathered_length Q : Q <= P -> length (gathered Q d) = before n Q * w.
Proof. induction Q as [|Q IH]; intro H; [reflexivity|]. rewrite gathered_S, app_length, IH, Hd, before_S by lia. lia. Qed.
Lemma gathered_nth Q r m : Q <= P -> r < Q -> m < n r * w -> nth_error (gathered Q d) (before n r * w + m) = nth_error (d r) m.
Proof.
  induction Q as [|Q IH]; intros HQ Hr Hm; [lia|]. rewrite gathered_S. destruct (Nat.eq_dec r Q) as [->|Nr].
  - rewrite nth_error_app2 by (rewrite gathered_length; lia). rewrite gathered_length by lia. f_equal. lia.
  - rewrite nth_error_app1; [apply IH; lia|]. rewrite gathered_length by lia. pose proof (before_le n (S r) Q ltac:(lia)) as H. rewrite before_S in H. nia.
Qed.
(** Each position of the gathered data *)
Lemma gathered_find p : p < before n P * w -> exists r m, r < P /\ m < n r * w /\ p = before n r * w + m.
Proof.
  intro Hp. assert (Hw : w <> 0) by (intros ->; lia). destruct (before_find n P (p / w)) as (r & Hr & H1 & H2); [apply Nat.div_lt_upper_bound; lia|].
  rewrite before_S in H2. pose proof (Nat.div_mod p w Hw). pose proof (Nat.mod_upper_bound p w Hw). exists r, (p - before n r * w). split; [exact Hr|]. split; nia.
Qed.

Lemma write_slab_ok (F : list A) off data : off + length data <= length F ->
  exists F', write_slab F off data = Some F' /\ length F' = length F /\
  forall p, nth_error F' p = if (off <=? p) && (p <? off + length data) then nth_error data (p - off) else nth_error F p.
Proof.
  intro H. unfold write_slab. rewrite (proj2 (Nat.leb_le _ _)) by exact H. eexists. split; [reflexivity|].
  assert (L1 : length (firstn off F) = off) by (rewrite firstn_length; lia).
  split; [rewrite !app_length, L1, skipn_length; lia|]. intro p. destruct (Nat.leb_spec off p) as [H1|H1]; cbn [andb].
  - rewrite nth_error_app2, L1 by lia. destruct (Nat.ltb_spec p (off + length data)) as [H2|H2]; [rewrite nth_error_app1 by lia; reflexivity|].
    rewrite nth_error_app2, nth_skipn by lia. f_equal. lia.
  - rewrite nth_error_app1 by lia. apply nth_firstn. lia.
Qed.
Lemma write_all order (F : list A) : (forall r, In r order -> r < P) -> length F = before n P * w -> 0 < w ->
  exists F', ofold (fun F r => write_slab F (before n r * w) (firstn (length (d r) / w * w) (d r))) order F = Some F' /\ length F' = length F /\
  forall p, p < length F -> (nth_error F p = nth_error (gathered P d) p \/ exists r, In r order /\ before n r * w <= p < before n r * w + n r * w) -> nth_error F' p = nth_error (gathered P d) p.
Proof.
  intros Ho LF Hw. revert F LF. induction order as [|r order IH]; intros F LF.
  - exists F. split; [reflexivity|]. split; [reflexivity|]. intros p _ [H|(r & [] & _)]. exact H.
  - assert (Hr : r < P) by (apply Ho; now left). cbn [ofold]. rewrite (Hd r Hr), Nat.div_mul by lia. rewrite <- (Hd r Hr), firstn_all.
    destruct (write_slab_ok F (before n r * w) (d r)) as (F1 & E1 & L1 & H1).
    { rewrite (Hd r Hr), LF. pose proof (before_le n (S r) P ltac:(lia)) as H. rewrite before_S in H. nia. }
    rewrite E1. cbn [obind]. destruct (IH ltac:(intros; apply Ho; now right) F1 ltac:(lia)) as (F2 & E2 & L2 & H2). exists F2. split; [exact E2|]. split; [lia|].
    intros p Hp H. apply H2; [lia|]. rewrite (Hd r Hr) in H1.
    assert (G : before n r * w <= p < before n r * w + n r * w -> nth_error F1 p = nth_error (gathered P d) p).
    { intros [Ha Hb]. rewrite H1. rewrite (proj2 (Nat.leb_le _ _)), (proj2 (Nat.ltb_lt _ _)) by assumption. cbn [andb].
      replace p with (before n r * w + (p - before n r * w)) at 2 by lia. symmetry. apply gathered_nth; lia. }
    destruct H as [H|(r' & [<-|Hin] & Hs)].
    + left. rewrite H1. destruct (Nat.leb_spec (before n r * w) p) as [Ha|Ha]; cbn [andb]; [|exact H]. destruct (Nat.ltb_spec p (before n r * w + n r * w)) as [Hb|Hb]; [|exact H].
      replace p with (before n r * w + (p - before n r * w)) at 2 by lia. symmetry. apply gathered_nth; lia.
    + left. now apply G.
    + right. now exists r'.
Qed.
Lemma add_data_item_ok order fill rows offset : Permutation order (seq 0 P) -> 0 < w -> rows = before n P -> (forall r, r < P -> offset r = before n r) ->
  add_data_item order fill rows w offset d = Some (gathered P d).
Proof.
  intros Hp Hw -> Hoff. unfold add_data_item. rewrite (proj2 (Nat.eqb_neq w 0)) by lia.
  assert (Ho : forall r, In r order -> r < P) by (intros r Hr; apply (Permutation_in _ Hp), in_seq in Hr; lia).
  rewrite (ofold_ext _ (fun F r => write_slab F (before n r * w) (firstn (length (d r) / w * w) (d r)))) by (intros F r Hr; now rewrite Hoff by auto).
  destruct (write_all order (map fill (seq 0 (before n P * w))) Ho) as (F' & E & L & H); [now rewrite map_length, seq_length|exact Hw|]. rewrite E. f_equal.
  rewrite map_length, seq_length in L. apply nth_error_ext. intro p. destruct (Nat.lt_ge_cases p (before n P * w)) as [Hlt|Hge].
  - apply H; [now rewrite map_length, seq_length|]. right. destruct (gathered_find p Hlt) as (r & m & Hr & Hm & ->). exists r. split; [|lia]. apply (Permutation_in _ (Permutation_sym Hp)), in_seq. lia.
  - rewrite !(proj2 (nth_error_None _ _)); [reflexivity|rewrite gathered_length; lia|lia].
Qed.
End Gather.

(** ** Reading *)
Section Read.
Context {A : Type}.
Variables (Q N w : nat) (F : list A).
Hypothesis HQ : 0 < Q.
Hypothesis HN : 0 < N.
Hypothesis HF : length F = N * w.
Definition rlo (q : nat) : nat := Z.to_nat (fst (local_range (Z.of_nat q) (Z.of_nat N) (Z.of_nat Q))).
Definition rhi (q : nat) : nat := Z.to_nat (snd (local_range (Z.of_nat q) (Z.of_nat N) (Z.of_nat Q))).
Lemma ranges_before q : q <= Q -> before (fun q => rhi q - rlo q) q = (if q =? Q then N else rlo q).
Proof.
  pose proof (local_range_first (Z.of_nat N) (Z.of_nat Q) ltac:(lia) ltac:(lia)) as H0.
  assert (Hmono : forall q, rlo q <= rhi q).
  { intro q'. unfold rlo, rhi. pose proof (local_range_length (Z.of_nat q') (Z.of_nat N) (Z.of_nat Q) ltac:(lia) ltac:(lia)) as H. pose proof (Z.div_pos (Z.of_nat N) (Z.of_nat Q) ltac:(lia) ltac:(lia)). lia. }
  assert (G : forall q, q < Q -> before (fun q => rhi q - rlo q) q = rlo q).
  { induction q0 as [|q0 IH]; intro Hq.
    - change (before (fun q => rhi q - rlo q) 0) with 0. unfold rlo. cbn [Z.of_nat]. rewrite H0. reflexivity.
    - rewrite before_S, IH by lia. specialize (Hmono q0). unfold rlo at 3. rewrite Nat2Z.inj_succ, <- Z.add_1_r. rewrite <- (local_range_consecutive (Z.of_nat q0) (Z.of_nat N) (Z.of_nat Q)) by lia. fold (rhi q0). lia. }
  intro Hq. destruct (Nat.eqb_spec q Q) as [->|Nq]; [|apply G; lia]. replace Q with (S (Q - 1)) at 1 by lia. rewrite before_S, G by lia. specialize (Hmono (Q - 1)).
  assert (E : rhi (Q - 1) = N).
  { unfold rhi. pose proof (local_range_last (Z.of_nat N) (Z.of_nat Q) ltac:(lia) ltac:(lia)) as H. replace (Z.of_nat Q - 1)%Z with (Z.of_nat (Q - 1)) in H by lia. rewrite H. lia. }
  lia.
Qed.
Lemma ranges_bound q : q < Q -> rlo q <= rhi q /\ rhi q <= N.
Proof.
  intro Hq. pose proof (ranges_before q ltac:(lia)) as H1. pose proof (ranges_before (S q) ltac:(lia)) as H2. rewrite before_S, H1 in H2. rewrite (proj2 (Nat.eqb_neq q Q)) in H1, H2 by lia.
  assert (Hmono : rlo q <= rhi q).
  { unfold rlo, rhi. pose proof (local_range_length (Z.of_nat q) (Z.of_nat N) (Z.of_nat Q) ltac:(lia) ltac:(lia)) as H. pose proof (Z.div_pos (Z.of_nat N) (Z.of_nat Q) ltac:(lia) ltac:(lia)). lia. }
  split; [exact Hmono|]. pose proof (ranges_before Q (le_n _)) as HQ'. rewrite Nat.eqb_refl in HQ'. pose proof (before_le (fun q => rhi q - rlo q) (S q) Q ltac:(lia)) as Hle. rewrite before_S, H1, HQ' in Hle. lia.
Qed.
Lemma get_dataset_ok q : q < Q -> exists l, get_dataset q Q [N; w] [N; w] F = Some l /\ length l = (rhi q - rlo q) * w /\
  forall m, m < (rhi q - rlo q) * w -> nth_error l m = nth_error F (rlo q * w + m).
Proof.
  intro Hq. destruct (ranges_bound q Hq) as [H1 H2]. unfold get_dataset. destruct N as [|N'] eqn:EN; [lia|]. rewrite <- EN in *.
  destruct (list_eq_dec Nat.eq_dec [N; w] [N; w]) as [_|Ne]; [|congruence].
  destruct (local_range (Z.of_nat q) (Z.of_nat N) (Z.of_nat Q)) as [a b] eqn:Er. unfold read_rows, product. cbn [tl fold_left]. rewrite Nat.mul_1_l.
  assert (Ea : Z.to_nat a = rlo q) by (unfold rlo; now rewrite Er). assert (Eb : Z.to_nat b = rhi q) by (unfold rhi; now rewrite Er). rewrite Ea, Eb.
  exists (firstn (rhi q * w - rlo q * w) (skipn (rlo q * w) F)). split; [apply slice_some; split; [nia|split; [nia|reflexivity]]|].
  assert (L : length (firstn (rhi q * w - rlo q * w) (skipn (rlo q * w) F)) = (rhi q - rlo q) * w) by (rewrite firstn_length, skipn_length; nia).
  split; [exact L|]. intros m Hm. rewrite nth_firstn, nth_skipn by nia. reflexivity.
Qed.
(** What the processes read is the data set. *)
Lemma read_gathered (d : nat -> list A) : (forall q, q < Q -> length (d q) = (rhi q - rlo q) * w /\ forall m, m < (rhi q - rlo q) * w -> nth_error (d q) m = nth_error F (rlo q * w + m)) -> gathered Q d = F.
Proof.
  intro H. assert (Hb : before (fun q => rhi q - rlo q) Q = N) by (rewrite ranges_before, Nat.eqb_refl by lia; reflexivity).
  assert (Hd : forall q, q < Q -> length (d q) = (rhi q - rlo q) * w) by (intros q Hq; apply H; exact Hq).
  apply nth_error_ext. intro p. destruct (Nat.lt_ge_cases p (N * w)) as [Hp|Hp].
  - destruct (gathered_find Q w (fun q => rhi q - rlo q) d Hd p) as (q & m & Hq & Hm & ->); [now rewrite Hb|].
    rewrite (gathered_nth Q w (fun q => rhi q - rlo q) d Hd Q q m) by lia. rewrite (proj2 (H q Hq) m Hm). rewrite ranges_before by lia. now rewrite (proj2 (Nat.eqb_neq q Q)) by lia.
  - rewrite !(proj2 (nth_error_None _ _)); [reflexivity|lia|rewrite (gathered_length Q w (fun q => rhi q - rlo q) d Hd) by lia; now rewrite Hb].
Qed.
End Read.

(** ** Topology *)
Section Topology.
Variables (P : nat) (size_local offset_g : nat -> nat) (ghosts : nat -> list nat).
Variables (nodes : nat -> nat -> option (list nat)) (t : cell_type) (deg : Z) (nn : nat) (entities : nat -> list nat).
Hypothesis Hnn : 0 < nn.
Hypothesis Ht : lagrange_nodes t deg (Z.of_nat nn).
Hypothesis Hdeg : (1 <= deg)%Z.
Hypothesis Hwide : (Z.of_nat nn <= 65536)%Z.
Hypothesis Hfit : forall r e, r < P -> In e (entities r) -> exists ns, nodes r e = Some ns /\ length ns = nn /\ forall n, In n ns -> n < size_local r + length (ghosts r).
Notation gindex r n := (match node_index size_local offset_g ghosts r n with Some g => g | None => 0 end).
Notation nent := (fun r => length (entities r)).

Lemma node_index_some r n : n < size_local r + length (ghosts r) -> node_index size_local offset_g ghosts r n = Some (gindex r n).
Proof.
  intro H. unfold node_index. destruct (Nat.ltb_spec n (size_local r)) as [H1|H1]; [reflexivity|]. destruct (nth_error_lt (ghosts r) (n - size_local r) ltac:(lia)) as (g & ->). reflexivity.
Qed.
Definition row (q : list Z) (r e : nat) : list nat :=
  match nodes r e with Some ns => map (fun i => gindex r (nth (Z.to_nat (nth i q 0%Z)) ns 0)) (seq 0 nn) | None => [] end.
Lemma topology_data_ok q r : is_permutation q (Z.of_nat nn) -> r < P -> topology_data size_local offset_g ghosts nodes q nn entities r = Some (concat (map (row q r) (entities r))).
Proof.
  intros Hq Hr. pose proof (permutation_len q (Z.of_nat nn) ltac:(lia) Hq) as Lq. unfold topology_data. rewrite (omap_map _ (row q r)); [reflexivity|].
  intros e He. destruct (Hfit r e Hr He) as (ns & En & Ln & Hns). unfold row. rewrite En. cbn [obind]. apply omap_map. intros i Hi. apply in_seq in Hi.
  rewrite (nth_error_nth' q 0%Z) by lia. cbn [obind]. assert (Hx : (0 <= nth i q 0 < Z.of_nat nn)%Z) by (apply (proj2 Hq), nth_In; lia).
  rewrite (nth_error_nth' ns 0) by lia. cbn [obind]. apply node_index_some, Hns, nth_In. lia.
Qed.
Lemma row_length q r e : r < P -> In e (entities r) -> length (row q r e) = nn.
Proof. intros Hr He. destruct (Hfit r e Hr He) as (ns & En & _). unfold row. now rewrite En, map_length, seq_length. Qed.
Lemma rows_length q r : r < P -> length (concat (map (row q r) (entities r))) = nent r * nn.
Proof.
  intro Hr. rewrite (concat_len (map (row q r) (entities r)) nn); [now rewrite map_length|]. intros l Hl. apply in_map_iff in Hl as (e & <- & He). now apply row_length.
Qed.
Lemma topology_ok order fill : Permutation order (seq 0 P) -> exists p q, perm_vtk t (Z.of_nat nn) = Some p /\ is_permutation p (Z.of_nat nn) /\ is_permutation q (Z.of_nat nn) /\ inverse p q /\
  add_topology_data size_local offset_g ghosts P order fill nodes t nn entities = Some (gathered P (fun r => concat (map (row q r) (entities r)))).
Proof.
  intro Hp. destruct (perm_vtk_statement t deg (Z.of_nat nn) Ht Hdeg Hwide) as (p & q & E1 & E2 & P1 & P2 & I). exists p, q. repeat (split; [assumption|]).
  unfold add_topology_data. rewrite E1. cbn [obind]. rewrite E2. cbn [obind].
  rewrite (omap_map _ (fun r => concat (map (row q r) (entities r)))) by (intros r Hr; apply in_seq in Hr; apply topology_data_ok; [exact P2|lia]). cbn [obind].
  set (data := fun r => nth r (map (fun r => concat (map (row q r) (entities r))) (seq 0 P)) []).
  assert (Ed : forall r, r < P -> data r = concat (map (row q r) (entities r))).
  { intros r Hr. unfold data. rewrite (nth_indep _ [] (concat (map (row q 0) (entities 0)))) by (rewrite map_length, seq_length; lia). rewrite (map_nth (fun r => concat (map (row q r) (entities r)))), seq_nth by lia. reflexivity. }
  assert (En : forall r, r < P -> length (data r) / nn = nent r) by (intros r Hr; rewrite Ed, rows_length, Nat.div_mul by lia; reflexivity).
  rewrite (add_data_item_ok P nn nent data).
  - f_equal. unfold gathered. f_equal. apply map_ext_in. intros r Hr. apply in_seq in Hr. apply Ed. lia.
  - intros r Hr. now rewrite Ed, rows_length by exact Hr.
  - exact Hp.
  - exact Hnn.
  - etransitivity; [apply (exscan_before (fun r => length (data r) / nn) P)|]. now apply before_ext.
  - intros r Hr. etransitivity; [apply exscan_before|]. apply before_ext. intros i Hi. apply En. lia.
Qed.
Lemma read_topology_ok Q q0 p F N : 0 < Q -> 0 < N -> length F = N * nn -> perm_vtk t (Z.of_nat nn) = Some p -> is_permutation p (Z.of_nat nn) -> q0 < Q ->
  exists l, read_topology_data t q0 Q N nn F = Some l /\ length l = (rhi Q N q0 - rlo Q N q0) * nn /\
  forall c i x, c < rhi Q N q0 - rlo Q N q0 -> i < nn -> nth_error p i = Some (Z.of_nat x) -> x < nn -> nth_error l (c * nn + i) = nth_error F ((rlo Q N q0 + c) * nn + x).
Proof.
  intros HQ HN LF Ep Pp Hq. destruct (get_dataset_ok Q N nn F HQ HN LF q0 Hq) as (l & E & L & H). unfold read_topology_data. rewrite E. cbn [obind]. rewrite Ep. cbn [obind].
  rewrite L, Nat.div_mul by lia. destruct (apply_ok l (rhi Q N q0 - rlo Q N q0) nn p L Pp) as (new & En & Ln & Hn). exists new. split; [exact En|]. split; [exact Ln|].
  intros c i x Hc Hi Hx Hlt. rewrite (Hn c i x Hc Hi Hx). rewrite H by nia. f_equal. lia.
Qed.
Lemma topology_round_trip Q order fill : 0 < Q -> 0 < before nent P -> Permutation order (seq 0 P) ->
  exists F new, add_topology_data size_local offset_g ghosts P order fill nodes t nn entities = Some F /\
  (forall q, q < Q -> read_topology_data t q Q (before nent P) nn F = Some (new q) /\ length (new q) = (rhi Q (before nent P) q - rlo Q (before nent P) q) * nn) /\ length (gathered Q new) = before nent P * nn /\
  forall r m e i ns n, r < P -> nth_error (entities r) m = Some e -> nodes r e = Some ns -> nth_error ns i = Some n ->
  nth_error (gathered Q new) ((before nent r + m) * nn + i) = node_index size_local offset_g ghosts r n.
Proof.
  intros HQ HN Hp. set (N := before nent P) in *. destruct (topology_ok order fill Hp) as (p & q & Ep & Pp & Pq & I & E).
  set (F := gathered P (fun r => concat (map (row q r) (entities r)))) in *.
  assert (LF : length F = N * nn) by (apply (gathered_length P nn nent); [intros r Hr; apply rows_length; exact Hr|lia]).
  assert (C : forall k, exists l, k < Q -> read_topology_data t k Q N nn F = Some l /\ length l = (rhi Q N k - rlo Q N k) * nn /\
     forall c i x, c < rhi Q N k - rlo Q N k -> i < nn -> nth_error p i = Some (Z.of_nat x) -> x < nn -> nth_error l (c * nn + i) = nth_error F ((rlo Q N k + c) * nn + x)).
  { intro k. destruct (Nat.lt_ge_cases k Q) as [Hk|Hk]; [|exists []; lia]. destruct (read_topology_ok Q k p F N HQ HN LF Ep Pp Hk) as (l & H). now exists l. }
  assert (D : exists new : nat -> list nat, forall k, k < Q -> read_topology_data t k Q N nn F = Some (new k) /\ length (new k) = (rhi Q N k - rlo Q N k) * nn /\
     forall c i x, c < rhi Q N k - rlo Q N k -> i < nn -> nth_error p i = Some (Z.of_nat x) -> x < nn -> nth_error (new k) (c * nn + i) = nth_error F ((rlo Q N k + c) * nn + x)).
  { exists (fun k => match read_topology_data t k Q N nn F with Some l => l | None => [] end). intros k Hk. destruct (C k) as (l & H). destruct (H Hk) as (E1 & H1). rewrite E1. now split. }
  destruct D as (new & Hnew). exists F, new. split; [exact E|]. split; [intros k Hk; split; apply Hnew; exact Hk|].
  assert (Hb : before (fun k => rhi Q N k - rlo Q N k) Q = N) by (rewrite (ranges_before Q N nn F HQ HN LF), Nat.eqb_refl by lia; reflexivity).
  assert (Hl : forall k, k < Q -> length (new k) = (rhi Q N k - rlo Q N k) * nn) by (intros k Hk; apply Hnew; exact Hk).
  split; [rewrite (gathered_length Q nn (fun k => rhi Q N k - rlo Q N k) new Hl) by lia; now rewrite Hb|].
  intros r m e i ns n Hr Em En Ei.
  assert (He : In e (entities r)) by exact (nth_error_In _ _ Em). destruct (Hfit r e Hr He) as (ns' & En' & Ln & Hns). rewrite En in En'. injection En' as <-.
  pose proof (nth_error_bound _ _ _ Ei) as Hi. rewrite Ln in Hi. pose proof (nth_error_bound _ _ _ Em) as Hm.
  set (j := before nent r + m). assert (Hj : j < N).
  { unfold j, N. pose proof (before_le nent (S r) P ltac:(lia)) as H. rewrite before_S in H. cbn beta in H. lia. }
  pose proof (permutation_len p (Z.of_nat nn) ltac:(lia) Pp) as Lp. pose proof (permutation_len q (Z.of_nat nn) ltac:(lia) Pq) as Lq.
  destruct (nth_error_lt p i ltac:(lia)) as (x & Ex). assert (Hx : (0 <= x < Z.of_nat nn)%Z) by (apply (proj2 Pp); exact (nth_error_In _ _ Ex)).
  replace x with (Z.of_nat (Z.to_nat x)) in Ex by lia. set (x' := Z.to_nat x) in *. assert (Hx' : x' < nn) by lia.
  assert (ET : nth_error (gathered Q new) (j * nn + i) = nth_error F (j * nn + x')).
  { destruct (before_find (fun k => rhi Q N k - rlo Q N k) Q j) as (k & Hk & H1 & H2); [now rewrite Hb|]. rewrite before_S in H2.
    rewrite (ranges_before Q N nn F HQ HN LF k) in H1, H2 by lia. rewrite (proj2 (Nat.eqb_neq k Q)) in H1, H2 by lia.
    assert (Epos : j * nn + i = before (fun k => rhi Q N k - rlo Q N k) k * nn + ((j - rlo Q N k) * nn + i)).
    { rewrite (ranges_before Q N nn F HQ HN LF k) by lia. rewrite (proj2 (Nat.eqb_neq k Q)) by lia. nia. }
    rewrite Epos. rewrite (gathered_nth Q nn (fun k => rhi Q N k - rlo Q N k) new Hl Q k) by nia.
    rewrite (proj2 (proj2 (Hnew k Hk)) (j - rlo Q N k) i x') by (auto; lia). f_equal. nia. }
  rewrite ET. replace (j * nn + x') with (before nent r * nn + (m * nn + x')) by (unfold j; lia). unfold F.
  rewrite (gathered_nth P nn nent (fun r => concat (map (row q r) (entities r)))) by (first [intros r' Hr'; apply rows_length; exact Hr'|cbn beta; nia]).
  rewrite (nth_concat (map (row q r) (entities r)) nn) with (c := row q r e); [| |now rewrite nth_error_map, Em|exact Hx'].
  - unfold row. rewrite En, nth_error_map, nth_error_seq by exact Hx'. cbn [option_map Nat.add].
    assert (Eq : nth_error q x' = Some (Z.of_nat i)) by (apply I; exact Ex). rewrite (nth_error_nth _ _ _ Eq), Nat2Z.id, (nth_error_nth _ _ _ Ei). symmetry. apply node_index_some, Hns. exact (nth_error_In _ _ Ei).
  - intros l Hin. apply in_map_iff in Hin as (e' & <- & He'). now apply row_length.
Qed.
End Topology.

(** ** Geometry *)
Section Geometry.
Context {U : Type}.
Variables (zero : U) (P : nat) (size_local : nat -> nat) (gdim : nat) (x : nat -> list U).
Hypothesis Hg : 1 <= gdim <= 3.
Hypothesis Hx : forall r, r < P -> 3 * size_local r <= length (x r).
Notation width := (if gdim =? 1 then 2 else gdim).
Lemma width_bounds : gdim <= width <= 3 /\ 0 < width.
Proof. destruct (Nat.eqb_spec gdim 1); lia. Qed.
Lemma geometry_data_ok r : r < P -> exists l, geometry_data size_local zero gdim x r = Some l /\ length l = size_local r * width /\
  forall i k, i < size_local r -> k < width -> nth_error l (i * width + k) = coordinate zero gdim (x r) i k.
Proof.
  intro Hr. specialize (Hx r Hr). unfold geometry_data. pose proof width_bounds as Hw. set (w := width) in *.
  replace ((gdim =? 0) || (3 <? gdim)) with false by (symmetry; apply orb_false_iff; split; [apply Nat.eqb_neq; lia|apply Nat.ltb_ge; lia]).
  destruct (Nat.eqb_spec w 3) as [E3|N3].
  - exists (firstn (size_local r * w - 0) (skipn 0 (x r))). split; [apply slice_some; split; [lia|]; split; [nia|reflexivity]|]. cbn [skipn]. rewrite Nat.sub_0_r. split; [rewrite firstn_length; nia|].
    intros i k Hi Hk. rewrite nth_firstn by nia. unfold coordinate. assert (gdim = 3) by (unfold w in E3; destruct (Nat.eqb_spec gdim 1); lia). rewrite (proj2 (Nat.ltb_lt k gdim)) by lia. f_equal. nia.
  - rewrite (omap_map _ (fun i => firstn gdim (skipn (3 * i) (x r)) ++ repeat zero (w - gdim))).
    + cbn [obind]. eexists. split; [reflexivity|].
      assert (Hl : forall l, In l (map (fun i => firstn gdim (skipn (3 * i) (x r)) ++ repeat zero (w - gdim)) (seq 0 (size_local r))) -> length l = w).
      { intros l Hl. apply in_map_iff in Hl as (i & <- & Hi). apply in_seq in Hi. rewrite app_length, firstn_length, skipn_length, repeat_length. lia. }
      split; [rewrite (concat_len _ w Hl); now rewrite map_length, seq_length|]. intros i k Hi Hk.
      rewrite (nth_concat _ w Hl i (firstn gdim (skipn (3 * i) (x r)) ++ repeat zero (w - gdim)) k); [|now rewrite nth_error_map, nth_error_seq by exact Hi|exact Hk].
      assert (Lf : length (firstn gdim (skipn (3 * i) (x r))) = gdim) by (rewrite firstn_length, skipn_length; lia). unfold coordinate. destruct (Nat.ltb_spec k gdim) as [H|H].
      * rewrite nth_error_app1 by lia. now rewrite nth_firstn, nth_skipn by lia.
      * rewrite nth_error_app2 by lia. apply nth_error_repeat. lia.
    + intros i Hi. apply in_seq in Hi. replace (slice (x r) (3 * i) (3 * i + gdim)) with (Some (firstn gdim (skipn (3 * i) (x r)))); [reflexivity|]. symmetry. apply slice_some. split; [lia|]. split; [lia|]. f_equal. lia.
Qed.
Lemma geometry_round_trip Q order fill : 0 < Q -> 0 < before size_local P -> Permutation order (seq 0 P) ->
  exists F new, add_geometry_data size_local zero P order fill (before size_local P) gdim x = Some F /\
  (forall q, q < Q -> read_geometry_data q Q (before size_local P) width F = Some (new q)) /\ length (gathered Q new) = before size_local P * width /\
  forall r i k, r < P -> i < size_local r -> k < width -> nth_error (gathered Q new) ((before size_local r + i) * width + k) = coordinate zero gdim (x r) i k.
Proof.
  intros HQ HN Hp. pose proof width_bounds as Hw. set (N := before size_local P) in *.
  set (gd := fun r => match geometry_data size_local zero gdim x r with Some l => l | None => [] end).
  assert (Hgd : forall r, r < P -> geometry_data size_local zero gdim x r = Some (gd r) /\ length (gd r) = size_local r * width /\ forall i k, i < size_local r -> k < width -> nth_error (gd r) (i * width + k) = coordinate zero gdim (x r) i k).
  { intros r Hr. unfold gd. destruct (geometry_data_ok r Hr) as (l & E & H). rewrite E. now split. }
  set (F := gathered P gd).
  assert (EF : add_geometry_data size_local zero P order fill N gdim x = Some F).
  { unfold add_geometry_data. rewrite (omap_map _ gd) by (intros r Hr; apply in_seq in Hr; apply Hgd; lia). cbn [obind].
    assert (Ed : forall r, r < P -> nth r (map gd (seq 0 P)) [] = gd r).
    { intros r Hr. rewrite (nth_indep _ [] (gd 0)) by (rewrite map_length, seq_length; lia). rewrite map_nth, seq_nth by lia. reflexivity. }
    rewrite (add_data_item_ok P width size_local (fun r => nth r (map gd (seq 0 P)) [])); [|intros r Hr; rewrite Ed by exact Hr; apply Hgd; exact Hr|exact Hp|lia|reflexivity|intros; apply exscan_before].
    f_equal. unfold F, gathered. f_equal. apply map_ext_in. intros r Hr. apply in_seq in Hr. apply Ed. lia. }
  assert (LF : length F = N * width) by (apply (gathered_length P width size_local gd); [intros r Hr; apply Hgd; exact Hr|lia]).
  set (new := fun q => match read_geometry_data q Q N width F with Some l => l | None => [] end). exists F, new. split; [exact EF|].
  assert (Hread : forall q, q < Q -> read_geometry_data q Q N width F = Some (new q) /\ length (new q) = (rhi Q N q - rlo Q N q) * width /\ forall m, m < (rhi Q N q - rlo Q N q) * width -> nth_error (new q) m = nth_error F (rlo Q N q * width + m)).
  { intros q Hq. destruct (get_dataset_ok Q N width F HQ HN LF q Hq) as (l & E & H). unfold new, read_geometry_data.
    replace ((width =? 2) || (width =? 3)) with true; [rewrite E; now split|]. symmetry. apply orb_true_iff. rewrite !Nat.eqb_eq. destruct (Nat.eqb_spec gdim 1); lia. }
  split; [intros q Hq; apply Hread; exact Hq|].
  assert (EG : gathered Q new = F) by (apply (read_gathered Q N width F HQ HN LF); intros q Hq; apply Hread; exact Hq).
  rewrite EG. split; [exact LF|]. intros r i k Hr Hi Hk. destruct (Hgd r Hr) as (_ & _ & H). rewrite <- (H i k Hi Hk). unfold F.
  replace ((before size_local r + i) * width + k) with (before size_local r * width + (i * width + k)) by lia. apply (gathered_nth P width size_local gd); [intros r' Hr'; apply Hgd; exact Hr'|lia|exact Hr|nia].
Qed.
End Geometry.
