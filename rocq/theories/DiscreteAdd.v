(** Proofs about the interpolation matrix, for property C84. *)
From Verif Require Import Base BaseProofs InterpSpec InterpWrites NonMatchingScatter AssembleSpec AsmSums DiscreteOps DiscreteOpsSpec DiscreteLinear DiscreteSet.
From Coq Require Import Ring.
Open Scope nat_scope.

Section Mask.
Variables (T : Type) (zero : T).
Variables (owned bs n0 size : nat) (rows : list nat).
Hypothesis Hbs : 0 < bs.
Hypothesis Hrows : forall r, In r rows -> r < size.
(** Row block [i] of the cell is kept. *)
Definition fresh (added : list bool) (i : nat) : bool :=
  (nth i rows 0 <? owned) && negb (nth (nth i rows 0) added false) && negb (existsb (Nat.eqb (nth i rows 0)) (firstn i rows)).
Lemma firstn_S_nth i : i < length rows -> firstn (S i) rows = firstn i rows ++ [nth i rows 0].
Proof.
  clear Hrows. revert i. induction rows as [|r l IH]; intros i Hi; [cbn in Hi; lia|]. destruct i as [|i]; [reflexivity|]. cbn [length] in Hi. cbn [firstn nth app]. f_equal. apply IH. lia.
Qed.
Lemma zero_rows (z : list T) i A : (i + 1) * bs <= length A -> exists A', ofold (fun A k => upd A (i * bs + k) z) (seq 0 bs) A = Some A' /\ length A' = length A /\
  forall m, m < length A -> nth_error A' m = if m / bs =? i then Some z else nth_error A m.
Proof.
  intro HA.
  assert (G : forall j, j <= bs -> exists A', ofold (fun A k => upd A (i * bs + k) z) (seq 0 j) A = Some A' /\ length A' = length A /\
    forall m, m < length A -> nth_error A' m = if (i * bs <=? m) && (m <? i * bs + j) then Some z else nth_error A m).
  { induction j as [|j IH]; intro Hj.
    - exists A. split; [reflexivity|]. split; [reflexivity|]. intros m _. destruct (Nat.leb_spec (i * bs) m) as [H1|H1], (Nat.ltb_spec m (i * bs + 0)) as [H2|H2]; cbn [andb]; try reflexivity. lia.
    - destruct IH as (A1 & E1 & L1 & H1); [lia|]. rewrite seq_S, ofold_app, E1. cbn [obind ofold Nat.add].
      destruct (upd A1 (i * bs + j) z) as [A2|] eqn:E2.
      2:{ exfalso. assert (Hl : i * bs + j < length A1) by nia. destruct (upd_some A1 (i * bs + j) z Hl) as (A3 & E3). congruence. }
      exists A2. split; [reflexivity|]. split; [rewrite (upd_length _ _ _ _ E2); exact L1|]. intros m Hm. destruct (Nat.eq_dec m (i * bs + j)) as [->|Nm].
      + rewrite (upd_nth_eq _ _ _ _ E2). rewrite (proj2 (Nat.leb_le _ _)), (proj2 (Nat.ltb_lt _ _)) by lia. reflexivity.
      + rewrite (upd_nth_neq _ _ _ _ _ E2) by congruence. rewrite H1 by exact Hm.
        destruct (Nat.leb_spec (i * bs) m) as [H3|H3], (Nat.ltb_spec m (i * bs + j)) as [H4|H4], (Nat.ltb_spec m (i * bs + S j)) as [H5|H5]; cbn [andb]; try reflexivity; lia. }
  destruct (G bs (le_n _)) as (A' & E & L & H). exists A'. split; [exact E|]. split; [exact L|]. intros m Hm. rewrite H by exact Hm.
  pose proof (Nat.div_mod m bs ltac:(lia)). pose proof (Nat.mod_upper_bound m bs ltac:(lia)).
  destruct (Nat.eqb_spec (m / bs) i) as [Ei|Ni].
  - rewrite (proj2 (Nat.leb_le _ _)), (proj2 (Nat.ltb_lt _ _)) by nia. reflexivity.
  - destruct (Nat.leb_spec (i * bs) m) as [H3|H3], (Nat.ltb_spec m (i * bs + bs)) as [H4|H4]; cbn [andb]; try reflexivity. exfalso. apply Ni. nia.
Qed.
Lemma mask_rows_ok added A : length added = size -> length A = length rows * bs ->
  exists added' A', mask_rows T zero owned bs n0 rows added A = Some (added', A') /\ length added' = size /\
  (forall r, r < size -> (nth r added' false = true <-> nth r added false = true \/ In r rows)) /\
  forall m, m < length A -> nth_error A' m = if fresh added (m / bs) then nth_error A m else Some (repeat zero n0).
Proof.
  intros La LA. unfold mask_rows.
  set (step := fun (st : list bool * list (list T)) (i : nat) => _).
  assert (G : forall j, j <= length rows -> exists ad A', ofold step (seq 0 j) (added, A) = Some (ad, A') /\ length ad = size /\ length A' = length A /\
    (forall r, r < size -> nth r ad false = nth r added false || existsb (Nat.eqb r) (firstn j rows)) /\
    forall m, m < length A -> nth_error A' m = if m <? j * bs then (if fresh added (m / bs) then nth_error A m else Some (repeat zero n0)) else nth_error A m).
  { induction j as [|j IH]; intro Hj.
    - exists added, A. split; [reflexivity|]. split; [exact La|]. split; [reflexivity|]. split; [intros r _; cbn [firstn existsb]; now rewrite orb_false_r|]. intros m _. reflexivity.
    - destruct IH as (ad & A1 & E & L1 & L2 & Had & HA); [lia|]. rewrite seq_S, ofold_app, E. cbn [obind ofold Nat.add]. unfold step at 1. cbn beta iota.
      rewrite (nth_error_nth' rows 0) by lia. cbn [obind]. set (r := nth j rows 0) in *. assert (Hr : r < size) by (apply Hrows, nth_In; lia).
      assert (Edone : (if owned <=? r then Some true else nth_error ad r) = Some (negb (fresh added j))).
      { unfold fresh. fold r. destruct (Nat.leb_spec owned r) as [Ho|Ho].
        - rewrite (proj2 (Nat.ltb_ge _ _)) by exact Ho. reflexivity.
        - rewrite (proj2 (Nat.ltb_lt _ _)) by exact Ho. rewrite (nth_error_nth' ad false) by lia. rewrite Had by exact Hr. cbn [andb]. now rewrite negb_andb, !negb_involutive. }
      rewrite Edone. cbn [obind].
      assert (EA : exists A2, (if negb (fresh added j) then ofold (fun A k => upd A (j * bs + k) (repeat zero n0)) (seq 0 bs) A1 else Some A1) = Some A2 /\ length A2 = length A /\
         forall m, m < length A -> nth_error A2 m = if (m / bs =? j) && negb (fresh added j) then Some (repeat zero n0) else nth_error A1 m).
      { destruct (fresh added j) eqn:Ef; cbn [negb].
        - exists A1. split; [reflexivity|]. split; [exact L2|]. intros m _. now rewrite andb_false_r.
        - destruct (zero_rows (repeat zero n0) j A1) as (A2 & E2 & L3 & H2); [nia|]. exists A2. split; [exact E2|]. split; [lia|]. intros m Hm. rewrite H2 by lia. now rewrite andb_true_r. }
      destruct EA as (A2 & -> & L3 & H2). cbn [obind].
      destruct (upd_some ad r true ltac:(lia)) as (ad2 & E2). rewrite E2. cbn [obind]. exists ad2, A2. split; [reflexivity|]. split; [rewrite (upd_length _ _ _ _ E2); exact L1|]. split; [exact L3|]. split.
      + intros s Hs. rewrite firstn_S_nth by lia. fold r. rewrite existsb_app. cbn [existsb]. destruct (Nat.eqb_spec s r) as [->|Ns].
        * rewrite (nth_error_nth _ _ _ (upd_nth_eq _ _ _ _ E2)). now rewrite !orb_true_r.
        * assert (En : nth s ad2 false = nth s ad false).
          { apply nth_error_nth. rewrite (upd_nth_neq _ _ _ _ _ E2) by congruence. apply nth_error_nth'. lia. }
          rewrite En, Had by exact Hs. now rewrite !orb_false_r.
      + intros m Hm. rewrite H2, HA by exact Hm. pose proof (Nat.div_mod m bs ltac:(lia)). pose proof (Nat.mod_upper_bound m bs ltac:(lia)).
        destruct (Nat.eqb_spec (m / bs) j) as [Em|Nm]; cbn [andb].
        * rewrite (proj2 (Nat.ltb_ge m (j * bs))), (proj2 (Nat.ltb_lt m (S j * bs))) by nia. rewrite Em. destruct (fresh added j); reflexivity.
        * destruct (Nat.ltb_spec m (j * bs)) as [H3|H3].
          -- rewrite (proj2 (Nat.ltb_lt m (S j * bs))) by nia. reflexivity.
          -- rewrite (proj2 (Nat.ltb_ge m (S j * bs))) by nia. reflexivity. }
  destruct (G (length rows) (le_n _)) as (ad & A' & E & L1 & L2 & Had & HA). exists ad, A'. split; [exact E|]. split; [exact L1|]. split.
  - intros r Hr. rewrite Had by exact Hr. rewrite firstn_all, orb_true_iff, existsb_exists. split; (intros [H|H]; [now left|right]).
    + destruct H as (x & Hx & Ex). apply Nat.eqb_eq in Ex. now subst x.
    + exists r. now rewrite Nat.eqb_refl.
  - intros m Hm. rewrite HA by exact Hm. rewrite (proj2 (Nat.ltb_lt m (length rows * bs))) by lia. reflexivity.
Qed.
End Mask.

Section Ring.
Variables (T : Type) (zero one : T) (add mul sub : T -> T -> T) (opp : T -> T).
Hypothesis Rth : ring_theory zero one add mul sub opp eq.
Add Ring Tr : Rth.
Notation tsum := (tsum zero add).
Notation sum := (sum zero add).
Notation linear := (linear T add mul).
Notation unit := (unit T zero one).
Notation r0l := (r0l T zero one add mul sub opp Rth).
Notation rcomm := (rcomm T zero one add mul sub opp Rth).
Notation rassoc := (rassoc T zero one add mul sub opp Rth).

(** Row [a] times a vector, by entries *)
Definition rsum (M : list (nat * nat * T)) (u : list T) (a : nat) : T :=
  sum (map (fun e => if fst (fst e) =? a then mul (snd e) (nth (snd (fst e)) u zero) else zero) M).
Lemma rsum_app M M' u a : rsum (M ++ M') u a = add (rsum M u a) (rsum M' u a).
Proof. unfold rsum. rewrite map_app. apply (sum_app zero add r0l rassoc). Qed.
Lemma times_added M u a : times T zero add mul (added_entry T zero add M) u a = rsum M u a.
Proof.
  induction M as [|[[a' b'] v] M IH].
  - unfold times, added_entry, rsum. cbn [map]. apply (tsum_zero zero add r0l). intros b _. change (sum []) with zero. ring.
  - unfold times, rsum in *. cbn [map fst snd]. rewrite (sum_cons zero add), <- IH.
    rewrite (tsum_ext zero add (length u) _ (fun b => add (if (a' =? a) && (b' =? b) then mul v (nth b u zero) else zero) (mul (added_entry T zero add M a b) (nth b u zero)))).
    2:{ intros b _. unfold added_entry. cbn [map fst snd]. rewrite (sum_cons zero add). destruct ((a' =? a) && (b' =? b)); ring. }
    rewrite (tsum_plus zero add r0l rcomm rassoc). f_equal. destruct (Nat.eqb_spec a' a) as [Ea|Na]; cbn [andb].
    + destruct (Nat.lt_ge_cases b' (length u)) as [Hb|Hb].
      * rewrite (tsum_one zero add r0l rcomm rassoc (length u) _ b' Hb); [now rewrite Nat.eqb_refl|]. intros b _ Nb. destruct (Nat.eqb_spec b' b) as [E|_]; [congruence|reflexivity].
      * rewrite nth_overflow by exact Hb. rewrite (tsum_zero zero add r0l); [ring|]. intros b Hlt. destruct (Nat.eqb_spec b' b) as [E|_]; [lia|reflexivity].
    + apply (tsum_zero zero add r0l). intros b _. reflexivity.
Qed.

Section Cells.
Variables (bs0 bs1 dim0 vs0 vs1 n1 np : nat) (ident : bool) (Pi : list (list T)).
Variables (basis : nat -> nat -> list (list T)) (pull : nat -> nat -> list T -> list T) (transform1 : nat -> list T -> list T).
Variables (cbs rbs owned ghosted ncells : nat) (dofmap0 dofmap1 : list (list nat)).
Notation n0 := (bs0 * dim0).
Notation coef u c := (cell_coefficients T zero cbs dofmap0 n0 u c).
Definition iop (c : nat) : list T -> list T := interpolated T zero add mul bs0 bs1 dim0 vs1 np ident Pi (basis c) (pull c) (transform1 c).
Hypothesis Hbs0 : 0 < bs0.
Hypothesis Hvs : vs1 = vs0 * bs0.
Hypothesis Hbasis : forall c p, c < ncells -> p < np -> length (basis c p) = dim0 /\ forall row, In row (basis c p) -> length row = vs0.
Hypothesis Hpull : forall c p, c < ncells -> p < np -> linear vs1 vs1 (pull c p).
Hypothesis Htr : forall c, c < ncells -> linear n1 n1 (transform1 c).
Hypothesis HPi : ident = false -> forall row, In row Pi -> (if bs1 =? 1 then vs1 * np else np) <= length row.
Hypothesis Hbs1 : ident = false -> bs1 <> 1 -> bs1 <= vs1.
Hypothesis Hn1 : n1 = (if ident then np * vs1 else if bs1 =? 1 then length Pi else length Pi * bs1).
Hypothesis Hcbs : 0 < cbs.
Hypothesis Hrbs : 0 < rbs.
Hypothesis Hd0 : forall c, c < ncells -> exists dofs, nth_error dofmap0 c = Some dofs /\ cbs * length dofs = n0.
Hypothesis Hd1 : forall c, c < ncells -> exists dofs, nth_error dofmap1 c = Some dofs /\ rbs * length dofs = n1 /\ forall d, In d dofs -> d < owned + ghosted.

Lemma local_part c : c < ncells -> linear n0 n1 (fun u => local_dofs T zero add mul ident bs1 vs1 np Pi (fun p k => nth k (pull c p (function_value T zero add mul bs0 dim0 vs1 (basis c p) u)) zero)).
Proof.
  intro Hc. apply (local_dofs_linear T zero one add mul sub opp Rth ident bs1 vs1 np Pi n0 (fun u p k => nth k (pull c p (function_value T zero add mul bs0 dim0 vs1 (basis c p) u)) zero) n1).
  - intros p k Hp Hk. apply (lfun_coord T zero add mul n0 (fun u => pull c p (function_value T zero add mul bs0 dim0 vs1 (basis c p) u)) vs1 k); [|exact Hk].
    apply (linear_comp T add mul n0 vs1 vs1 _ _ (function_value_linear T zero one add mul sub opp Rth bs0 dim0 vs1 (basis c p) n0)). now apply Hpull.
  - exact Hbs1.
  - exact Hn1.
Qed.
Lemma iop_linear c : c < ncells -> linear n0 n1 (iop c).
Proof. intro Hc. apply (linear_comp T add mul n0 n1 n1 _ _ (local_part c Hc) (Htr c Hc)). Qed.

(** The local matrix of a cell *)
Lemma cell_matrix c : c < ncells ->
  (mv <- omap (fun p => B <- unroll T zero bs0 dim0 vs0 vs1 (basis c p) ;; pull_back T (pull c p) n0 vs1 B) (seq 0 np) ;; local_matrix T zero add mul ident bs1 vs1 np n0 Pi mv)
    = Some (of_columns T zero n1 n0 (fun i => local_dofs T zero add mul ident bs1 vs1 np Pi (fun p k => nth k (pull c p (function_value T zero add mul bs0 dim0 vs1 (basis c p) (unit n0 i))) zero))).
Proof.
  intro Hc. rewrite (omap_map _ (fun p => map (fun i => pull c p (function_value T zero add mul bs0 dim0 vs1 (basis c p) (unit n0 i))) (seq 0 n0))).
  - cbn [obind]. apply (local_matrix_ok T zero one add mul sub opp Rth ident bs1 vs1 np n0 Pi _ (fun i p k => nth k (pull c p (function_value T zero add mul bs0 dim0 vs1 (basis c p) (unit n0 i))) zero) n1); auto.
    intros p i k Hp Hi Hk. eexists _, _. rewrite nth_error_map_seq by exact Hp. split; [reflexivity|]. rewrite nth_error_map_seq by exact Hi. split; [reflexivity|]. apply nth_error_nth'.
    rewrite (proj1 (Hpull c p Hc Hp)); [exact Hk|]. apply (proj1 (function_value_linear T zero one add mul sub opp Rth bs0 dim0 vs1 (basis c p) n0)), unit_length.
  - intros p Hp. apply in_seq in Hp. destruct (Hbasis c p Hc ltac:(lia)) as [Lb Hb].
    destruct (unroll_ok T zero one add mul sub opp Rth bs0 dim0 vs0 vs1 (basis c p) Hbs0 Hvs Lb Hb) as (U & -> & HU). cbn [obind]. unfold pull_back. apply omap_map. intros m Hm. apply in_seq in Hm. rewrite HU by lia. reflexivity.
Qed.

(** A dof in the cells before [j] *)
Definition seen (j r : nat) : Prop := exists c i dofs, c < j /\ nth_error dofmap1 c = Some dofs /\ nth_error dofs i = Some r.

Definition masked (rows : list nat) (added : list bool) (c : nat) : nat -> nat -> T := fun m i => if fresh owned rows added (m / rbs) then nth m (iop c (unit n0 i)) zero else zero.
Lemma rsum_cell c rows cols added u a : c < ncells -> nth_error dofmap1 c = Some rows -> rbs * length rows = n1 -> nth_error dofmap0 c = Some cols -> cbs * length cols = n0 ->
  rsum (mk_entries T rbs cbs rows cols (masked rows added c)) u a = tsum n1 (fun m => if (target rbs rows m =? a) && fresh owned rows added (m / rbs) then nth m (iop c (coef u c)) zero else zero).
Proof.
  intros Hc Er Lr Ec Lc. unfold rsum, mk_entries. rewrite map_map, (sum_prod T zero one add mul sub opp Rth), Lr, Lc.
  change (tsum n1 (fun m => sum (map (fun i => if target rbs rows m =? a then mul (masked rows added c m i) (nth (target cbs cols i) u zero) else zero) (seq 0 n0)))
     = tsum n1 (fun m => if (target rbs rows m =? a) && fresh owned rows added (m / rbs) then nth m (iop c (coef u c)) zero else zero)).
  apply tsum_ext. intros m Hm.
  change (tsum n0 (fun i => if target rbs rows m =? a then mul (masked rows added c m i) (nth (target cbs cols i) u zero) else zero)
    = if (target rbs rows m =? a) && fresh owned rows added (m / rbs) then nth m (iop c (coef u c)) zero else zero).
  destruct (target rbs rows m =? a); cbn [andb]; [|apply (tsum_zero zero add r0l); reflexivity].
  unfold masked. destruct (fresh owned rows added (m / rbs)); [|apply (tsum_zero zero add r0l); intros; ring].
  rewrite (linear_units T zero one add mul sub opp Rth n0 n1 (iop c) (coef u c) m (iop_linear c Hc)); [|apply coef_length|exact Hm].
  apply tsum_ext. intros i Hi. rewrite (coef_nth T zero cbs dofmap0 n0 Hcbs c cols i u Ec Lc Hi). ring.
Qed.
Lemma target_block rows r k m : k < rbs -> m < rbs * length rows -> target rbs rows m = rbs * r + k -> nth (m / rbs) rows 0 = r /\ m mod rbs = k /\ m / rbs < length rows.
Proof.
  intros Hk Hm E. unfold target in E. pose proof (Nat.mod_upper_bound m rbs ltac:(lia)) as Hmod. destruct (digits_inj rbs (nth (m / rbs) rows 0) (m mod rbs) r k) as [E1 E2]; [lia|lia|lia|].
  split; [exact E1|]. split; [exact E2|]. apply Nat.div_lt_upper_bound; lia.
Qed.
Lemma rsum_cell_zero c rows cols added u r k : c < ncells -> nth_error dofmap1 c = Some rows -> rbs * length rows = n1 -> nth_error dofmap0 c = Some cols -> cbs * length cols = n0 ->
  k < rbs -> owned <= r \/ nth r added false = true \/ ~ In r rows -> rsum (mk_entries T rbs cbs rows cols (masked rows added c)) u (rbs * r + k) = zero.
Proof.
  intros Hc Er Lr Ec Lc Hk H. rewrite (rsum_cell c rows cols added u _ Hc Er Lr Ec Lc). apply (tsum_zero zero add r0l). intros m Hm.
  destruct (Nat.eqb_spec (target rbs rows m) (rbs * r + k)) as [E|_]; cbn [andb]; [|reflexivity].
  destruct (target_block rows r k m Hk ltac:(lia) E) as (E1 & E2 & Hl). unfold fresh. rewrite E1. destruct H as [H|[H|H]].
  - rewrite (proj2 (Nat.ltb_ge _ _)) by exact H. reflexivity.
  - rewrite H. cbn [negb]. now rewrite andb_false_r.
  - exfalso. apply H. rewrite <- E1. apply nth_In. exact Hl.
Qed.
Lemma existsb_firstn rows i r : existsb (Nat.eqb r) (firstn i rows) = true -> exists i', i' < i /\ nth_error rows i' = Some r.
Proof.
  intro H. apply existsb_exists in H as (x & Hx & Ex). apply Nat.eqb_eq in Ex. subst x. apply In_nth_error in Hx as (i' & E). exists i'.
  assert (Hi : i' < i) by (apply nth_error_bound in E; rewrite firstn_length in E; lia). split; [exact Hi|]. now rewrite nth_error_firstn_lt in E by exact Hi.
Qed.
Lemma rsum_cell_first c rows cols added u i r k : c < ncells -> nth_error dofmap1 c = Some rows -> rbs * length rows = n1 -> nth_error dofmap0 c = Some cols -> cbs * length cols = n0 ->
  k < rbs -> r < owned -> nth r added false = false -> nth_error rows i = Some r -> (forall i', i' < i -> nth_error rows i' <> Some r) ->
  rsum (mk_entries T rbs cbs rows cols (masked rows added c)) u (rbs * r + k) = nth (rbs * i + k) (iop c (coef u c)) zero.
Proof.
  intros Hc Er Lr Ec Lc Hk Ho Ha Ei Hf. rewrite (rsum_cell c rows cols added u _ Hc Er Lr Ec Lc). pose proof (nth_error_bound _ _ _ Ei) as Hi.
  assert (Ediv : (rbs * i + k) / rbs = i) by (rewrite Nat.mul_comm, Nat.div_add_l, Nat.div_small by lia; lia).
  assert (Emod : (rbs * i + k) mod rbs = k) by (rewrite Nat.add_comm, Nat.mul_comm, Nat.mod_add, Nat.mod_small by lia; reflexivity).
  rewrite (tsum_one zero add r0l rcomm rassoc n1 _ (rbs * i + k)); [|nia|].
  - unfold target, fresh. rewrite Ediv, Emod, (nth_error_nth _ _ _ Ei), Nat.eqb_refl, Ha, (proj2 (Nat.ltb_lt _ _) Ho). cbn [andb negb].
    destruct (existsb (Nat.eqb r) (firstn i rows)) eqn:Ex; [|reflexivity]. apply existsb_firstn in Ex as (i' & Hi' & E'). destruct (Hf i' Hi' E').
  - intros m Hm Nm. destruct (Nat.eqb_spec (target rbs rows m) (rbs * r + k)) as [E|_]; cbn [andb]; [|reflexivity].
    destruct (target_block rows r k m Hk ltac:(lia) E) as (E1 & E2 & Hl). unfold fresh. rewrite E1.
    destruct (lt_eq_lt_dec (m / rbs) i) as [[H|H]|H].
    + exfalso. apply (Hf _ H). rewrite <- E1. now apply nth_error_nth'.
    + exfalso. apply Nm. rewrite (Nat.div_mod m rbs) by lia. congruence.
    + assert (Ex : existsb (Nat.eqb r) (firstn (m / rbs) rows) = true).
      { apply existsb_exists. exists r. rewrite Nat.eqb_refl. split; [|reflexivity]. apply (nth_error_In _ i). now rewrite nth_error_firstn_lt. }
      rewrite Ex. cbn [negb]. now rewrite andb_false_r.
Qed.

Definition cell_step (st : list bool * list (nat * nat * T)) (c : nat) : option (list bool * list (nat * nat * T)) :=
  let '(row_added, M) := st in
  mv <- omap (fun p => B <- unroll T zero bs0 dim0 vs0 vs1 (basis c p) ;; pull_back T (pull c p) n0 vs1 B) (seq 0 np) ;;
  A <- local_matrix T zero add mul ident bs1 vs1 np n0 Pi mv ;;
  if negb (length A =? n1) then None else
  A <- apply_columns T (transform1 c) n0 A ;;
  row_dofs <- nth_error dofmap1 c ;;
  '(row_added, A) <- mask_rows T zero owned rbs n0 row_dofs row_added A ;;
  col_dofs <- nth_error dofmap0 c ;;
  e <- block_entries T rbs cbs row_dofs col_dofs A ;;
  Some (row_added, M ++ e).
Lemma cell_step_ok c added M : c < ncells -> length added = owned + ghosted ->
  exists rows cols added', nth_error dofmap1 c = Some rows /\ rbs * length rows = n1 /\ nth_error dofmap0 c = Some cols /\ cbs * length cols = n0 /\ length added' = owned + ghosted /\
  (forall r, r < owned + ghosted -> (nth r added' false = true <-> nth r added false = true \/ In r rows)) /\
  cell_step (added, M) c = Some (added', M ++ mk_entries T rbs cbs rows cols (masked rows added c)).
Proof.
  intros Hc La. destruct (Hd1 c Hc) as (rows & Er & Lr & Hr). destruct (Hd0 c Hc) as (cols & Ec & Lc).
  set (A := of_columns T zero n1 n0 (fun i => iop c (unit n0 i))).
  destruct (mask_rows_ok T zero owned rbs n0 (owned + ghosted) rows Hrbs Hr added A La) as (added' & A' & E & La' & Had & HA); [unfold A; rewrite of_columns_length; lia|].
  exists rows, cols, added'. repeat (split; [assumption|]). unfold cell_step. pose proof (cell_matrix c Hc) as EM.
  destruct (omap _ (seq 0 np)) as [mv|]; [|discriminate]. cbn [obind] in EM |- *. rewrite EM. cbn [obind]. rewrite of_columns_length, Nat.eqb_refl. cbn [negb].
  rewrite (apply_columns_ok T zero (transform1 c) n1 n0); [|intros i _; apply (proj1 (local_part c Hc)), unit_length|exact (proj1 (Htr c Hc))]. cbn [obind]. rewrite Er. cbn [obind].
  change (of_columns T zero n1 n0 (fun i => transform1 c _)) with A. rewrite E. cbn [obind]. rewrite Ec. cbn [obind].
  rewrite (block_entries_ok T rbs cbs rows cols A' (masked rows added c) Hrbs Hcbs); [reflexivity|].
  intros m i Hm Hi. rewrite HA by (unfold A; rewrite of_columns_length; lia). unfold masked. destruct (fresh owned rows added (m / rbs)).
  - unfold A. rewrite of_columns_nth by lia. eexists. split; [reflexivity|]. rewrite (nth_error_map_seq (fun i => nth m (iop c (unit n0 i)) zero)) by lia. reflexivity.
  - eexists. split; [reflexivity|]. apply nth_error_repeat. lia.
Qed.
Lemma interpolation_ok : exists M,
  interpolation_matrix T zero add mul bs0 bs1 dim0 vs0 vs1 n1 np ident Pi basis pull transform1 cbs rbs owned ghosted ncells dofmap0 dofmap1 = Some M /\
  (forall u c i r k, first_at dofmap1 ncells c i r -> r < owned -> k < rbs -> times T zero add mul (added_entry T zero add M) u (rbs * r + k) = nth (rbs * i + k) (iop c (coef u c)) zero) /\
  (forall u r k, owned <= r \/ ~ seen ncells r -> k < rbs -> times T zero add mul (added_entry T zero add M) u (rbs * r + k) = zero).
Proof.
  assert (G : forall j, j <= ncells -> exists added M, ofold cell_step (seq 0 j) (repeat false (owned + ghosted), []) = Some (added, M) /\ length added = owned + ghosted /\
    (forall r, r < owned + ghosted -> (nth r added false = true <-> seen j r)) /\
    (forall u c i r k, first_at dofmap1 j c i r -> r < owned -> k < rbs -> rsum M u (rbs * r + k) = nth (rbs * i + k) (iop c (coef u c)) zero) /\
    (forall u r k, owned <= r \/ ~ seen j r -> k < rbs -> rsum M u (rbs * r + k) = zero)).
  { induction j as [|j IH]; intro Hj.
    - exists (repeat false (owned + ghosted)), []. split; [reflexivity|]. split; [apply repeat_length|]. split; [|split].
      + intros r Hr. rewrite nth_repeat. split; [discriminate|]. intros (c & i & dofs & Hc & _). lia.
      + intros u c i r k (Hc & _) _ _. lia.
      + intros u r k _ _. reflexivity.
    - destruct IH as (added & M & E & La & Had & H1 & H2); [lia|]. destruct (cell_step_ok j added M ltac:(lia) La) as (rows & cols & added' & Er & Lr & Ec & Lc & La' & Had' & Es).
      exists added', (M ++ mk_entries T rbs cbs rows cols (masked rows added j)). rewrite seq_S, ofold_app, E. cbn [obind ofold Nat.add]. rewrite Es. cbn [obind]. split; [reflexivity|]. split; [exact La'|].
      assert (Hseen : forall r, seen (S j) r <-> seen j r \/ In r rows).
      { intro r. split.
        - intros (c & i & dofs & Hc & E1 & E2). destruct (Nat.eq_dec c j) as [->|Nc]; [right|left; exists c, i, dofs; split; [lia|now split]]. rewrite Er in E1. injection E1 as <-. exact (nth_error_In _ _ E2).
        - intros [(c & i & dofs & Hc & E1 & E2)|Hin]; [exists c, i, dofs; split; [lia|now split]|]. apply In_nth_error in Hin as (i & Ei). exists j, i, rows. split; [lia|]. now split. }
      split; [intros r Hr; rewrite Had', Had, Hseen by exact Hr; reflexivity|]. split.
      + intros u c i r k (Hc & (dofs & E1 & E2) & Hf) Ho Hk. rewrite rsum_app. destruct (Nat.eq_dec c j) as [->|Nc].
        * rewrite Er in E1. injection E1 as <-. assert (Hns : ~ seen j r) by (intros (c' & i' & dofs' & Hc' & E3 & E4); apply (Hf c' i' dofs'); auto).
          rewrite H2 by auto. rewrite (rsum_cell_first j rows cols added u i r k); auto; [ring| |].
          -- destruct (nth r added false) eqn:Er'; [|reflexivity]. exfalso. apply Hns, Had; [lia|exact Er'].
          -- intros i' Hi'. apply (Hf j i' rows); auto.
        * rewrite (H1 u c i r k); [|split; [lia|]; split; [now exists dofs|exact Hf]|exact Ho|exact Hk].
          rewrite (rsum_cell_zero j rows cols added u r k); auto; [ring|]. right. left. apply Had; [lia|]. exists c, i, dofs. split; [lia|]. now split.
      + intros u r k H Hk. rewrite rsum_app. rewrite H2; [|destruct H as [H|H]; [now left|right; intro Hs; apply H, Hseen; now left]|exact Hk].
        rewrite (rsum_cell_zero j rows cols added u r k); auto; [ring|]. destruct H as [H|H]; [now left|right; right; intro Hi; apply H, Hseen; now right]. }
  destruct (G ncells (le_n _)) as (added & M & E & _ & _ & H1 & H2). exists M. split.
  - unfold interpolation_matrix. change (obind (ofold cell_step (seq 0 ncells) (repeat false (owned + ghosted), [])) (fun '(_, M) => Some M) = Some M). rewrite E. reflexivity.
  - split; intros; rewrite times_added; auto.
Qed.
End Cells.
End Ring.
