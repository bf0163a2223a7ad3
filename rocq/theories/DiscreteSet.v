(** Matrices whose entries are set or added, for properties C84 and C85. *)
From Verif Require Import Base BaseProofs InterpSpec InterpWrites PointOwnerProofs NonMatchingScatter AssembleSpec AsmSums DiscreteOps DiscreteOpsSpec DiscreteLinear.
From Coq Require Import Ring.
Open Scope nat_scope.

Lemma list_prod_map {A B C D} (f : A -> C) (g : B -> D) la lb : list_prod (map f la) (map g lb) = map (fun x => (f (fst x), g (snd x))) (list_prod la lb).
Proof. induction la as [|a la IH]; [reflexivity|]. cbn [map list_prod]. rewrite map_app, IH, !map_map. reflexivity. Qed.

Lemma target_cell_dof bs dofmap c dofs m : 0 < bs -> nth_error dofmap c = Some dofs -> m < bs * length dofs -> cell_dof bs dofmap c m = Some (target bs dofs m).
Proof.
  intros Hb E Hm. unfold cell_dof, target. rewrite E. rewrite (nth_error_nth' dofs 0); [reflexivity|]. apply Nat.div_lt_upper_bound; lia.
Qed.
Lemma cell_dof_bound bs dofmap c dofs m a : 0 < bs -> nth_error dofmap c = Some dofs -> cell_dof bs dofmap c m = Some a -> m < bs * length dofs /\ a = target bs dofs m.
Proof.
  intros Hb E H. unfold cell_dof in H. rewrite E in H. destruct (nth_error dofs (m / bs)) as [d|] eqn:Ed; [|discriminate]. injection H as <-. split.
  - apply nth_error_bound in Ed. pose proof (Nat.div_mod m bs ltac:(lia)). pose proof (Nat.mod_upper_bound m bs ltac:(lia)). nia.
  - unfold target. now rewrite (nth_error_nth _ _ _ Ed).
Qed.

Section Entries.
Variables (T : Type) (zero : T).
Definition mk_entries (bs1 bs0 : nat) (rows cols : list nat) (val : nat -> nat -> T) : list (nat * nat * T) :=
  map (fun x => (target bs1 rows (fst x), target bs0 cols (snd x), val (fst x) (snd x))) (list_prod (seq 0 (bs1 * length rows)) (seq 0 (bs0 * length cols))).
Lemma block_entries_ok bs1 bs0 rows cols A val : 0 < bs1 -> 0 < bs0 ->
  (forall m i, m < bs1 * length rows -> i < bs0 * length cols -> exists row, nth_error A m = Some row /\ nth_error row i = Some (val m i)) ->
  block_entries T bs1 bs0 rows cols A = Some (mk_entries bs1 bs0 rows cols val).
Proof.
  intros H1 H0 HA. unfold block_entries.
  rewrite (omap_map _ (fun x : (nat * nat) * (nat * nat) => (bs1 * nth (fst (fst x)) rows 0 + snd (fst x), bs0 * nth (fst (snd x)) cols 0 + snd (snd x), val (fst (fst x) * bs1 + snd (fst x)) (fst (snd x) * bs0 + snd (snd x))))).
  - f_equal. rewrite !list_prod_seq by assumption. rewrite list_prod_map, map_map. unfold mk_entries, target. rewrite (Nat.mul_comm bs1), (Nat.mul_comm bs0). apply map_ext. intros [m i]. cbn [fst snd].
    rewrite (Nat.mul_comm (m / bs1)), (Nat.mul_comm (i / bs0)), <- !Nat.div_mod by lia. reflexivity.
  - intros [[i k] [j l]] Hin. apply in_prod_iff in Hin as [Hik Hjl]. apply in_prod_iff in Hik as [Hi Hk]. apply in_prod_iff in Hjl as [Hj Hl]. apply in_seq in Hi, Hk, Hj, Hl.
    rewrite (nth_error_nth' rows 0), (nth_error_nth' cols 0) by lia. cbn [obind fst snd].
    destruct (HA (i * bs1 + k) (j * bs0 + l)) as (row & -> & E); [nia|nia|]. cbn [obind]. rewrite E. reflexivity.
Qed.
Lemma mk_entries_in bs1 bs0 rows cols val e : In e (mk_entries bs1 bs0 rows cols val) <->
  exists m i, m < bs1 * length rows /\ i < bs0 * length cols /\ e = (target bs1 rows m, target bs0 cols i, val m i).
Proof.
  unfold mk_entries. rewrite in_map_iff. split.
  - intros ([m i] & <- & Hin). apply in_prod_iff in Hin as [Hm Hi]. apply in_seq in Hm, Hi. exists m, i. cbn [fst snd]. split; [lia|]. split; [lia|reflexivity].
  - intros (m & i & Hm & Hi & ->). exists (m, i). split; [reflexivity|]. apply in_prod_iff. split; apply in_seq; lia.
Qed.
Lemma set_entry_all M a b w : (forall v, In (a, b, v) M -> v = w) -> (exists v, In (a, b, v) M) \/ w = zero -> set_entry T zero M a b = w.
Proof.
  intros H He. unfold set_entry.
  assert (G : forall M v0, (forall v, In (a, b, v) M -> v = w) -> (exists v, In (a, b, v) M) \/ v0 = w -> fold_left (fun v e => if (fst (fst e) =? a) && (snd (fst e) =? b) then snd e else v) M v0 = w).
  { clear. induction M as [|[[a' b'] v'] M IH]; intros v0 H He; cbn [fold_left].
    - destruct He as [[v []]|He]; exact He.
    - cbn [fst snd]. destruct (Nat.eqb_spec a' a) as [->|Na]; [destruct (Nat.eqb_spec b' b) as [->|Nb]|]; cbn [andb];
        (apply IH; [intros v Hv; apply H; now right|]).
      + right. apply H. now left.
      + destruct He as [(v & [E|Hv])|He]; [congruence|left; now exists v|now right].
      + destruct He as [(v & [E|Hv])|He]; [congruence|left; now exists v|now right]. }
  apply G; [exact H|]. destruct He as [He|He]; [now left|right; congruence].
Qed.
End Entries.

Section Ring.
Variables (T : Type) (zero one : T) (add mul sub : T -> T -> T) (opp : T -> T).
Hypothesis Rth : ring_theory zero one add mul sub opp eq.
Add Ring Tr : Rth.
Notation tsum := (tsum zero add).
Notation linear := (linear T add mul).
Notation unit := (unit T zero one).
Notation r0l := (r0l T zero one add mul sub opp Rth).
Notation rcomm := (rcomm T zero one add mul sub opp Rth).
Notation rassoc := (rassoc T zero one add mul sub opp Rth).

Variables (bs0 : nat) (dofmap0 : list (list nat)) (n0 N0 : nat).
Hypothesis Hbs0 : 0 < bs0.
Notation coef u c := (cell_coefficients T zero bs0 dofmap0 n0 u c).

Lemma coef_length u c : length (coef u c) = n0.
Proof. unfold cell_coefficients. now rewrite map_length, seq_length. Qed.
Lemma coef_nth c dofs i u : nth_error dofmap0 c = Some dofs -> bs0 * length dofs = n0 -> i < n0 -> nth i (coef u c) zero = nth (target bs0 dofs i) u zero.
Proof. intros E L Hi. unfold cell_coefficients. rewrite nth_map_seq by exact Hi. rewrite (target_cell_dof bs0 dofmap0 c dofs i) by (auto; lia). reflexivity. Qed.
Lemma coef_linear c : linear N0 n0 (fun u => coef u c).
Proof.
  rewrite <- (seq_length n0 0) at 1. unfold cell_coefficients.
  apply (linear_map T add mul N0 (seq 0 n0) (fun m u => match cell_dof bs0 dofmap0 c m with Some a => nth a u zero | None => zero end)).
  intros m _. destruct (cell_dof bs0 dofmap0 c m) as [a|]; [|split; intros; ring].
  destruct (lfun_entry T zero one add mul sub opp Rth N0 a one) as [A S]. split.
  - intros x y Hx Hy. specialize (A x y Hx Hy). cbn beta in A. transitivity (mul (nth a (vadd T add x y) zero) one); [ring|]. rewrite A. ring.
  - intros s x Hx. specialize (S s x Hx). cbn beta in S. transitivity (mul (nth a (vscale T mul s x) zero) one); [ring|]. rewrite S. ring.
Qed.
(** The coefficients of a unit vector *)
Lemma coef_unit c dofs b i : nth_error dofmap0 c = Some dofs -> bs0 * length dofs = n0 -> b < N0 -> i < n0 -> target bs0 dofs i = b ->
  (forall j, j < n0 -> target bs0 dofs j = b -> j = i) -> coef (unit N0 b) c = unit n0 i.
Proof.
  intros E L Hb Hi Ei Hinj. apply (list_ext zero n0); [apply coef_length|apply unit_length|]. intros j Hj. rewrite (coef_nth c dofs j) by assumption. rewrite !unit_nth.
  destruct (Nat.eqb_spec (target bs0 dofs j) b) as [Ej|Nj].
  - rewrite (Hinj j Hj Ej), Nat.eqb_refl, Ei. rewrite (proj2 (Nat.ltb_lt b N0) Hb), (proj2 (Nat.ltb_lt i n0) Hi). reflexivity.
  - destruct (Nat.eqb_spec j i) as [->|_]; [congruence|reflexivity].
Qed.
Lemma coef_unit_none c dofs b : nth_error dofmap0 c = Some dofs -> bs0 * length dofs = n0 -> (forall j, j < n0 -> target bs0 dofs j <> b) -> coef (unit N0 b) c = vscale T mul zero (coef (unit N0 b) c).
Proof.
  intros E L H. apply (list_ext zero n0); [apply coef_length|rewrite vscale_length; apply coef_length|]. intros j Hj. rewrite vscale_nth by (rewrite coef_length; exact Hj). rewrite (coef_nth c dofs j) by assumption.
  rewrite unit_nth. destruct (Nat.eqb_spec (target bs0 dofs j) b) as [Ej|_]; [destruct (H j Hj Ej)|]. cbn [andb]. ring.
Qed.

Section Set_.
Variables (bs1 : nat) (dofmap1 : list (list nat)) (n1 ncells : nat) (op : nat -> list T -> list T).
Hypothesis Hbs1 : 0 < bs1.
Hypothesis Hop : forall c, c < ncells -> linear n0 n1 (op c).
Hypothesis Hd0 : forall c, c < ncells -> exists dofs, nth_error dofmap0 c = Some dofs /\ bs0 * length dofs = n0 /\ NoDup dofs /\ forall d, In d dofs -> bs0 * d + bs0 <= N0.
Hypothesis Hd1 : forall c, c < ncells -> exists dofs, nth_error dofmap1 c = Some dofs /\ bs1 * length dofs = n1.
Hypothesis Hconf : forall u c c' m m' a, length u = N0 -> c < ncells -> c' < ncells -> cell_dof bs1 dofmap1 c m = Some a -> cell_dof bs1 dofmap1 c' m' = Some a ->
  nth m (op c (coef u c)) zero = nth m' (op c' (coef u c')) zero.

Lemma target_inj c dofs i j : nth_error dofmap0 c = Some dofs -> bs0 * length dofs = n0 -> NoDup dofs -> i < n0 -> j < n0 -> target bs0 dofs i = target bs0 dofs j -> i = j.
Proof.
  intros E L ND Hi Hj Et. unfold target in Et. pose proof (Nat.mod_upper_bound i bs0 ltac:(lia)). pose proof (Nat.mod_upper_bound j bs0 ltac:(lia)).
  destruct (digits_inj bs0 (nth (i / bs0) dofs 0) (i mod bs0) (nth (j / bs0) dofs 0) (j mod bs0)) as [E1 E2]; [lia|lia|lia|].
  assert (i / bs0 < length dofs) by (apply Nat.div_lt_upper_bound; lia). assert (j / bs0 < length dofs) by (apply Nat.div_lt_upper_bound; lia).
  assert (i / bs0 = j / bs0) by (apply (proj1 (NoDup_nth dofs 0) ND); assumption).
  rewrite (Nat.div_mod i bs0), (Nat.div_mod j bs0) by lia. congruence.
Qed.

Definition cell_entries (c : nat) : list (nat * nat * T) :=
  match nth_error dofmap1 c, nth_error dofmap0 c with
  | Some rows, Some cols => mk_entries T bs1 bs0 rows cols (fun m i => nth m (op c (unit n0 i)) zero)
  | _, _ => []
  end.
Lemma set_ok u c m a : length u = N0 -> c < ncells -> cell_dof bs1 dofmap1 c m = Some a ->
  times T zero add mul (set_entry T zero (concat (map cell_entries (seq 0 ncells)))) u a = nth m (op c (coef u c)) zero.
Proof.
  intros Lu Hc Ha. destruct (Hd1 c Hc) as (rows & Er & Lr). destruct (cell_dof_bound bs1 dofmap1 c rows m a Hbs1 Er Ha) as [Hm Ea]. rewrite Lr in Hm.
  destruct (Hd0 c Hc) as (cols & Ec & Lc & ND & Hcols).
  rewrite (linear_units T zero one add mul sub opp Rth N0 n1 (fun u => op c (coef u c)) u m (linear_comp T add mul N0 n0 n1 _ _ (coef_linear c) (Hop c Hc)) Lu Hm).
  unfold times. rewrite Lu. apply tsum_ext. intros b Hb.
  enough (E : set_entry T zero (concat (map cell_entries (seq 0 ncells))) a b = nth m (op c (coef (unit N0 b) c)) zero) by (rewrite E; ring).
  apply set_entry_all.
  - intros v Hv. apply in_concat in Hv as (l & Hl & Hv). apply in_map_iff in Hl as (c' & <- & Hc'). apply in_seq in Hc'.
    destruct (Hd1 c' ltac:(lia)) as (rows' & Er' & Lr'). destruct (Hd0 c' ltac:(lia)) as (cols' & Ec' & Lc' & ND' & Hcols').
    unfold cell_entries in Hv. rewrite Er', Ec' in Hv. apply mk_entries_in in Hv as (m' & i' & Hm' & Hi' & E). rewrite Lc' in Hi'. injection E as E1 E2 ->.
    rewrite <- (coef_unit c' cols' b i' Ec' Lc' Hb Hi' (eq_sym E2)) by (intros j Hj Ej; apply (target_inj c' cols' j i' Ec' Lc' ND' Hj Hi'); congruence).
    symmetry. apply (Hconf (unit N0 b) c c' m m' a); [apply unit_length|exact Hc|lia|exact Ha|]. rewrite E1. now apply target_cell_dof.
  - destruct (in_dec Nat.eq_dec b (map (target bs0 cols) (seq 0 n0))) as [Hin|Hno].
    + left. apply in_map_iff in Hin as (i & Ei & Hi). apply in_seq in Hi. exists (nth m (op c (unit n0 i)) zero). apply in_concat. exists (cell_entries c). split; [apply in_map, in_seq; lia|].
      unfold cell_entries. rewrite Er, Ec. apply mk_entries_in. exists m, i. rewrite Lr, Lc. split; [exact Hm|]. split; [lia|]. congruence.
    + right. rewrite (coef_unit_none c cols b Ec Lc) by (intros j Hj Ej; apply Hno, in_map_iff; exists j; split; [exact Ej|apply in_seq; lia]).
      destruct (Hop c Hc) as (Lo & _ & So). rewrite So by apply coef_length. rewrite vscale_nth by (rewrite Lo; [exact Hm|apply coef_length]). ring.
Qed.
End Set_.
End Ring.
