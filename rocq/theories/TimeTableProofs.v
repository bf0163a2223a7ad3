(** Proofs about the entries of the table of timings. *)
From Verif Require Import Base BaseProofs Table TableSpec TableProofs TimeLog TimeLogSpec TimeLogProofs.
Open Scope nat_scope.

Section Values.
Variables (T : Type) (add mul rmin rmax : T -> T -> T) (inverse : nat -> T) (divide : T -> Z -> T).

Lemma register_in (l : timings T) task time n : In n (map fst (register_timing T add l task time)) -> n = task \/ In n (map fst l).
Proof.
  induction l as [|(m, (k, total)) l IH]; cbn; intro H; [destruct H as [H|[]]; left; now symmetry|]. destruct (text_eqb_spec m task) as [->|N]; cbn in H; [right; exact H|].
  destruct H as [H|H]; [right; now left|]. destruct (IH H) as [E|E]; [now left|right; now right].
Qed.
Lemma register_nodup (l : timings T) task time : NoDup (map fst l) -> NoDup (map fst (register_timing T add l task time)).
Proof.
  induction l as [|(m, (k, total)) l IH]; cbn; intro H; [apply NoDup_cons; [exact (fun x => x)|apply NoDup_nil]|]. inversion H as [|? ? Hn Hl]; subst.
  destruct (text_eqb_spec m task) as [->|N]; cbn; [exact H|]. constructor; [|now apply IH]. intro E. destruct (register_in _ _ _ _ E) as [E'|E']; [exact (N E')|exact (Hn E')].
Qed.
Lemma logged_nodup h : NoDup (map fst (logged T add h)).
Proof. induction h as [|(task, time) h IH] using rev_ind; [constructor|]. rewrite logged_app. cbn [fold_left fst snd]. now apply register_nodup. Qed.

Definition cell (e : option (Z * T)) (col : text) : option (value T) :=
  match e with
  | None => None
  | Some (k, total) =>
    if list_eq_dec Nat.eq_dec col reps then Some (VInt T k)
    else if list_eq_dec Nat.eq_dec col avg then Some (VDouble T (divide total k))
    else if list_eq_dec Nat.eq_dec col tot then Some (VDouble T total) else None
  end.
Lemma find_app (l l' : timings T) n : find_task T (l ++ l') n = match find_task T l n with Some e => Some e | None => find_task T l' n end.
Proof. induction l as [|(m, e) l IH]; cbn; [reflexivity|]. now destruct (text_eqb m n). Qed.
Lemma find_none (l : timings T) n : ~ In n (map fst l) -> find_task T l n = None.
Proof. induction l as [|(m, e) l IH]; cbn; intro H; [reflexivity|]. destruct (text_eqb_spec m n) as [->|]; [exfalso; apply H; now left|]. apply IH. tauto. Qed.

Lemma table_entries (l : timings T) : NoDup (map fst l) -> forall row col, table_get T (timing_table T divide l) row col = cell (find_task T l row) col.
Proof.
  induction l as [|(n, (k, total)) l IH] using rev_ind; intros Hn row col; [reflexivity|].
  rewrite map_app in Hn. cbn [map fst] in Hn. apply NoDup_remove in Hn as (Hl & Hnot). rewrite app_nil_r in Hl, Hnot. specialize (IH Hl row col).
  assert (Et : timing_table T divide (l ++ [(n, (k, total))]) = table_set T (table_set T (table_set T (timing_table T divide l) n reps (VInt T k)) n avg (VDouble T (divide total k))) n tot (VDouble T total)) by (unfold timing_table; rewrite fold_left_app; reflexivity).
  rewrite Et, find_app. cbn [find_task]. unfold table_get, table_set in *. rewrite !lookup_assign.
  destruct (list_eq_dec Nat.eq_dec n row) as [->|N].
  - rewrite (find_none l row Hnot) in *. cbn [cell] in IH. destruct (text_eqb_spec row row) as [_|]; [|contradiction]. cbn [cell].
    assert (K : forall c, key_eqb (row, c) (row, col) = if list_eq_dec Nat.eq_dec col c then true else false).
    { intro c. destruct (key_eqb_spec (row, c) (row, col)) as [E|E], (list_eq_dec Nat.eq_dec col c); congruence. }
    rewrite !K. destruct (list_eq_dec Nat.eq_dec col reps) as [->|]; [reflexivity|]. destruct (list_eq_dec Nat.eq_dec col avg) as [->|]; [reflexivity|].
    destruct (list_eq_dec Nat.eq_dec col tot); [reflexivity|exact IH].
  - assert (Hk : forall c, key_eqb (n, c) (row, col) = false) by (intros c; destruct (key_eqb_spec (n, c) (row, col)); [congruence|reflexivity]). rewrite !Hk, IH.
    destruct (text_eqb_spec n row); [contradiction|]. now destruct (find_task T l row).
Qed.

Lemma row_ok h task : let t := timing_table T divide (logged T add h) in
  match times T h task with
  | [] => forall col, table_get T t task col = None
  | x :: l => let n := Z.of_nat (length (x :: l)) in let sum := fold_left add l x in
    table_get T t task reps = Some (VInt T n) /\ table_get T t task avg = Some (VDouble T (divide sum n)) /\ table_get T t task tot = Some (VDouble T sum) /\
    forall col, col <> reps -> col <> avg -> col <> tot -> table_get T t task col = None
  end.
Proof.
  cbn zeta. pose proof (table_entries (logged T add h) (logged_nodup h) task) as E. rewrite (timing_ok T add h task) in E.
  destruct (times T h task) as [|x l]; [exact E|]. rewrite !E. split; [reflexivity|]. split; [reflexivity|]. split; [reflexivity|].
  intros col H1 H2 H3. rewrite E. cbn [cell]. destruct (list_eq_dec Nat.eq_dec col reps); [contradiction|]. destruct (list_eq_dec Nat.eq_dec col avg); [contradiction|]. now destruct (list_eq_dec Nat.eq_dec col tot).
Qed.

Lemma single_ok r h : exists cells, list_timings T add mul rmin rmax inverse divide r [logged T add h] 0 = Some cells.
Proof.
  unfold list_timings, table_reduce. cbn [map nth_error obind length Nat.eqb]. apply cells_ok.
  pose proof (table_entries (logged T add h) (logged_nodup h)) as E. intros row col row' col'. rewrite !E. destruct (find_task T (logged T add h) row) as [(k, total)|]; [|intro H; contradiction].
  intros _. destruct (find_task T (logged T add h) row') as [(k', total')|]; [|intro H; contradiction]. cbn [cell].
  destruct (list_eq_dec Nat.eq_dec col reps); [discriminate|]. destruct (list_eq_dec Nat.eq_dec col avg); [discriminate|]. now destruct (list_eq_dec Nat.eq_dec col tot).
Qed.
End Values.
