(** C35: numbering of mesh entities on one rank. *)
From Coq Require Import NArith.
From Verif Require Import Base Algo AlgoProofs CellTypes Orient OrientSpec Entities EntitiesSpec EntitiesProofs NumberProofs.
Open Scope nat_scope.

(** C35: the numbering succeeds; two occurrences of entities have the same number exactly if
    they have the same vertices, the numbers are 0 to [count - 1], the stored vertex lists
    are those of the entities, and the ghost status is 0 exactly for entities of owned
    cells. *)
Theorem C35_entity_numbering : forall l2g etype dim lists,
  (etype = Interval /\ dim = 1) \/ (etype = Triangle /\ dim = 2) \/ (etype = Quadrilateral /\ dim = 2) ->
  Forall (lists_ok l2g dim) lists -> (N.of_nat (length (instances etype dim lists)) < 2 ^ 32)%N ->
  forall threads sched tsort, 0 < threads -> (forall l, Permutation (sched l) l) -> sorts_rows tsort ->
  exists elists ents offsets index count st, local_entities l2g etype dim lists threads sched tsort = Some (elists, ents, offsets, index, count, st) /\
    length elists = length (instances etype dim lists) /\ length index = length (instances etype dim lists) /\ length st = count /\
    (forall i v o el, nth_error (instances etype dim lists) i = Some (v, o) -> nth_error elists i = Some el -> Permutation v el) /\
    (forall i j v w o o' n m, nth_error (instances etype dim lists) i = Some (v, o) -> nth_error (instances etype dim lists) j = Some (w, o') ->
       nth_error index i = Some n -> nth_error index j = Some m -> (n = m <-> Permutation v w)) /\
    (forall n, n < count <-> In n index) /\
    (forall n, n < count -> exists s, nth_error st n = Some s /\ s <= 1 /\
       (s = 0 <-> exists i v, nth_error (instances etype dim lists) i = Some (v, true) /\ nth_error index i = Some n)).
Proof. exact entities_spec. Qed.
Print Assumptions C35_entity_numbering.

(** C35: the result does not depend on the number of threads, the interleaving of their
    cells, or the order in which the parallel sort leaves equal rows. *)
Theorem C35_thread_independent : forall l2g etype dim lists,
  (etype = Interval /\ dim = 1) \/ (etype = Triangle /\ dim = 2) \/ (etype = Quadrilateral /\ dim = 2) ->
  Forall (lists_ok l2g dim) lists -> (N.of_nat (length (instances etype dim lists)) < 2 ^ 32)%N ->
  forall threads sched tsort threads' sched' tsort',
  0 < threads -> (forall l, Permutation (sched l) l) -> sorts_rows tsort ->
  0 < threads' -> (forall l, Permutation (sched' l) l) -> sorts_rows tsort' ->
  local_entities l2g etype dim lists threads sched tsort = local_entities l2g etype dim lists threads' sched' tsort'.
Proof. exact entities_threads. Qed.
Print Assumptions C35_thread_independent.

(** A sort of the rows *)
Fixpoint row_leb (a b : list nat) : bool :=
  match a, b with
  | [], _ => true
  | _ :: _, [] => false
  | x :: a, y :: b => (x <? y) || (x =? y) && row_leb a b
  end.
Definition ex_tsort (keys : list (list nat)) : list nat :=
  isort (fun i j => row_leb (nth i keys []) (nth j keys [])) (seq 0 (length keys)).

Lemma row_leb_iff a b : row_leb a b = true <-> row_le a b.
Proof.
  revert b. induction a as [|x a IH]; intros [|y b]; cbn [row_leb row_le]; try (split; [discriminate|tauto]); try tauto.
  rewrite orb_true_iff, andb_true_iff, Nat.ltb_lt, Nat.eqb_eq, IH. tauto.
Qed.
Lemma row_le_trans a b c : row_le a b -> row_le b c -> row_le a c.
Proof.
  revert b c. induction a as [|x a IH]; intros [|y b] [|z c]; cbn; try tauto. intros [H1|[-> H1]] [H2|[-> H2]]; [left; lia|left; lia|left; lia|right].
  split; [reflexivity|]. eauto.
Qed.
Lemma ex_tsort_ok : sorts_rows ex_tsort.
Proof.
  intros keys. split; [apply isort_perm|]. unfold ex_tsort.
  generalize (seq 0 (length keys)) as l. induction l as [|x l IH]; [constructor|]. cbn [isort].
  set (f := fun i j => row_leb (nth i keys []) (nth j keys [])) in *.
  assert (forall y s, StronglySorted (fun i j => row_le (nth i keys []) (nth j keys [])) s -> StronglySorted (fun i j => row_le (nth i keys []) (nth j keys [])) (insert f y s)) as H; [|now apply H].
  intros y s Hs. induction Hs as [|z s Hs IHs Hz]; [repeat constructor|]. cbn [insert]. destruct (f y z) eqn:E.
  - apply row_leb_iff in E. constructor; [constructor; auto|]. constructor; [exact E|]. eapply Forall_impl; [|exact Hz]. intros w Hw. eapply row_le_trans; eauto.
  - constructor; [exact IHs|]. assert (row_le (nth z keys []) (nth y keys [])) as Hle.
    { unfold f in E. clear -E. revert E. generalize (nth z keys []) as b. induction (nth y keys []) as [|p a IH]; intros [|q b]; cbn [row_leb row_le]; try discriminate; auto.
      intros E. apply orb_false_iff in E as [E1 E2]. apply Nat.ltb_ge in E1. destruct (Nat.eqb_spec p q) as [->|N]; [right; split; auto|left; lia]. }
    assert (Permutation (y :: s) (insert f y s)) as Hp by apply insert_perm.
    apply Forall_forall. intros w Hw. rewrite <- Hp in Hw. destruct Hw as [<-|Hw]; [exact Hle|]. rewrite Forall_forall in Hz. now apply Hz.
Qed.

(** A prism and two tetrahedra on top of each other, the second tetrahedron a ghost *)
Definition ex_lists : list cell_list :=
  [ {| cl_type := Prism; cl_cells := [[0; 1; 2; 3; 4; 5]]; cl_owned := 1 |};
    {| cl_type := Tetrahedron; cl_cells := [[6; 4; 3; 5]; [7; 5; 6; 4]]; cl_owned := 1 |} ].
Definition ex_l2g (v : nat) : option Z := nth_error [10; 7; 3; 8; 2; 9; 0; 5]%Z v.

Example C35_example :
  Forall (lists_ok ex_l2g 2) ex_lists /\
  local_entities ex_l2g Triangle 2 ex_lists 1 (fun l => l) ex_tsort =
    Some ([[2; 1; 0]; [4; 3; 5]; [4; 3; 5]; [6; 3; 5]; [6; 4; 5]; [6; 4; 3]; [6; 4; 5]; [6; 4; 7]; [4; 7; 5]; [6; 7; 5]],
          [[0; 4]; [0; 1; 2; 3]], [0; 2; 10], [0; 1; 1; 3; 4; 2; 4; 6; 5; 7], 8, [0; 0; 0; 0; 0; 1; 1; 1]) /\
  local_entities ex_l2g Triangle 2 ex_lists 1 (fun l => l) ex_tsort = local_entities ex_l2g Triangle 2 ex_lists 2 (@rev nat) ex_tsort.
Proof.
  split; [|split; vm_compute; reflexivity].
  repeat constructor; cbn; try lia; eexists; (split; [reflexivity|]); repeat first [apply NoDup_nil | apply NoDup_cons; [cbn; lia|]].
Qed.
