(** Renumbering with the default reordering function. *)
From Coq Require Import ZArith.
From Verif Require Import Base BaseProofs AlgoProofs Ordering OrderingProofs DofBuilder RenumSpec DofRenum.
Open Scope nat_scope.

(** graph/ordering.cpp:149- as the argument [reorder_fn] (fem/DofMap.cpp:217-218) *)
Definition rcm (srt : list nat -> list nat) (g : list (list nat)) : list nat :=
  match reorder_rcm srt g with Some l => map (fun x => match x with Some v => v | None => 0 end) l | None => [] end.

Lemma rcm_wf srt n : (forall l, Permutation l (srt l)) -> (Z.of_nat n < 2147483647)%Z -> reorder_wf (rcm srt) n.
Proof.
  intros Hs Hn g (Sy & So) Lg. destruct (reorder_ok g Sy srt Hs) as (p & E & Pp).
  - intros i. unfold degree. destruct (nth_error g i) as [row|] eqn:Er.
    + rewrite (nth_error_nth _ _ [] Er). assert (L : length row <= n); [|lia]. rewrite <- (seq_length n 0). apply NoDup_incl_length.
      * apply SS_lt_NoDup, So. eapply nth_error_In; eauto.
      * intros j Hj. destruct (Sy i row j Er Hj) as (lj & Ej & _). apply in_seq. pose proof (nth_error_bound _ _ _ Ej). lia.
    + rewrite nth_overflow by (now apply nth_error_None). cbn. lia.
  - unfold rcm. rewrite E, map_map, map_id, <- Lg. exact Pp.
Qed.
Lemma rcm_renumbering sizes de dofmaps owned srt : renum_input sizes de dofmaps ->
  owned_size sizes de = Some owned -> (forall l, Permutation l (srt l)) -> (Z.of_nat owned < 2147483647)%Z ->
  exists o2n, reordering_map sizes de dofmaps (Some (rcm srt)) = Some (o2n, owned) /\ renum_ok sizes de o2n owned.
Proof.
  intros Hin Ho Hs Hb. rewrite (owned_size_ok sizes de dofmaps Hin) in Ho. injection Ho as <-. apply (reordering_ok sizes de dofmaps Hin). intros f [= <-]. now apply rcm_wf.
Qed.
