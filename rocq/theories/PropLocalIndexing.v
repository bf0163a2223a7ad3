(** Ownership and numbering of entities over all ranks. *)
From Coq Require Import NArith.
From Verif Require Import Base Algo AlgoProofs Nbx World IndexMap IndexMapSpec Orient Entities EntitiesSpec NumberProofs LocalIndexing LocalIndexingSpec LiProofs.
Open Scope nat_scope.

(** Every rank succeeds and the ranks agree on one index map for the entities. *)
Theorem C38_entity_ownership P nbx maps nv inp : nbx_oracle P nbx -> 0 < P -> maps_ok P maps -> li_ok P maps nv inp ->
  exists news em ipe, maps_ok P em /\ li_numbered P maps inp news em ipe /\
    forall r, r < P -> get_local_indexing P nbx maps nv inp r = Some (news r, em r, ipe r).
Proof. intros H1 H2 H3 H4. exact (li_correct P nbx maps nv inp H1 H3 H4 H2). Qed.
Print Assumptions C38_entity_ownership.

(** ** Two triangles 012 and 123, one on each rank, both ranks have a ghost cell *)
Definition ex_maps (r : nat) : imap :=
  match r with 0 => mkIM 0 2 4 [2; 3] [1; 1] [1] [1] | _ => mkIM 2 4 4 [0; 1] [0; 0] [0] [0] end.
Definition ex_inp (r : nat) : li_input :=
  match r with
  | 0 => {| li_list := [[1; 2]; [0; 2]; [0; 1]; [2; 3]; [1; 3]; [1; 2]]; li_index := [2; 1; 0; 4; 3; 2]; li_ghost := [0; 0; 0; 1; 1] |}
  | _ => {| li_list := [[0; 1]; [3; 1]; [3; 0]; [3; 0]; [2; 0]; [2; 3]]; li_index := [0; 3; 2; 2; 1; 4]; li_ghost := [0; 1; 0; 0; 1] |}
  end.

Definition index_check (inp : li_input) : bool :=
  let l := combine (li_list inp) (li_index inp) in
  forallb (fun xa => forallb (fun yb => Bool.eqb (snd xa =? snd yb) (row_eqb (isort Nat.leb (fst xa)) (isort Nat.leb (fst yb)))) l) l.
Lemma index_check_ok inp : index_check inp = true -> forall i j x y a b,
  nth_error (li_list inp) i = Some x -> nth_error (li_list inp) j = Some y ->
  nth_error (li_index inp) i = Some a -> nth_error (li_index inp) j = Some b -> (a = b <-> Permutation x y).
Proof.
  intros H i j x y a b Hx Hy Ha Hb. unfold index_check in H.
  assert (G : forall (l : list (list nat)) (m : list nat) k u v, nth_error l k = Some u -> nth_error m k = Some v -> In (u, v) (combine l m)).
  { clear. induction l as [|p l IH]; intros [|q m] [|k] u v E1 E2; cbn in *; try discriminate; [left; congruence|right; eauto]. }
  pose proof (G _ _ _ _ _ Hx Ha) as I1. pose proof (G _ _ _ _ _ Hy Hb) as I2. rewrite forallb_forall in H. specialize (H _ I1). rewrite forallb_forall in H. specialize (H _ I2). cbn [fst snd] in H.
  apply Bool.eqb_prop in H. rewrite <- Nat.eqb_eq, H, row_eqb_iff. split.
  - intros E. etransitivity; [apply isort_perm|]. rewrite E. symmetry. apply isort_perm.
  - apply nsort_perm_eq.
Qed.

Example ex_maps_ok : maps_ok 2 ex_maps.
Proof.
  constructor.
  - reflexivity.
  - intros [|r] H; [reflexivity|lia].
  - intros [|[|r]] H; cbn; lia.
  - intros [|[|r]] H; reflexivity.
  - intros [|[|r]] H; [| |lia]; cbn; repeat first [apply NoDup_nil | apply NoDup_cons; [cbn; lia|]].
  - intros [|[|r]] [|[|k]] g o H Hg Ho; cbn in Hg, Ho; try (destruct k; discriminate); try lia; injection Hg as <-; injection Ho as <-; unfold owns; cbn; lia.
  - intros [|[|r]] H; [| |lia]; cbn; (split; [repeat constructor|]; intros s; tauto).
  - intros [|[|r]] H; [| |lia]; cbn; (split; [repeat constructor|]; intros s; split; [intros [<-|[]]; cbn; lia|intros [Hs Hin]; destruct s as [|[|s]]; cbn in Hin; lia]).
Qed.
Example C38_example : nbx_oracle 2 (senders 2) /\ maps_ok 2 ex_maps /\ li_ok 2 ex_maps 2 ex_inp.
Proof.
  split; [intros d r _; reflexivity|]. split; [exact ex_maps_ok|]. constructor.
  - lia.
  - intros [|[|r]] H; [reflexivity|reflexivity|lia].
  - intros [|[|r]] row H Hin; [| |lia]; cbn in Hin; repeat destruct Hin as [<-|Hin]; try contradiction; (split; [reflexivity|]); cbn; intros v Hv; lia.
  - intros [|[|r]] i j x y a b H; [apply (index_check_ok (ex_inp 0)); reflexivity|apply (index_check_ok (ex_inp 1)); reflexivity|lia].
  - intros [|[|r]] n H; [| |lia]; cbn; lia.
  - intros [|[|r]] s H Hin; [| |lia]; cbn in Hin; lia.
  - intros r i id e Hr (row & g & E1 & E2 & E3 & E4) Hi Hg. assert (e = isort Nat.leb g) as -> by (symmetry; now apply nsort_unique).
    destruct r as [|[|r]]; [exists 1|exists 0|lia]; (split; [lia|]);
    destruct i as [|[|[|[|[|[|i]]]]]]; cbn in Hi; try (destruct i; discriminate); injection Hi as <-; cbn in Hg; try discriminate; cbn in E1; injection E1 as <-; cbn in E2; injection E2 as <-.
    + exists 0, 0. split; [|split; reflexivity]. exists [0; 1], [2; 3]. split; [reflexivity|]. split; [reflexivity|]. split; [reflexivity|repeat constructor].
    + exists 1, 3. split; [|split; reflexivity]. exists [3; 1], [1; 3]. split; [reflexivity|]. split; [reflexivity|]. split; [reflexivity|repeat constructor].
    + exists 1, 1. split; [|split; reflexivity]. exists [0; 2], [0; 2]. split; [reflexivity|]. split; [reflexivity|]. split; [reflexivity|repeat constructor].
    + exists 2, 0. split; [|split; reflexivity]. exists [0; 1], [0; 1]. split; [reflexivity|]. split; [reflexivity|]. split; [reflexivity|repeat constructor].
  - intros [|[|r]] [|[|[|[|v]]]] g H Hg; cbn in Hg; try (destruct v; discriminate); try lia; injection Hg as <-; lia.
  - intros [|[|r]] H; [| |lia]; cbn; lia.
Qed.
(** Edge 12 (number 2 on both ranks) is owned by rank 0 and is a ghost with number 3 on
    rank 1. *)
Example C38_numbering : map (numbering 2 (senders 2) ex_maps 2 ex_inp) (seq 0 2) = [Some ([0; 1; 2; 3; 4], 3, [2]); Some ([0; 2; 3; 1; 4], 2, [3])].
Proof. vm_compute. reflexivity. Qed.
