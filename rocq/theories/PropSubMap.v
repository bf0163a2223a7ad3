(** Properties C14, C15, C16. *)
From Verif Require Import Base World Nbx IndexMap IndexMapSpec SubMap SubMapSpec OwnedProofs SubMapProofs StackProofs PropIndexMap.

(** C14.  [indices r] are the (sorted) local indices marked on rank [r]. *)
Theorem C14_compute_owned_indices :
  forall P maps indices, maps_ok P maps ->
    (forall r, r < P -> StronglySorted le (indices r) /\
       forall i, In i (indices r) -> i < size_local (maps r) + num_ghosts (maps r)) ->
    forall r, r < P -> exists l,
      compute_owned_indices P maps indices r = Some l /\ StronglySorted lt l /\
      forall i, In i l <->
        i < size_local (maps r) /\
        (In i (indices r) \/
         exists q k, q < P /\ nth_error (im_ghosts (maps q)) k = Some (im_lo (maps r) + i) /\
                     In (size_local (maps q) + k) (indices q)).
Proof. exact owned_indices_ok. Qed.
Print Assumptions C14_compute_owned_indices.

(** C15.  [new_owner] (SubMapSpec.v) is unique; the result is a consistent set of index
    maps; [s2p r] lists the marked indices in the order of the sub map; two entries of
    the sub maps have the same global number exactly when they were the same global index. *)
Theorem C15_create_sub_index_map :
  forall P maps indices preserve allow, maps_ok P maps ->
    (forall r, r < P -> StronglySorted lt (indices r) /\
       forall i, In i (indices r) -> i < size_local (maps r) + num_ghosts (maps r)) ->
    (allow = true \/
     forall r q g, r < P -> q < P -> owns (maps r) g -> marks maps indices q g -> marks maps indices r g) ->
    exists subs s2p,
      maps_ok P subs /\
      (forall r, r < P -> create_sub_index_map P maps indices preserve allow r = Some (subs r, s2p r)) /\
      (forall r, r < P ->
         Permutation (s2p r) (indices r) /\
         length (s2p r) = size_local (subs r) + num_ghosts (subs r) /\
         StronglySorted lt (firstn (size_local (subs r)) (s2p r)) /\
         (preserve = true -> StronglySorted lt (skipn (size_local (subs r)) (s2p r)))) /\
      (forall r j i g, r < P -> nth_error (s2p r) j = Some i -> local_to_global (maps r) i = Some g ->
         exists o, new_owner P maps indices g o /\ (forall o', new_owner P maps indices g o' -> o' = o) /\
           (j < size_local (subs r) <-> o = r) /\
           (forall k, j = size_local (subs r) + k -> nth_error (im_owners (subs r)) k = Some o)) /\
      (forall r r' j j' i i' g g' n n', r < P -> r' < P ->
         nth_error (s2p r) j = Some i -> local_to_global (maps r) i = Some g -> local_to_global (subs r) j = Some n ->
         nth_error (s2p r') j' = Some i' -> local_to_global (maps r') i' = Some g' -> local_to_global (subs r') j' = Some n' ->
         (n = n' <-> g = g')).
Proof. exact sub_map_ok. Qed.
Print Assumptions C15_create_sub_index_map.

(** Without [allow_owner_change] the call fails when an owner does not mark an index that
    another rank marks. *)
Theorem C15_owner_change_refused :
  forall P maps indices preserve r q g r', maps_ok P maps ->
    (forall r, r < P -> StronglySorted lt (indices r) /\
       forall i, In i (indices r) -> i < size_local (maps r) + num_ghosts (maps r)) ->
    r < P -> q < P -> owns (maps r) g -> marks maps indices q g -> ~ marks maps indices r g ->
    create_sub_index_map P maps indices preserve false r' = None.
Proof. exact sub_map_refused. Qed.
Print Assumptions C15_owner_change_refused.

(** C16.  [stacked] and [stack_local] are in SubMapSpec.v. *)
Theorem C16_stack_index_maps :
  forall P Ms, (forall mb, In mb Ms -> maps_ok P (fst mb)) -> forall r, Ms <> [] -> r < P ->
    exists loff gs os,
      stack_index_maps P Ms r = Some (lsum (map (stack_local Ms) (seq 0 r)), loff, gs, os) /\
      length loff = S (length Ms) /\
      (forall m, m <= length Ms -> nth_error loff m = Some (stack_local (firstn m Ms) r)) /\
      length gs = length Ms /\ length os = length Ms /\
      forall m maps bs, nth_error Ms m = Some (maps, bs) ->
        exists gm om, nth_error gs m = Some gm /\ nth_error os m = Some om /\
          length gm = bs * num_ghosts (maps r) /\ length om = bs * num_ghosts (maps r) /\
          forall k g o c, nth_error (im_ghosts (maps r)) k = Some g -> nth_error (im_owners (maps r)) k = Some o ->
            c < bs ->
            nth_error gm (bs * k + c) = Some (stacked Ms o m g c) /\ nth_error om (bs * k + c) = Some o.
Proof. exact stack_ok. Qed.
Print Assumptions C16_stack_index_maps.

Theorem C16_numbers_distinct :
  forall P Ms o m g c o' m' g' c', stack_entry P Ms o m g c -> stack_entry P Ms o' m' g' c' ->
    stacked Ms o m g c = stacked Ms o' m' g' c' -> m = m' /\ g = g' /\ c = c' /\ o = o'.
Proof. exact stacked_inj. Qed.
Print Assumptions C16_numbers_distinct.

Theorem C16_numbers_bounded :
  forall P Ms o m g c, stack_entry P Ms o m g c -> stacked Ms o m g c < lsum (map (stack_local Ms) (seq 0 P)).
Proof. exact stacked_lt. Qed.
Print Assumptions C16_numbers_bounded.

Theorem C16_numbers_onto :
  forall P Ms x, x < lsum (map (stack_local Ms) (seq 0 P)) ->
    exists o m g c, stack_entry P Ms o m g c /\ x = stacked Ms o m g c.
Proof. exact stacked_onto. Qed.
Print Assumptions C16_numbers_onto.

(** Examples on the world of PropIndexMap.v.  Rank 0 owns 0, 1, 2; rank 2 owns 3, 4. *)
Example ex_maps_ok : maps_ok 3 ex_maps.
Proof.
  destruct (C12_constructor 3 (senders 3) ex_size ex_ghosts ex_owners) as (m & Hm & E).
  - intros d r _. reflexivity.
  - lia.
  - exact ex_inputs.
  - assert (G : forall r, r < 3 -> m r = ex_maps r) by (intros r Hr; unfold ex_maps; destruct (E r Hr) as (-> & _); reflexivity).
    destruct Hm as [h1 h2 h3 h4 h5 h6 h7 h8]. constructor.
    + rewrite <- G; [exact h1|lia].
    + intros r Hr. rewrite <- !G by lia. auto.
    + intros r Hr. rewrite <- !G by lia. auto.
    + intros r Hr. rewrite <- !G by lia. auto.
    + intros r Hr. rewrite <- !G by lia. auto.
    + intros r k g o Hr. rewrite <- (G r) by lia. intros Hg Ho. destruct (h6 r k g o Hr Hg Ho) as (A & B & C). rewrite <- G by exact A. auto.
    + intros r Hr. rewrite <- !G by lia. auto.
    + intros r Hr. rewrite <- !G by lia. destruct (h8 r Hr) as (A & B). split; [exact A|]. intro s. rewrite B.
      split; intros (H1 & H2); (split; [exact H1|]); [rewrite <- G|rewrite G]; auto.
Qed.

(** Global indices 0 (marked by its owner and rank 1), 2 (marked by ranks 1 and 2 only),
    4 (marked by rank 0 only). *)
Definition ex_marked (r : nat) : list nat := match r with 0 => [0; 3] | 1 => [1; 2] | 2 => [2] | _ => [] end.
Example ex_marked_ok : forall r, r < 3 -> StronglySorted lt (ex_marked r) /\
  forall i, In i (ex_marked r) -> i < size_local (ex_maps r) + num_ghosts (ex_maps r).
Proof.
  intros [|[|[|r]]] Hr; [| | |lia]; (split; [repeat constructor|]); intros i Hi; vm_compute in Hi |- *; intuition lia.
Qed.
Example ex_owned : map (compute_owned_indices 3 ex_maps ex_marked) (seq 0 3) = [Some [0; 2]; Some []; Some [1]].
Proof. reflexivity. Qed.
(** Rank 0 owns old 0 and takes over old 4; rank 1 takes over old 2. *)
Example ex_sub : map (create_sub_index_map 3 ex_maps ex_marked true true) (seq 0 3)
  = [Some (mkIM 0 2 3 [] [] [] [1], [0; 3]); Some (mkIM 2 3 3 [0] [0] [0] [2], [2; 1]); Some (mkIM 3 3 3 [2] [1] [1] [], [2])].
Proof. reflexivity. Qed.
Example ex_sub_refused : map (create_sub_index_map 3 ex_maps ex_marked true false) (seq 0 3) = [None; None; None].
Proof. reflexivity. Qed.

Example ex_stack_hyp : forall mb, In mb [(ex_maps, 2); (imap_plain 3 (fun r => r), 3)] -> maps_ok 3 (fst mb).
Proof. intros mb [<-|[<-|[]]]; [exact ex_maps_ok|]. apply C12_constructor_no_ghosts. lia. Qed.
Example ex_stack : map (stack_index_maps 3 [(ex_maps, 2); (imap_plain 3 (fun r => r), 3)]) (seq 0 3)
  = [Some (0, [0;6;6], [[11;12];[]], [[2;2];[]]); Some (6, [0;0;3], [[11;12;0;1;4;5];[]], [[2;2;0;0;0;0];[]]);
     Some (9, [0;4;10], [[4;5];[]], [[0;0];[]])].
Proof. reflexivity. Qed.
