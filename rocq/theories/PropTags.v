(** Properties C49 and C50: entity maps and mesh tags. *)
From Verif Require Import Base BaseProofs Algo Sort SortSpec SortProofs Tags TagsProofs.
Open Scope nat_scope.

(** C49: forward and inverse translation of an injective entity map are inverse to each
    other; the inverse gives [None] (-1) exactly for entities that are not in the map. *)
Theorem C49_entity_map :
  forall n m em, em_make (Some n) m = Some em -> NoDup m ->
    em = m /\ n = length m /\
    (forall es, Forall (fun i => i < n) es -> exists ps, em_forward em es = Some ps /\ em_inverse em ps = map Some es /\ Forall2 (fun i p => nth_error m i = Some p) es ps) /\
    (forall ps, Forall2 (fun p o => match o with Some i => nth_error m i = Some p /\ em_forward em [i] = Some [p] | None => ~ In p m end) ps (em_inverse em ps)).
Proof. exact em_all. Qed.
Print Assumptions C49_entity_map.
(** C49: a missing index map or a list of the wrong length is rejected. *)
Theorem C49_rejects :
  forall n m, em_make n m = None <-> n <> Some (length m).
Proof.
  intros [n|] m; unfold em_make; cbn [obind]; [|split; [discriminate|reflexivity]]. destruct (Nat.eqb_spec n (length m)) as [->|N]; split; intro H; try easy; try congruence.
Qed.
Print Assumptions C49_rejects.
Example ex_entity_map : em_make (Some 3) [7; 2; 9] = Some [7; 2; 9] /\ em_forward [7; 2; 9] [2; 0; 2] = Some [9; 7; 9] /\ em_inverse [7; 2; 9] [9; 4; 7] = [Some 2; None; Some 0].
Proof. repeat split. Qed.

(** C50: [find] returns exactly the entities with the value, in the order of the tags. *)
Theorem C50_find :
  forall is vs v t, tags_make is vs = Some t -> exists l, tags_find t v = Some l /\
    (forall i, In i l <-> exists k, nth_error is k = Some i /\ nth_error vs k = Some v) /\ (StronglySorted Z.lt is -> StronglySorted Z.lt l).
Proof. exact find_all. Qed.
Print Assumptions C50_find.
(** C50: lists of different lengths are rejected. *)
Theorem C50_rejects : forall is vs, tags_make is vs = None <-> length is <> length vs.
Proof. intros is vs. unfold tags_make. destruct (Nat.eqb_spec (length is) (length vs)); split; intro H; easy. Qed.
Print Assumptions C50_rejects.

(** C50: tags made from lists of vertices: an entity is tagged exactly if its vertices were
    given, in any order, and its value is one given for it; vertices that are not those of
    an entity are ignored. *)
Theorem C50_create_meshtags :
  forall srt, (forall l, Permutation l (srt l) /\ StronglySorted pair_le (srt l)) ->
  forall e2v nv rows values, 0 < nv -> Forall (fun v => length v = nv) e2v ->
    (forall i j vi vj, nth_error e2v i = Some vi -> nth_error e2v j = Some vj -> Permutation vi vj -> i = j) ->
    Forall (fun v => length v = nv) rows -> length rows = length values ->
  exists is vs, create_meshtags srt e2v nv (concat rows) values = Some (is, vs) /\ length is = length vs /\ StronglySorted Z.lt is /\
    (forall e, In (Z.of_nat e) is <-> exists v row, nth_error e2v e = Some v /\ In row rows /\ Permutation row v) /\
    (forall i x, In (i, x) (combine is vs) -> exists e v k row, i = Z.of_nat e /\ nth_error e2v e = Some v /\ nth_error rows k = Some row /\ Permutation row v /\ nth_error values k = Some x).
Proof. exact create_ok. Qed.
Print Assumptions C50_create_meshtags.
(** C50: a wrong number of values, or entities that share their vertices, are rejected. *)
Theorem C50_create_rejects :
  forall srt e2v nv rows values, 0 < nv -> Forall (fun v => length v = nv) e2v -> Forall (fun v => length v = nv) rows ->
    length rows <> length values \/ ~ (forall i j vi vj, nth_error e2v i = Some vi -> nth_error e2v j = Some vj -> Permutation vi vj -> i = j) ->
    create_meshtags srt e2v nv (concat rows) values = None.
Proof. exact create_throws. Qed.
Print Assumptions C50_create_rejects.
Example ex_tags : create_meshtags ins_pairs [[0; 1]; [2; 1]; [0; 3]; [5; 4]] 2 [4; 5; 1; 2; 7; 8; 1; 0] [10; 11; 12; 13]%Z = Some ([0; 1; 3]%Z, [13; 11; 10]%Z) /\
  tags_find ([0; 1; 3]%Z, [13; 11; 13]%Z) 13 = Some [0; 3]%Z.
Proof. split; reflexivity. Qed.
