(** Property C89: parts of function spaces, and the spaces of block systems. *)
From Verif Require Import Base Spaces SpacesSpec SpacesProofs.
Open Scope nat_scope.

(** Of the spaces made in any history, one contains another iff both are parts of the same space and the components of the second continue those of the
    first. *)
Theorem C89_contains : forall l spaces i j V W r p r' p',
  history l = Some spaces -> nth_error spaces i = Some V -> nth_error spaces j = Some W -> part_of l i r p -> part_of l j r' p' ->
  (contains V W = true <-> r = r' /\ exists q, p' = p ++ q).
Proof. exact contains_ok. Qed.
Print Assumptions C89_contains.
(** Each space that was made is such a part. *)
Theorem C89_parts : forall l spaces, history l = Some spaces ->
  length spaces = length l /\ forall i, i < length l -> exists V r p, nth_error spaces i = Some V /\ part_of l i r p.
Proof. intros l spaces E. destruct (history_ok l spaces E) as [L H]. split; [exact L|]. intros i Hi. destruct (H i Hi) as (V & A & _ & B). eauto. Qed.
Print Assumptions C89_parts.
Definition case_history : list op := [New; New; Sub 0 [1]; Sub 2 [0; 1]; Sub 0 [1; 0]; Sub 1 [1]].
Example case_spaces : history case_history = Some [mk_space 0 0 []; mk_space 1 1 []; mk_space 2 0 [1]; mk_space 3 0 [1; 0; 1]; mk_space 4 0 [1; 0]; mk_space 5 1 [1]].
Proof. reflexivity. Qed.
Example case_contains : map (contains (mk_space 4 0 [1; 0])) [mk_space 0 0 []; mk_space 1 1 []; mk_space 2 0 [1]; mk_space 3 0 [1; 0; 1]; mk_space 4 0 [1; 0]; mk_space 5 1 [1]] = [false; false; false; true; true; false].
Proof. reflexivity. Qed.
Example case_parts : part_of case_history 3 0 [1; 0; 1] /\ part_of case_history 4 0 [1; 0].
Proof. split; [apply (part_sub case_history 3 2 [0; 1] 0 [1])|apply (part_sub case_history 4 0 [1; 0] 0 [])]; try reflexivity; try lia; [apply (part_sub case_history 2 0 [1] 0 [])|]; try reflexivity; try lia; now apply part_new. Qed.

(** Test spaces of the rows and trial spaces of the columns of a rectangular array of forms are found iff they are those of all forms of the row or column, and each row and each column has a form. *)
Theorem C89_blocks : forall V n m s0 s1, length V = n -> 0 < n -> (forall row, In row V -> length row = m) ->
  (common_function_spaces V = Some (s0, s1) <->
   length s0 = n /\ length s1 = m /\ (forall i j a b, block V i j a b -> nth_error s0 i = Some a /\ nth_error s1 j = Some b) /\
   (forall i, i < n -> exists j a b, block V i j a b) /\ (forall j, j < m -> exists i a b, block V i j a b)).
Proof. exact common_ok. Qed.
Print Assumptions C89_blocks.
Definition case_blocks : list (list (option nat * option nat)) := [[(Some 7, Some 8); (None, None); (Some 7, Some 9)]; [(Some 5, None); (Some 6, Some 4); (None, None)]].
Example case_found : common_function_spaces case_blocks = Some ([7; 6], [8; 4; 9]) /\ common_function_spaces (case_blocks ++ [[(Some 1, Some 9); (None, None); (None, None)]]) = None
  /\ common_function_spaces (case_blocks ++ [[(None, None); (None, None); (None, None)]]) = None.
Proof. repeat split; reflexivity. Qed.
