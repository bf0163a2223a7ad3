(** Model of the relations between function spaces (cpp/dolfinx/fem/FunctionSpace.h:46-173) and of the choice of the spaces of
    block systems (FunctionSpace.h:417-479).

    Simplifications: a space is identified by its address, the id of its root space and the components; meshes, elements and dof maps
    are left out ([extract_sub_element] and [extract_sub_dofmap] are properties C34 and C47).  Ids of root spaces (boost UUIDs) are
    fresh numbers.  Exceptions, failed assertions and accesses outside arrays are [None]. *)
From Verif Require Import Base.
Open Scope nat_scope.

Record space := mk_space { address : nat; root_id : nat; components : list nat }.

(** Operations on the spaces made so far, by number: a new space, or a subspace of one of them *)
Inductive op := New | Sub (i : nat) (c : list nat).
(** FunctionSpace.h:46-96: the id is new ([_root_space_id] is made by [boost::uuids]) *)
Definition new_space (n : nat) : space := mk_space n n [].
(** FunctionSpace.h:111-148 *)
Definition sub (n : nat) (V : space) (c : list nat) : option space :=
  match c with [] => None | _ => Some (mk_space n (root_id V) (components V ++ c)) end.
Definition make (spaces : list space) (o : op) : option (list space) :=
  match o with
  | New => Some (spaces ++ [new_space (length spaces)])
  | Sub i c => V <- nth_error spaces i ;; W <- sub (length spaces) V c ;; Some (spaces ++ [W])
  end.
Definition history (l : list op) : option (list space) := ofold make l [].
(** FunctionSpace.h:153-173 *)
Definition contains (V W : space) : bool :=
  if address V =? address W then true
  else if negb (root_id V =? root_id W) then false
  else if length (components W) <? length (components V) then false
  else if negb (forallb (fun ab => fst ab =? snd ab) (combine (components V) (components W))) then false
  else true.

(** FunctionSpace.h:431-479: spaces are addresses; [None] is a null pointer *)
Definition set_or_check (spaces : list (option nat)) (i v : nat) : option (list (option nat)) :=
  s <- nth_error spaces i ;;
  match s with None => upd spaces i (Some v) | Some u => if u =? v then Some spaces else None end.
Definition no_null (spaces : list (option nat)) : option (list nat) := omap (fun s => s) spaces.
Definition common_function_spaces (V : list (list (option nat * option nat))) : option (list nat * list nat) :=
  match V with
  | [] => None
  | front :: _ =>
    s <- ofold (fun s irow => let '(i, row) := irow in
           ofold (fun s jp => let '(j, (V0, V1)) := jp in
               match V0, V1 with
               | Some v0, Some v1 => s0 <- set_or_check (fst s) i v0 ;; s1 <- set_or_check (snd s) j v1 ;; Some (s0, s1)
               | _, _ => Some s
               end) (combine (seq 0 (length row)) row) s)
         (combine (seq 0 (length V)) V) (repeat None (length V), repeat None (length front)) ;;
    s0 <- no_null (fst s) ;; s1 <- no_null (snd s) ;; Some (s0, s1)
  end.
