(** Histories of timings. *)
From Verif Require Import Base Table TimeLog.
Open Scope nat_scope.

Definition logged (T : Type) (add : T -> T -> T) (history : list (text * T)) : timings T := fold_left (fun l e => register_timing T add l (fst e) (snd e)) history [].
(** The times registered for a task, in order *)
Definition times (T : Type) (history : list (text * T)) (task : text) : list T :=
  map snd (filter (fun e => if list_eq_dec Nat.eq_dec (fst e) task then true else false) history).
Definition registered (T : Type) (history : list (text * T)) (task : text) : Prop := exists x, In (task, x) history.
