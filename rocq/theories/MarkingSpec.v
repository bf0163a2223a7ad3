(** What the marking of edges has to satisfy. *)
From Verif Require Import Base IndexMap IndexMapSpec LocateSpec.
Open Scope nat_scope.

(** The number of edges of a rank, owned and ghosts *)
Definition edge_count (m : imap) : nat := im_hi m - im_lo m + length (im_ghosts m).

(** Every face has a longest edge; the edges exist. *)
Record faces_ok (m : imap) (f2e : list (list nat)) (long : list nat) : Prop := {
  fa_long : length long = length f2e;
  fa_edges : forall es e, In es f2e -> In e es -> e < edge_count m;
  fa_longs : forall e, In e long -> e < edge_count m
}.

(** Edge [e] of rank [r] is chosen by the user: all edges if there is no list. *)
Definition chosen (maps : nat -> imap) (edges : option (nat -> list nat)) (r e : nat) : Prop :=
  match edges with None => e < edge_count (maps r) | Some es => In e (es r) end.

(** A set of local edges of every rank is closed: if an edge of a face is in the set, so is
    the longest edge of the face. *)
Definition closed (P : nat) (f2e : nat -> list (list nat)) (long : nat -> list nat) (M : nat -> nat -> Prop) : Prop :=
  forall r f es l e, r < P -> nth_error (f2e r) f = Some es -> nth_error (long r) f = Some l ->
    In e es -> M r e -> M r l.
(** All ranks that have an edge agree on it. *)
Definition agreed (P : nat) (maps : nat -> imap) (M : nat -> nat -> Prop) : Prop :=
  forall r q e e' g, r < P -> q < P -> at_global (maps r) e g -> at_global (maps q) e' g -> M r e -> M q e'.
(** The edges marked in the arrays of all ranks *)
Definition marked (W : list (list bool)) (r e : nat) : Prop :=
  exists m, nth_error W r = Some m /\ nth_error m e = Some true.
