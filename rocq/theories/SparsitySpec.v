(** What a sparsity pattern must contain. *)
From Verif Require Import Base IndexMap IndexMapSpec Sparsity.

(** Entry (row [G], column [g]), both global, was inserted on rank [q]. *)
Definition inserted_on (maps0 maps1 : nat -> imap) (patterns : nat -> pattern) (q G g : nat) : Prop :=
  exists i c, In (i, c) (pt_cache (patterns q)) /\
    local_to_global (maps0 q) i = Some G /\ local_to_global (maps1 q) c = Some g.

(** Nothing finalised yet and every inserted entry is a row and a column of the rank. *)
Definition patterns_ok (P : nat) (maps0 maps1 : nat -> imap) (patterns : nat -> pattern) : Prop :=
  forall q, q < P -> pt_final (patterns q) = None /\
    forall i c, In (i, c) (pt_cache (patterns q)) ->
      i < size_local (maps0 q) + num_ghosts (maps0 q) /\
      c < size_local (maps1 q) + num_ghosts (maps1 q).

(** Entry (i, c), both local, is inserted by a call. *)
Definition inserts (op : sp_op) (i c : nat) : Prop :=
  match op with
  | InsertEntry row col => i = row /\ c = col
  | InsertBlock rows cols => In i rows /\ In c cols
  | InsertDiagonal rows => In i rows /\ c = i
  end.

(** The rows of a finalised pattern [f] of rank [r] with column map [m1']: sorted,
    without repetition; an owned row has exactly the columns inserted for it on any rank,
    a ghost row those inserted here; the off-diagonal offset [d] splits the row in owned
    and ghost columns; every column inserted for an owned row is a column of the rank. *)
Definition spat_ok (maps0 maps1 : nat -> imap) (patterns : nat -> pattern) (P r : nat) (m1' : imap) (f : spat) : Prop :=
  (forall i, i < size_local (maps0 r) + num_ghosts (maps0 r) -> exists row d,
     slice_at (sp_edges f) (sp_offsets f) i = Some row /\ StronglySorted lt row /\
     (forall c, In c row <->
        if i <? size_local (maps0 r) then
          exists g q, local_to_global m1' c = Some g /\ q < P /\
                      inserted_on maps0 maps1 patterns q (im_lo (maps0 r) + i) g
        else In (i, c) (pt_cache (patterns r))) /\
     nth_error (sp_offdiag f) i = Some d /\ d <= length row /\
     (forall k c, nth_error row k = Some c -> (k < d <-> c < size_local m1'))) /\
  (forall i g q, i < size_local (maps0 r) -> q < P -> inserted_on maps0 maps1 patterns q (im_lo (maps0 r) + i) g ->
     exists c, local_to_global m1' c = Some g).

