(** What the caller of [get_local_indexing] provides and what the numbering promises. *)
From Verif Require Import Base IndexMap IndexMapSpec LocalIndexing.

(** The entity at position [i] of the list of a rank: its global vertices in ascending
    order. *)
Definition ent (m : imap) (inp : li_input) (i : nat) (e : list nat) : Prop :=
  exists row g, nth_error (li_list inp) i = Some row /\ omap (local_to_global m) row = Some g /\
    Permutation g e /\ StronglySorted le e.
(** Some cell that this rank owns has the entity. *)
Definition in_owned_cell (m : imap) (inp : li_input) (e : list nat) : Prop :=
  exists i id, ent m inp i e /\ nth_error (li_index inp) i = Some id /\ nth_error (li_ghost inp) id = Some 0.

Record li_ok (P : nat) (maps : nat -> imap) (nv : nat) (inp : nat -> li_input) : Prop := {
  lk_nv : 0 < nv;
  lk_len : forall r, r < P -> length (li_index (inp r)) = length (li_list (inp r));
  lk_rows : forall r row, r < P -> In row (li_list (inp r)) ->
    length row = nv /\ forall v, In v row -> v < size_local (maps r) + num_ghosts (maps r);
  (* entity numbers are those of the sets of vertices *)
  lk_index : forall r i j x y a b, r < P ->
    nth_error (li_list (inp r)) i = Some x -> nth_error (li_list (inp r)) j = Some y ->
    nth_error (li_index (inp r)) i = Some a -> nth_error (li_index (inp r)) j = Some b ->
    (a = b <-> Permutation x y);
  lk_count : forall r n, r < P -> (n < length (li_ghost (inp r)) <-> In n (li_index (inp r)));
  lk_status : forall r s, r < P -> In s (li_ghost (inp r)) -> s <= 1;
  (* a ghost cell is owned by some rank *)
  lk_ghost : forall r i id e, r < P -> ent (maps r) (inp r) i e ->
    nth_error (li_index (inp r)) i = Some id -> nth_error (li_ghost (inp r)) id = Some 1 ->
    exists s, s < P /\ in_owned_cell (maps s) (inp s) e;
  (* numbers fit into 64-bit integers *)
  lk_global : forall r v g, r < P -> local_to_global (maps r) v = Some g -> (Z.of_nat g < 2 ^ 63)%Z;
  lk_size : forall r, r < P -> (Z.of_nat (length (li_ghost (inp r)) * P) < 2 ^ 63)%Z
}.

(** A numbering of the entities of all ranks: [news r] gives the number on rank [r] of each
    listed entity, [em r] is the index map, [ipe r] the entities on process boundaries. *)
Record li_numbered (P : nat) (maps : nat -> imap) (inp : nat -> li_input)
    (news : nat -> list nat) (em : nat -> imap) (ipe : nat -> list nat) : Prop := {
  (* every number below the size of the index map is used, and equal numbers are kept equal *)
  ln_len : forall r, r < P -> length (news r) = length (li_index (inp r));
  ln_count : forall r, r < P -> size_local (em r) + num_ghosts (em r) = length (li_ghost (inp r));
  ln_all : forall r n, r < P -> (In n (news r) <-> n < size_local (em r) + num_ghosts (em r));
  ln_same : forall r i j x y a b, r < P ->
    nth_error (news r) i = Some x -> nth_error (news r) j = Some y ->
    nth_error (li_index (inp r)) i = Some a -> nth_error (li_index (inp r)) j = Some b ->
    (x = y <-> a = b);
  (* two entities anywhere have the same global number iff they have the same vertices *)
  ln_global : forall r s i j e f x y g h, r < P -> s < P ->
    ent (maps r) (inp r) i e -> ent (maps s) (inp s) j f ->
    nth_error (news r) i = Some x -> nth_error (news s) j = Some y ->
    local_to_global (em r) x = Some g -> local_to_global (em s) y = Some h ->
    (g = h <-> e = f);
  (* the owner has the entity in one of its own cells *)
  ln_owner : forall r i e x g, r < P -> ent (maps r) (inp r) i e -> nth_error (news r) i = Some x ->
    local_to_global (em r) x = Some g ->
    exists o, o < P /\ owns (em o) g /\ in_owned_cell (maps o) (inp o) e;
  (* entities of own cells that are also in an own cell of another rank *)
  ln_ipe : forall r, r < P -> NoDup (ipe r) /\ forall x, In x (ipe r) <->
    exists i id e s, nth_error (news r) i = Some x /\ ent (maps r) (inp r) i e /\
      nth_error (li_index (inp r)) i = Some id /\ nth_error (li_ghost (inp r)) id = Some 0 /\
      s < P /\ s <> r /\ in_owned_cell (maps s) (inp s) e
}.
