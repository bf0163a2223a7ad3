(** What it means that a dof lies on a set of entities. *)
From Verif Require Import Base IndexMap IndexMapSpec Locate.
Open Scope nat_scope.

(** The block with local index [i] has global index [g]. *)
Definition at_global (m : imap) (i g : nat) : Prop :=
  i < im_hi m - im_lo m /\ g = im_lo m + i \/
  exists k, i = im_hi m - im_lo m + k /\ nth_error (im_ghosts m) k = Some g.
(** Dof [d1] of one rank and dof [d2] of another one are the same component of the same
    global block. *)
Definition same_dof (bs : nat) (m1 : imap) (d1 : nat) (m2 : imap) (d2 : nat) : Prop :=
  exists g, at_global m1 (d1 / bs) g /\ at_global m2 (d2 / bs) g /\ d1 mod bs = d2 mod bs.
(** One of the two ranks has a ghost that the other one owns. *)
Definition adjacent (maps : nat -> imap) (r q : nat) : Prop :=
  In q (im_owners (maps r)) \/ In r (im_owners (maps q)).

(** Entity [e] is the [i]-th entity of cell [c]. *)
Definition ith_entity (ce : list (list nat)) (c i e : nat) : Prop :=
  exists es, nth_error ce c = Some es /\ nth_error es i = Some e.
(** The positions in a cell of the closure dofs of the [i]-th entity, counted in units of
    the cell dofs: [n] consecutive ones for each index of the layout. *)
Definition closure_pos (closure : list (list nat)) (n i p : nat) : Prop :=
  exists cl index k, nth_error closure i = Some cl /\ In index cl /\ k < n /\ p = n * index + k.

(** Dof [d] lies on entity [e], seen from cell [c].  If the block size of the dofmap is the
    one of the element, [d] is a block. *)
Definition on_entity (L : layout) (rows ce : list (list nat)) (e c d : nat) : Prop :=
  exists i p row, ith_entity ce c i e /\ closure_pos (ly_closure L) (ly_ebs L / ly_bs L) i p /\
    nth_error rows c = Some row /\ nth_error row p = Some d.
(** ... on one of the entities *)
Definition lies_on (L : layout) (rows ce : list (list nat)) (entities : list nat) (d : nat) : Prop :=
  exists e c, In e entities /\ on_entity L rows ce e c d.
(** The unit in which dofs are numbered: blocks of the index map, or dofs in such blocks *)
Definition dof_unit (L : layout) : nat := if ly_map_bs L =? ly_bs L then 1 else ly_map_bs L.

(** The entities of one rank, its connectivities and its cell dofs fit together. *)
Record entities_ok (closure : list (list nat)) (ec ce : list (list nat)) (entities : list nat) : Prop := {
  en_cell : forall e, In e entities -> exists c cells, nth_error ec e = Some (c :: cells) /\ exists i, ith_entity ce c i e;
  en_once : forall es, In es ce -> NoDup es;
  en_count : forall es, In es ce -> length es <= length closure
}.
Record space_ok (L : layout) (m : imap) (rows ec ce : list (list nat)) (entities : list nat) : Prop := {
  sp_entities : entities_ok (ly_closure L) ec ce entities;
  sp_bs : 0 < ly_map_bs L /\ 0 < ly_bs L /\ (ly_ebs L = ly_bs L \/ ly_bs L = 1);
  sp_cells : forall c i e, ith_entity ce c i e -> exists row, nth_error rows c = Some row /\
    forall p, closure_pos (ly_closure L) (ly_ebs L / ly_bs L) i p -> p < length row;
  sp_dofs : forall row d, In row rows -> In d row -> d / dof_unit L < im_hi m - im_lo m + length (im_ghosts m);
  (* the dofs of an entity do not depend on the cell *)
  sp_conforming : forall e c c' d, In e entities -> (exists i, ith_entity ce c' i e) ->
    on_entity L rows ce e c d -> on_entity L rows ce e c' d
}.

(** * Two spaces with the same layout *)
(** Dof [d] of a space with block size [bs] at position [p] of a cell *)
Definition dof_at (bs : nat) (row : list nat) (p d : nat) : Prop :=
  exists b, nth_error row (p / bs) = Some b /\ d = bs * b + p mod bs.
(** Dofs of the two spaces at the same position of the same cell *)
Definition matched (bs0 bs1 : nat) (rows0 rows1 : list (list nat)) (c p d0 d1 : nat) : Prop :=
  exists row0 row1, nth_error rows0 c = Some row0 /\ nth_error rows1 c = Some row1 /\ dof_at bs0 row0 p d0 /\ dof_at bs1 row1 p d1.
(** ... that lie on one of the entities *)
Definition pair_on_entity (L : layout) (bs1 : nat) (rows0 rows1 ce : list (list nat)) (e c d0 d1 : nat) : Prop :=
  exists i p, ith_entity ce c i e /\ closure_pos (ly_closure L) (ly_ebs L) i p /\ matched (ly_bs L) bs1 rows0 rows1 c p d0 d1.
Definition pair_lies_on (L : layout) (bs1 : nat) (rows0 rows1 ce : list (list nat)) (entities : list nat) (d0 d1 : nat) : Prop :=
  exists e c, In e entities /\ pair_on_entity L bs1 rows0 rows1 ce e c d0 d1.

Record pair_ok (L : layout) (bs1 mb1 : nat) (m0 m1 : imap) (rows0 rows1 ec ce : list (list nat)) (entities : list nat) : Prop := {
  pk_entities : entities_ok (ly_closure L) ec ce entities;
  pk_bs : 0 < ly_bs L /\ 0 < bs1 /\ 0 < ly_map_bs L /\ 0 < mb1;
  pk_cells : forall c i e, ith_entity ce c i e -> exists row0 row1, nth_error rows0 c = Some row0 /\ nth_error rows1 c = Some row1 /\
    ly_bs L * length row0 = bs1 * length row1 /\
    forall p, closure_pos (ly_closure L) (ly_ebs L) i p -> p < ly_bs L * length row0;
  pk_dofs : forall c p d0 d1, matched (ly_bs L) bs1 rows0 rows1 c p d0 d1 ->
    d0 / ly_map_bs L < im_hi m0 - im_lo m0 + length (im_ghosts m0) /\ d1 / mb1 < im_hi m1 - im_lo m1 + length (im_ghosts m1);
  (* a dof of one space has one partner in the other one *)
  pk_one : forall c p d0 d1 c' p' e0 e1, matched (ly_bs L) bs1 rows0 rows1 c p d0 d1 -> matched (ly_bs L) bs1 rows0 rows1 c' p' e0 e1 ->
    (d0 = e0 <-> d1 = e1);
  pk_conforming : forall e c c' d0 d1, In e entities -> (exists i, ith_entity ce c' i e) ->
    pair_on_entity L bs1 rows0 rows1 ce e c d0 d1 -> pair_on_entity L bs1 rows0 rows1 ce e c' d0 d1
}.
(** Two ranks that share a dof of one space share its partner. *)
Definition pairs_match (P : nat) (L : layout) (bs1 mb1 : nat) (maps0 maps1 : nat -> imap) (rows0 rows1 : nat -> list (list nat)) : Prop :=
  forall q r c p d0 d1, q < P -> r < P -> matched (ly_bs L) bs1 (rows0 q) (rows1 q) c p d0 d1 ->
    (forall e0, same_dof (ly_map_bs L) (maps0 q) d0 (maps0 r) e0 -> exists c' p' e1,
       same_dof mb1 (maps1 q) d1 (maps1 r) e1 /\ matched (ly_bs L) bs1 (rows0 r) (rows1 r) c' p' e0 e1) /\
    (forall e1, same_dof mb1 (maps1 q) d1 (maps1 r) e1 -> exists e0, same_dof (ly_map_bs L) (maps0 q) d0 (maps0 r) e0).
