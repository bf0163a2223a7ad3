(** What a stacked pattern must contain. *)
From Verif Require Import Base IndexMap IndexMapSpec SubMapSpec Sparsity.
Open Scope nat_scope.

(** [G] is the number, in the stacked numbering (SubMapSpec.v), of component [k] of the global
    index [g] of map [m]. *)
Definition stacked_index (P : nat) (Ms : list (world * nat)) (m g k G : nat) : Prop :=
  exists o, stack_entry P Ms o m g k /\ G = stacked Ms o m g k.
(** Process [q] has a pattern for block ([m], [n]) with the entry ([G], [g]), global indices of
    the two maps. *)
Definition block_inserted (Ms0 Ms1 : list (world * nat)) (patterns : nat -> list (list (option pattern))) (q m n G g : nat) : Prop :=
  exists maps0 b0 maps1 b1 ps p i c, nth_error Ms0 m = Some (maps0, b0) /\ nth_error Ms1 n = Some (maps1, b1) /\
    nth_error (patterns q) m = Some ps /\ nth_error ps n = Some (Some p) /\ In (i, c) (pt_cache p) /\
    local_to_global (maps0 q) i = Some G /\ local_to_global (maps1 q) c = Some g.
(** The patterns fit the maps: not finalised, and entries are rows and columns of the process. *)
Definition blocks_ok (P : nat) (Ms0 Ms1 : list (world * nat)) (patterns : nat -> list (list (option pattern))) : Prop :=
  forall q, q < P -> forall m ps, nth_error (patterns q) m = Some ps -> exists maps0 b0, nth_error Ms0 m = Some (maps0, b0) /\
    forall n op, nth_error ps n = Some op -> exists maps1 b1, nth_error Ms1 n = Some (maps1, b1) /\
      forall p, op = Some p -> pt_final p = None /\ forall i c, In (i, c) (pt_cache p) ->
        i < size_local (maps0 q) + num_ghosts (maps0 q) /\ c < size_local (maps1 q) + num_ghosts (maps1 q).
