(** The dual graph of a mesh distributed over ranks: what property C60 refers to. *)
From Verif Require Import Base CellTypes SortSpec.
Open Scope nat_scope.

(** A rank holds arrays of cells, each array with cells of one type; a cell is its vertices. *)
Definition verts (t : cell_type) : nat := length (nth 0 (topology t) []).
Definition facets (t : cell_type) : list (list nat) := nth (cell_dim t - 1) (topology t) [].
Definition block_cells (t : cell_type) (a : list Z) : nat := length a / verts t.
Definition num_cells (ts : list cell_type) (arrs : list (list Z)) : nat :=
  lsum (map (fun ta => block_cells (fst ta) (snd ta)) (combine ts arrs)).
Definition num_facets (ts : list cell_type) (arrs : list (list Z)) : nat :=
  lsum (map (fun ta => block_cells (fst ta) (snd ta) * length (facets (fst ta))) (combine ts arrs)).

(** Cell [c] of a rank (cells of the first array first) has the vertices [vs] in its facet
    number [i]. *)
Inductive has_facet (ts : list cell_type) (arrs : list (list Z)) : nat -> nat -> list Z -> Prop :=
| HasFacet j t a k i fv :
    nth_error ts j = Some t -> nth_error arrs j = Some a -> k < block_cells t a ->
    nth_error (facets t) i = Some fv ->
    has_facet ts arrs (num_cells (firstn j ts) (firstn j arrs) + k) i
              (map (fun x => nth (k * verts t + x) a 0%Z) fv).

(** Cells of the same dimension, at least one; vertex numbers are below the largest 64-bit
    integer. *)
Definition input_ok (ts : list cell_type) (arrs : list (list Z)) : Prop :=
  length ts = length arrs /\
  (exists d, 0 < d /\ Forall (fun t => cell_dim t = d) ts) /\
  Forall (Forall (fun v => (0 <= v < 2 ^ 63 - 1)%Z)) arrs.

(** [row] lists the neighbours of cell [c] in the mesh of one rank: one entry for each facet
    of [c] and each other facet with the same vertices. *)
Definition neighbours (ts : list cell_type) (arrs : list (list Z)) (c : nat) (row : list nat) : Prop :=
  exists ws : list (nat * (nat * nat)),   (* facet of c, cell, facet of that cell *)
    NoDup ws /\
    (forall i d j, In (i, (d, j)) ws <->
       (c, i) <> (d, j) /\
       exists vs vs', has_facet ts arrs c i vs /\ has_facet ts arrs d j vs' /\ Permutation vs vs') /\
    Permutation row (map (fun w => fst (snd w)) ws).

(** The facets given back as unmatched: facet [i] of cell [c] for each (c, i) of [ids], those
    whose vertices are the vertices of fewer than [max] facets; the rows are sorted and
    padded to width [w]. *)
Definition unmatched_facets (ts : list cell_type) (arrs : list (list Z)) (max : option nat)
    (w : nat) (rows : list (list Z)) (cells : list nat) : Prop :=
  exists ids : list (nat * nat),
    NoDup ids /\
    (forall c i, In (c, i) ids <-> exists vs, has_facet ts arrs c i vs /\
       match max with
       | None => True
       | Some m => exists l, NoDup l /\
           (forall d j, In (d, j) l <-> exists vs', has_facet ts arrs d j vs' /\ Permutation vs vs') /\
           length l < m
       end) /\
    cells = map fst ids /\
    Forall2 (fun ci row => exists vs s, has_facet ts arrs (fst ci) (snd ci) vs /\ Permutation vs s /\
               StronglySorted Z.le s /\ length s <= w /\ row = s ++ repeat (-1)%Z (w - length s)) ids rows.

(** The mesh of all ranks: the cells of rank 0 are numbered first. *)
Section World.
Variables (P : nat) (ts : nat -> list cell_type) (arrs : nat -> list (list Z)).
Definition first_cell (r : nat) : nat := lsum (map (fun q => num_cells (ts q) (arrs q)) (seq 0 r)).
Definition world_facet (g i : nat) (vs : list Z) : Prop :=
  exists r c, r < P /\ g = first_cell r + c /\ has_facet (ts r) (arrs r) c i vs.
(** Cells [g] and [d] share a facet. *)
Definition adjacent (g d : nat) : Prop :=
  exists i j vs vs', (g, i) <> (d, j) /\ world_facet g i vs /\ world_facet d j vs' /\ Permutation vs vs'.
(** No facet belongs to more than [m] cells. *)
Definition shared_by_at_most (m : nat) : Prop :=
  forall vs (l : list (nat * nat)), NoDup l ->
    (forall g i, In (g, i) l -> exists vs', world_facet g i vs' /\ Permutation vs vs') -> length l <= m.
End World.

(** The sort of facets by several threads: a permutation of the positions that sorts the
    rows lexicographically. *)
Definition sorts_facets (tsort : list (list Z) -> list nat) : Prop :=
  forall keys, Permutation (seq 0 (length keys)) (tsort keys) /\
    StronglySorted (fun i j => lex_le (nth i keys []) (nth j keys [])) (tsort keys).
