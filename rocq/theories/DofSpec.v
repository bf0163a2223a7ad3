(** What the dofmap builder is given and what its result promises. *)
From Verif Require Import Base IndexMap IndexMapSpec CellTypes DofBuilder.
Open Scope nat_scope.

(** The dofs [ds] (positions in the cell) of entity [e] of dimension [d] of a cell of type
    [i]; the entity has type [t]. *)
Definition on_entity (tp : topo) (lys : list layout) (i d e : nat) (t : cell_type) (ds : list nat) : Prop :=
  exists ct ly eds, nth_error (tp_types tp (tp_dim tp)) i = Some ct /\ nth_error lys i = Some ly /\
    nth_error (ly_dofs ly) d = Some eds /\ nth_error eds e = Some ds /\ t = cell_entity_type ct d e.
(** Number of entities of type [t] among the first [e] entities of dimension [d]. *)
Definition rank_in_type (ct : cell_type) (d e : nat) (t : cell_type) : nat :=
  countb (fun e' => cell_eqb t (cell_entity_type ct d e')) (seq 0 e).
(** Entity [e] of dimension [d] of cell [c] is the entity [x] of the mesh. *)
Definition attached (tp : topo) (i c d e : nat) (t : cell_type) (x : nat) : Prop :=
  if d =? tp_dim tp then x = c
  else exists ct et links row, nth_error (tp_types tp (tp_dim tp)) i = Some ct /\ nth_error (tp_types tp d) et = Some t /\
         tp_conn tp i d et = Some links /\ nth_error links c = Some row /\
         nth_error row (rank_in_type ct d e t) = Some x.
(** Position [p] in cell [c] of type [i] is the [j]-th dof on entity [x] of dimension [d] and
    type [t]. *)
Definition slot (tp : topo) (lys : list layout) (i c p d : nat) (t : cell_type) (x j : nat) : Prop :=
  exists e ds, on_entity tp lys i d e t ds /\ nth_error ds j = Some p /\ attached tp i c d e t x.
(** The dof in position [p] of cell [c] of type [i] *)
Definition dof_at (dofs : list (list (list nat))) (i c p v : nat) : Prop :=
  exists rows row, nth_error dofs i = Some rows /\ nth_error rows c = Some row /\ nth_error row p = Some v.

Record tp_ok (tp : topo) (lys : list layout) : Prop := {
  tk_types : forall d, d <= tp_dim tp -> NoDup (tp_types tp d);
  tk_cells : forall ct, In ct (tp_types tp (tp_dim tp)) -> cell_dim ct = tp_dim tp;
  tk_layouts : length lys = length (tp_types tp (tp_dim tp));
  (* the layout attaches every position of the cell to one entity *)
  tk_shape : forall i ct ly, nth_error (tp_types tp (tp_dim tp)) i = Some ct -> nth_error lys i = Some ly ->
    length (ly_dofs ly) = S (tp_dim tp) /\
    (forall d eds, nth_error (ly_dofs ly) d = Some eds -> cell_num_entities ct d = Some (length eds)) /\
    Permutation (concat (concat (ly_dofs ly))) (seq 0 (ly_num ly));
  (* entities of one type have equally many dofs; those with dofs have been created *)
  tk_same : forall i d e t ds i' e' ds', on_entity tp lys i d e t ds -> on_entity tp lys i' d e' t ds' -> length ds = length ds';
  tk_known : forall i d e t ds, on_entity tp lys i d e t ds -> ds <> [] -> In t (tp_types tp d);
  tk_conn : forall i d et e t ds, d < tp_dim tp -> on_entity tp lys i d e t ds -> ds <> [] -> nth_error (tp_types tp d) et = Some t -> tp_conn tp i d et <> None;
  tk_links : forall i ct d et t links, d < tp_dim tp -> nth_error (tp_types tp (tp_dim tp)) i = Some ct ->
    nth_error (tp_types tp d) et = Some t -> tp_conn tp i d et = Some links ->
    length links = map_size (tp_map tp (tp_dim tp) i) /\
    forall row n, In row links -> cell_num_entities ct d = Some n ->
      length row = rank_in_type ct d n t /\ forall x, In x row -> x < map_size (tp_map tp d et)
}.

(** The required entities: dimension, index of the type, number of dofs *)
Definition rq_ok (tp : topo) (lys : list layout) (rq : list req) : Prop :=
  NoDup (map fst rq) /\
  forall d et n, In ((d, et), n) rq <-> 0 < n /\ exists i e t ds, on_entity tp lys i d e t ds /\ nth_error (tp_types tp d) et = Some t /\ length ds = n.

(** Entities of dimension [d] with type number [et] carry [n] dofs each. *)
Definition carries (tp : topo) (lys : list layout) (d et n : nat) : Prop :=
  0 < n /\ exists i e t ds, on_entity tp lys i d e t ds /\ nth_error (tp_types tp d) et = Some t /\ length ds = n.

(** A distributed topology: [tps r] on rank [r] *)
Record dof_world (P : nat) (tps : nat -> topo) (lys : list layout) : Prop := {
  dw_ok : forall r, r < P -> tp_ok (tps r) lys;
  dw_dim : forall r, r < P -> tp_dim (tps r) = tp_dim (tps 0);
  dw_types : forall r d, r < P -> tp_types (tps r) d = tp_types (tps 0) d;
  dw_maps : forall d et n, carries (tps 0) lys d et n -> maps_ok P (fun r => tp_map (tps r) d et);
  dw_size : forall d et n r, carries (tps 0) lys d et n -> r < P -> im_size_global (tp_map (tps r) d et) = im_hi (tp_map (tps (P - 1)) d et)
}.

(** What the distributed dofmap promises.  [dm r] is the index map of the dofs and [dofs r] the
    dofs of the cells, for each cell type; [num r d et x j] is the dof [j] of the entity [x] of
    dimension [d] and type number [et]. *)
Record dofmap_ok (P : nat) (tps : nat -> topo) (lys : list layout) (dm : nat -> imap) (dofs : nat -> list (list (list nat)))
    (num : nat -> nat -> nat -> nat -> nat -> nat) : Prop := {
  do_maps : maps_ok P dm;
  do_shape : forall r, r < P -> length (dofs r) = length lys /\
    forall i ly rows, nth_error lys i = Some ly -> nth_error (dofs r) i = Some rows ->
      length rows = map_size (tp_map (tps r) (tp_dim (tps r)) i) /\ forall row, In row rows -> length row = ly_num ly;
  (* cells list the dofs of their entities *)
  do_slot : forall r i c p d t x j, r < P -> c < map_size (tp_map (tps r) (tp_dim (tps r)) i) -> slot (tps r) lys i c p d t x j ->
    exists et n, nth_error (tp_types (tps r) d) et = Some t /\ carries (tps r) lys d et n /\ x < map_size (tp_map (tps r) d et) /\ j < n /\
      dof_at (dofs r) i c p (num r d et x j);
  (* the local numbers are 0, 1, ..., each for one dof *)
  do_range : forall r d et n x j, r < P -> carries (tps r) lys d et n -> x < map_size (tp_map (tps r) d et) -> j < n -> num r d et x j < map_size (dm r);
  do_onto : forall r v, r < P -> v < map_size (dm r) -> exists d et n x j, carries (tps r) lys d et n /\ x < map_size (tp_map (tps r) d et) /\ j < n /\ v = num r d et x j;
  (* two ranks use the same global number iff they mean the same dof of the same entity *)
  do_same : forall r r' d et n x j g G d' et' n' x' j' g' G', r < P -> r' < P ->
    carries (tps r) lys d et n -> local_to_global (tp_map (tps r) d et) x = Some g -> j < n -> local_to_global (dm r) (num r d et x j) = Some G ->
    carries (tps r') lys d' et' n' -> local_to_global (tp_map (tps r') d' et') x' = Some g' -> j' < n' -> local_to_global (dm r') (num r' d' et' x' j') = Some G' ->
    (G = G' <-> d = d' /\ et = et' /\ g = g' /\ j = j');
  (* a dof has the owner of its entity *)
  do_owner : forall r d et n x j g G o, r < P -> o < P -> carries (tps r) lys d et n -> local_to_global (tp_map (tps r) d et) x = Some g -> j < n ->
    local_to_global (dm r) (num r d et x j) = Some G -> (owns (dm o) G <-> owns (tp_map (tps o) d et) g)
}.
