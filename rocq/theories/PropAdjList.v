(** Properties C01 and C02. *)
From Verif Require Import Base AdjList AdjListSpec AdjListProofs.

(** C01: building from rows and reading the links back gives the rows. *)
Theorem C01_rows_roundtrip :
  forall A (rows : list (list A)),
    stores (adj_of_rows rows) rows /\ al_array (adj_of_rows rows) = concat rows.
Proof. exact (fun A rows => conj (adj_of_rows_stores rows) (adj_of_rows_array rows)). Qed.
Print Assumptions C01_rows_roundtrip.

Example C01_rows_ex : links (adj_of_rows [[3;1];[];[2]]) 1 = Some [] /\
                      links (adj_of_rows [[3;1];[];[2]]) 2 = Some [2] /\
                      links (adj_of_rows [[3;1];[];[2]]) 3 = None.
Proof. repeat split. Qed.

(** C01: the (data, offsets) constructor succeeds exactly when the last offset is the
    number of data entries. *)
Theorem C01_data_offsets_iff :
  forall A (data : list A) offsets l,
    adj_make data offsets = Some l <->
    offsets <> [] /\ last offsets 0 = length data /\ l = mkAdj data offsets.
Proof. exact @adj_make_iff. Qed.
Print Assumptions C01_data_offsets_iff.

(** C01: ... and when the offsets start at zero and do not decrease, the links of the
    nodes, in order, tile the data. *)
Theorem C01_data_offsets_tile :
  forall A (data : list A) offsets l,
    adj_make data offsets = Some l -> hd_error offsets = Some 0 -> Sorted le offsets ->
    exists rows, stores l rows /\ concat rows = data.
Proof. exact @adj_make_rows. Qed.
Print Assumptions C01_data_offsets_tile.

Example C01_data_offsets_ex :
  exists l, adj_make [7;8;9] [0;2;2;3] = Some l /\ links l 1 = Some [] /\ links l 0 = Some [7;8] /\
            hd_error [0;2;2;3] = Some 0 /\ Sorted le [0;2;2;3].
Proof. eexists; repeat split; repeat constructor. Qed.

(** C01: the constructor with node data. *)
Theorem C01_node_data_iff :
  forall A W (data : list A) offsets (nd : list W) r,
    adj_make_nd data offsets nd = Some r <->
    offsets <> [] /\ length nd = length offsets - 1 /\ last offsets 0 = length data
    /\ r = (mkAdj data offsets, nd).
Proof. exact @adj_make_nd_iff. Qed.
Print Assumptions C01_node_data_iff.

(** C01: constant-degree lists, for every [int] degree. *)
Theorem C01_regular_iff :
  forall A (data : list A) degree l,
    (Z.of_nat (length data) < 2 ^ 63)%Z -> (- 2 ^ 31 <= degree < 2 ^ 31)%Z ->
    regular_adjacency_list data degree = Some l <->
    l = mkAdj data (psums (repeat (Z.to_nat degree) (length data / Z.to_nat degree))) /\
    ((0 < degree)%Z /\ (degree | Z.of_nat (length data))%Z \/ (degree <= 0)%Z /\ data = []).
Proof. exact @regular_some. Qed.
Print Assumptions C01_regular_iff.

Theorem C01_regular_links :
  forall A (data : list A) degree l,
    (Z.of_nat (length data) < 2 ^ 63)%Z -> (0 < degree < 2 ^ 31)%Z ->
    regular_adjacency_list data degree = Some l ->
    exists rows, stores l rows /\ concat rows = data /\
      Forall (fun r => length r = Z.to_nat degree) rows /\
      length rows = length data / Z.to_nat degree.
Proof. exact @regular_links. Qed.
Print Assumptions C01_regular_links.

Example C01_regular_ex :
  (exists l, regular_adjacency_list [1;2;3;4;5;6] 2 = Some l /\ links l 2 = Some [5;6]) /\
  regular_adjacency_list [1;2;3] 2 = None /\ regular_adjacency_list [1] 0 = None.
Proof. repeat split. eexists; split; reflexivity. Qed.

Theorem C01_num_links :
  forall A (l : adjlist A) i ls, links l i = Some ls -> num_links l i = Some (length ls).
Proof. exact @num_links_spec. Qed.
Print Assumptions C01_num_links.

Theorem C01_self_links : forall n, stores (adj_iota n) (map (fun i => [i]) (seq 0 n)).
Proof. exact adj_iota_stores. Qed.
Print Assumptions C01_self_links.

Theorem C01_equality :
  forall A (eqb : A -> A -> bool) l1 l2,
    (forall x y, eqb x y = true <-> x = y) -> (adj_eqb eqb l1 l2 = true <-> l1 = l2).
Proof. exact @adj_eqb_spec. Qed.
Print Assumptions C01_equality.

(** C02: the transposed connectivity, for every connectivity whose links are in range. *)
Theorem C02_transpose :
  forall c rows n, stores c rows -> all_below n rows ->
    exists t, compute_from_transpose c n = Some t /\
              stores t (map (transposed_row rows) (seq 0 n)).
Proof. exact compute_from_transpose_spec. Qed.
Print Assumptions C02_transpose.

(** What [transposed_row] says: the inverse relation, in increasing order. *)
Theorem C02_transposed_row_relation :
  forall rows v e,
    (In e (transposed_row rows v) <-> exists row, nth_error rows e = Some row /\ In v row)
    /\ Sorted le (transposed_row rows v).
Proof. exact (fun rows v e => conj (in_transposed_row rows v e) (transposed_row_sorted rows v)). Qed.
Print Assumptions C02_transposed_row_relation.

Theorem C02_transpose_out_of_range :
  forall c rows n row x,
    stores c rows -> In row rows -> In x row -> n <= x -> compute_from_transpose c n = None.
Proof. exact compute_from_transpose_oob. Qed.
Print Assumptions C02_transpose_out_of_range.

Example C02_transpose_ex :
  all_below 4 [[0;1];[1;3];[];[1;1]] /\ stores (adj_of_rows [[0;1];[1;3];[];[1;1]]) [[0;1];[1;3];[];[1;1]] /\
  exists t, compute_from_transpose (adj_of_rows [[0;1];[1;3];[];[1;1]]) 4 = Some t /\
            links t 1 = Some [0;1;3;3] /\ links t 2 = Some [].
Proof.
  split; [|split; [apply adj_of_rows_stores|]].
  - intros row x Hr Hx. cbn in Hr.
    repeat (destruct Hr as [<-|Hr]; [cbn in Hx; repeat (destruct Hx as [<-|Hx]; [lia|]); destruct Hx|]).
    destruct Hr.
  - eexists; repeat split.
Qed.

Theorem C02_transpose_dofmap :
  forall dofmap dim num_cells,
    num_cells * dim <= length dofmap -> 0 < num_cells * dim ->
    exists m t, max_element (firstn (num_cells * dim) dofmap) = Some m /\
      transpose_dofmap dofmap dim num_cells = Some t /\
      stores t (map (positions (firstn (num_cells * dim) dofmap)) (seq 0 (S m))).
Proof. exact transpose_dofmap_spec. Qed.
Print Assumptions C02_transpose_dofmap.

Example C02_transpose_dofmap_ex :
  exists t, transpose_dofmap [0;2;2;3] 2 2 = Some t /\ links t 2 = Some [1;2] /\ links t 1 = Some [].
Proof. eexists; repeat split. Qed.

(** C02, counterexample: with no cells (a rank without cells) the code dereferences
    the maximum of an empty range instead of returning an empty list. *)
Theorem C02_transpose_dofmap_no_cells_refuted :
  exists dofmap dim num_cells,
    num_cells * dim <= length dofmap /\ transpose_dofmap dofmap dim num_cells = None.
Proof. exact (ex_intro _ [0] (ex_intro _ 1 (ex_intro _ 0
  (conj (Nat.le_0_l _) (transpose_dofmap_no_cells [0] 1))))). Qed.
Print Assumptions C02_transpose_dofmap_no_cells_refuted.
