(** Coordinates of the vertices of a refined mesh. *)

From Verif Require Import Base BaseProofs Algo IndexMap TransProofs MatrixCSR MatrixProofs NewVerts NewVertsSpec NewVertsProofs.
From Coq Require Import Reals Lra.
Open Scope nat_scope.

Section Geometry.
Variables (xdofs c_to_v : list (list nat)) (vertex_pos : list nat) (x : list R) (edge_nodes : nat -> option (list nat)) (gdim num_all num_vertices : nat).
Notation node := (vertex_node xdofs c_to_v vertex_pos).
Hypothesis Hlen : length xdofs = length c_to_v.
Hypothesis Hcells : forall c vs ds i v, nth_error c_to_v c = Some vs -> nth_error xdofs c = Some ds -> nth_error vs i = Some v -> v < num_all /\ exists p d, nth_error vertex_pos i = Some p /\ nth_error ds p = Some d /\ 3 * d + 3 <= length x.
Hypothesis Hsame : forall v d d', node v d -> node v d' -> d = d'.
Hypothesis Hall : forall v, v < num_vertices -> exists d, node v d.
Hypothesis Hgdim : gdim <= 3.

Lemma xread d j : 3 * d + 3 <= length x -> j < 3 -> nth_error x (3 * d + j) = Some (xcoord x d j).
Proof. intros H L. unfold xcoord. apply nth_error_nth'. lia. Qed.
Lemma xrow d n : 3 * d + 3 <= length x -> n <= 3 -> omap (fun j => nth_error x (3 * d + j)) (seq 0 n) = Some (map (xcoord x d) (seq 0 n)).
Proof. intros H L. apply omap_map. intros j Hj. apply in_seq in Hj. apply xread; lia. Qed.

Definition at_node (vs ds : list nat) (v d : nat) : Prop := exists i p, nth_error vs i = Some v /\ nth_error vertex_pos i = Some p /\ nth_error ds p = Some d.

Lemma node_iff v d : node v d <-> exists vs ds, In (vs, ds) (combine c_to_v xdofs) /\ at_node vs ds v d.
Proof.
  split.
  - intros (c & vs & ds & i & p & E1 & E2 & H). exists vs, ds. split; [|exists i, p; exact H]. apply nth_error_In with c. rewrite combine_nth_error, E1, E2. reflexivity.
  - intros (vs & ds & H & i & p & K). apply In_nth_error in H as (c & E). rewrite combine_nth_error in E. destruct (nth_error c_to_v c) as [a|] eqn:E1; [|discriminate]. destruct (nth_error xdofs c) as [b|] eqn:E2; [|discriminate]. injection E as <- <-. exists c, a, b, i, p. auto.
Qed.

Lemma vertex_to_x_ok : exists vx, vertex_to_x xdofs c_to_v vertex_pos num_all = Some vx /\ length vx = num_all /\ forall v d, node v d -> nth_error vx v = Some d.
Proof.
  unfold vertex_to_x.
  destruct (ofold_prefix_ind (fun vx '(vertices, dofs) => ofold (fun vx '(i, v) => p <- nth_error vertex_pos i ;; d <- nth_error dofs p ;; upd vx v d) (enum vertices) vx)
     (fun done vx => length vx = num_all /\ forall v d, (exists vs ds, In (vs, ds) done /\ at_node vs ds v d) -> nth_error vx v = Some d) (combine c_to_v xdofs) (repeat 0 num_all)) as (vx & E & L & H).
  - split; [apply repeat_length|]. intros v d (vs & ds & [] & _).
  - intros done (vs, ds) rest vx El (L & H).
    assert (Hin : In (vs, ds) (combine c_to_v xdofs)) by (rewrite El; apply in_or_app; right; now left).
    assert (Hc : exists c, nth_error c_to_v c = Some vs /\ nth_error xdofs c = Some ds).
    { apply In_nth_error in Hin as (c & E). rewrite combine_nth_error in E. destruct (nth_error c_to_v c) as [a|] eqn:E1; [|discriminate]. destruct (nth_error xdofs c) as [b|] eqn:E2; [|discriminate]. injection E as <- <-. eauto. }
    destruct Hc as (c & E1 & E2).
    destruct (ofold_prefix_ind (fun vx '(i, v) => p <- nth_error vertex_pos i ;; d <- nth_error ds p ;; upd vx v d)
      (fun part vx => length vx = num_all /\ forall v d, (exists vs ds, In (vs, ds) done /\ at_node vs ds v d) \/ (exists i p, In (i, v) part /\ nth_error vertex_pos i = Some p /\ nth_error ds p = Some d) -> nth_error vx v = Some d) (enum vs) vx) as (vx' & E & L' & H').
    + split; [exact L|]. intros v d [K|(i & p & [] & _)]. now apply H.
    + intros part (i, v) rest' vx1 El1 (L1 & H1). assert (Ei : nth_error vs i = Some v) by (apply in_enum; rewrite El1; apply in_or_app; right; now left).
      destruct (Hcells c vs ds i v E1 E2 Ei) as (Lv & p & d & Ep & Ed & _). rewrite Ep. cbn [obind]. rewrite Ed. cbn [obind]. destruct (upd_some vx1 v d) as (vx2 & Eu); [lia|]. exists vx2. split; [exact Eu|]. split; [rewrite (upd_length _ _ _ _ Eu); exact L1|].
      assert (Nd : node v d) by (apply node_iff; exists vs, ds; split; [exact Hin|]; exists i, p; auto).
      intros w d' K. rewrite (upd_nth _ _ _ _ _ Eu). destruct (Nat.eqb_spec v w) as [<-|N].
      * f_equal. apply (Hsame v); [exact Nd|]. apply node_iff. destruct K as [(vs' & ds' & K1 & K2)|(i' & p' & K1 & K2 & K3)].
        -- exists vs', ds'. split; [|exact K2]. rewrite El. apply in_or_app. now left.
        -- exists vs, ds. split; [exact Hin|]. exists i', p'. split; [|auto]. apply in_enum. rewrite El1. apply in_app_iff in K1 as [K1|[K1|[]]]; apply in_or_app; [now left|right; now left].
      * apply H1. destruct K as [K|(i' & p' & K1 & K2)]; [now left|]. right. exists i', p'. split; [|exact K2]. apply in_app_iff in K1 as [K1|[K1|[]]]; [exact K1|]. injection K1 as <- <-. congruence.
    + exists vx'. split; [exact E|]. split; [exact L'|]. intros v d (vs' & ds' & K1 & K2). apply H'. apply in_app_iff in K1 as [K1|[K1|[]]]; [left; eauto|]. injection K1 as <- <-. right. destruct K2 as (i & p & K2 & K3). exists i, p. split; [|exact K3]. now apply in_enum.
  - exists vx. split; [exact E|]. split; [exact L|]. intros v d Hn. apply H. now apply node_iff.
Qed.

Lemma sum_snoc l a : fold_right Rplus 0%R (l ++ [a]) = (fold_right Rplus 0 l + a)%R.
Proof. induction l as [|b l IH]; cbn [app fold_right]; [ring|]. rewrite IH. ring. Qed.

Lemma midpoints_ok (el : list (list nat)) : (forall nodes d, In nodes el -> In d nodes -> 3 * d + 3 <= length x) ->
  compute_midpoints x el = Some (map (fun nodes => map (fun j => mean (map (fun d => xcoord x d j) nodes)) (seq 0 3)) el).
Proof.
  intro He. apply omap_map. intros nodes Hn.
  destruct (ofold_prefix_ind (fun p row => xg <- omap (fun j => nth_error x (3 * row + j)) (seq 0 3) ;; Some (map (fun ab => fst ab + snd ab / INR (length nodes))%R (combine p xg)))
    (fun done p => p = map (fun j => fold_right Rplus 0 (map (fun d => xcoord x d j) done) / INR (length nodes))%R (seq 0 3)) nodes [0%R; 0%R; 0%R]) as (p & E & ->).
  - cbn [map seq fold_right]. unfold Rdiv. rewrite Rmult_0_l. reflexivity.
  - intros done d rest p El ->. eexists. split.
    + rewrite xrow; [reflexivity| |lia]. apply (He nodes); [exact Hn|]. rewrite El. apply in_or_app. right. now left.
    + cbn [seq map combine fst snd]. rewrite !map_app. cbn [map]. rewrite !sum_snoc. unfold Rdiv. now rewrite !Rmult_plus_distr_r.
  - rewrite E. f_equal. apply map_ext. intro j. unfold mean. now rewrite map_length.
Qed.

Lemma geometry_ok (l : list nat) : num_vertices <= num_all -> (forall e, In e l -> exists nodes, edge_nodes e = Some nodes /\ forall d, In d nodes -> 3 * d + 3 <= length x) ->
  exists rows, create_new_geometry xdofs c_to_v vertex_pos x gdim edge_nodes num_all num_vertices l = Some rows /\ length rows = num_vertices + length l /\
    (forall v d, v < num_vertices -> node v d -> nth_error rows v = Some (map (xcoord x d) (seq 0 gdim))) /\
    (forall i e nodes, nth_error l i = Some e -> edge_nodes e = Some nodes -> nth_error rows (num_vertices + i) = Some (map (fun j => mean (map (fun d => xcoord x d j) nodes)) (seq 0 gdim))).
Proof.
  intros Hnum Hel. set (nd := fun e => match edge_nodes e with Some n => n | None => [] end). set (el := map nd l).
  assert (Eel : omap edge_nodes l = Some el) by (apply omap_map; intros e H; destruct (Hel e H) as (n & E & _); unfold nd; now rewrite E).
  assert (He : forall nodes d, In nodes el -> In d nodes -> 3 * d + 3 <= length x) by (intros nodes d H; apply in_map_iff in H as (e & <- & H); destruct (Hel e H) as (n & E & B); unfold nd; rewrite E; apply B).
  destruct vertex_to_x_ok as (vx & Evx & Lvx & Hvx).
  set (old := map (fun v => map (xcoord x (nth v vx 0)) (seq 0 gdim)) (seq 0 num_vertices)).
  set (new := map (fun nodes => map (fun j => mean (map (fun d => xcoord x d j) nodes)) (seq 0 gdim)) el).
  exists (old ++ new). split; [|split; [|split]].
  - unfold create_new_geometry. rewrite Evx. cbn [obind]. rewrite (omap_map _ (fun v => map (xcoord x (nth v vx 0)) (seq 0 gdim))).
    + cbn [obind]. rewrite Eel. cbn [obind]. rewrite (midpoints_ok el He). cbn [obind]. rewrite (omap_map _ (fun p => map (fun j => nth j p 0%R) (seq 0 gdim))).
      * cbn [obind]. fold old. do 2 f_equal. unfold new. rewrite map_map. apply map_ext. intro nodes. apply map_ext_in. intros j Hj. apply in_seq in Hj.
        destruct j as [|[|[|j]]]; [reflexivity..|lia].
      * intros p Hp. apply in_map_iff in Hp as (nodes & <- & _). apply omap_map. intros j Hj. apply in_seq in Hj. apply nth_error_nth'. rewrite map_length, seq_length. lia.
    + intros v Hv. apply in_seq in Hv. destruct (Hall v) as (d & Hd); [lia|]. pose proof (Hvx v d Hd) as E. rewrite E. cbn [obind]. rewrite (nth_error_nth _ _ _ E). apply xrow; [|exact Hgdim].
      destruct Hd as (c & vs & ds & i & p & A1 & A2 & A3 & A4 & A5). destruct (Hcells c vs ds i v A1 A2 A3) as (_ & p' & d' & B1 & B2 & B3). rewrite A4 in B1. injection B1 as <-. rewrite A5 in B2. injection B2 as <-. exact B3.
  - unfold old, new, el. now rewrite app_length, !map_length, seq_length.
  - intros v d Hv Hd. unfold old. rewrite nth_error_app1 by (now rewrite map_length, seq_length). rewrite nth_error_map, nth_error_seq by exact Hv. cbn [option_map plus]. now rewrite (nth_error_nth _ _ _ (Hvx v d Hd)).
  - intros i e nodes Ei Ee. unfold old. rewrite nth_error_app2 by (rewrite map_length, seq_length; lia). rewrite map_length, seq_length. replace (num_vertices + i - num_vertices) with i by lia. unfold new, el, nd. rewrite !nth_error_map, Ei. cbn [option_map]. now rewrite Ee.
Qed.
End Geometry.

Lemma coordinates_ok xdofs c_to_v vertex_pos x gdim edge_nodes P emaps vmaps marks r : r < P -> marks_ok P emaps marks ->
  length xdofs = length c_to_v -> gdim <= 3 ->
  (forall c vs ds i v, nth_error c_to_v c = Some vs -> nth_error xdofs c = Some ds -> nth_error vs i = Some v ->
     v < size_local (vmaps r) + num_ghosts (vmaps r) /\ exists p d, nth_error vertex_pos i = Some p /\ nth_error ds p = Some d /\ 3 * d + 3 <= length x) ->
  (forall v d d', vertex_node xdofs c_to_v vertex_pos v d -> vertex_node xdofs c_to_v vertex_pos v d' -> d = d') ->
  (forall v, v < size_local (vmaps r) -> exists d, vertex_node xdofs c_to_v vertex_pos v d) ->
  (forall e, e < size_local (emaps r) -> exists nodes, edge_nodes e = Some nodes /\ forall d, In d nodes -> 3 * d + 3 <= length x) ->
  exists rows, new_vertex_coords xdofs c_to_v vertex_pos x gdim edge_nodes emaps vmaps marks r = Some rows /\
    length rows = new_size emaps vmaps marks r /\
    (forall v d, v < size_local (vmaps r) -> vertex_node xdofs c_to_v vertex_pos v d -> nth_error rows v = Some (map (xcoord x d) (seq 0 gdim))) /\
    (forall e nodes, e < size_local (emaps r) -> is_marked marks r e = true -> edge_nodes e = Some nodes ->
       nth_error rows (size_local (vmaps r) + marked_before marks r e) = Some (map (fun j => mean (map (fun d => xcoord x d j) nodes)) (seq 0 gdim))).
Proof.
  intros Hr Hm Hl Hg Hc Hs Ha He. unfold new_vertex_coords. rewrite (marked_list_ok P emaps marks Hm r Hr). cbn [obind].
  destruct (geometry_ok xdofs c_to_v vertex_pos x edge_nodes gdim (size_local (vmaps r) + num_ghosts (vmaps r)) (size_local (vmaps r)) Hl Hc Hs Ha Hg (filter (is_marked marks r) (seq 0 (size_local (emaps r))))) as (rows & E & L & Ho & Hn).
  - lia.
  - intros e H. apply filter_In in H as (H & _). apply in_seq in H. apply He. lia.
  - exists rows. split; [exact E|]. split; [exact L|]. split; [exact Ho|]. intros e nodes Le Me Ee. apply (Hn _ e); [|exact Ee]. now apply filter_pos.
Qed.

