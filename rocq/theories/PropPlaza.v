(** Property C53: refinement subdivides a simplex exactly and conformingly. *)
From Coq Require Import Reals Lra.
From Verif Require Import Base BaseProofs Algo Plaza PlazaSpec PlazaTiling PlazaBisect PlazaCheck PlazaProofs PlazaOrder.
Open Scope nat_scope.

(** A triangle whose longest edge is marked, or a tetrahedron whose longest edges come from
    one order of its edges and whose marks are closed: the children use only vertices and
    midpoints of marked edges, tile the cell and have its volume for every position of the
    vertices, are not degenerate and do not overlap; and the facets of the children that lie
    on a facet of the cell are recorded with this facet, all others with -1. *)
Theorem C53_subdivision tdim le uniform mark indices :
  tdim = 2 \/ tdim = 3 -> ready tdim le mark -> indices_of tdim mark indices ->
  exists l pf, get_simplices indices le tdim uniform = Some l /\
    concat (children_of tdim l) = l /\ subdivides tdim mark (children_of tdim l) /\
    compute_parent_facets tdim l = Some pf /\ parent_facets tdim (children_of tdim l) pf.
Proof. exact (simplices_statement tdim le uniform mark indices). Qed.
Print Assumptions C53_subdivision.

(** The division of a facet of a tetrahedron is determined by the marks on the facet and by
    its longest edge. *)
Theorem C53_facet order le mark indices V l f e a b c eac ebc :
  Permutation order (seq 0 6) -> longest_in order le -> marks_closed le mark -> indices_of 3 mark indices ->
  get_tetrahedra indices le = Some l ->
  nth_error le f = Some e -> nth_error (ref_edges 3) e = Some (a, b) ->
  c <= 3 -> c <> f -> c <> a -> c <> b ->
  nth_error (ref_edges 3) eac = Some (min a c, max a c) -> nth_error (ref_edges 3) ebc = Some (min b c, max b c) ->
  forall T, piece 3 V (children_of 3 l) f T <->
    exists t, In t (split_facet (V a) (V b) (V c) (mark e) (mark eac) (mark ebc)) /\ same_elements t T.
Proof. exact (facet_statement order le mark indices V l f e a b c eac ebc). Qed.
Print Assumptions C53_facet.

(** Two tetrahedra with a common facet divide it in the same way. *)
Theorem C53_neighbours order order' le le' mark mark' indices indices' V V' l l' f f' e e' :
  Permutation order (seq 0 6) -> longest_in order le -> marks_closed le mark -> indices_of 3 mark indices ->
  get_tetrahedra indices le = Some l ->
  Permutation order' (seq 0 6) -> longest_in order' le' -> marks_closed le' mark' -> indices_of 3 mark' indices' ->
  get_tetrahedra indices' le' = Some l' ->
  (forall i j, i <= 3 -> j <= 3 -> V i = V j -> i = j) ->
  (forall v, (exists i, i <= 3 /\ i <> f /\ V i = v) <-> (exists i, i <= 3 /\ i <> f' /\ V' i = v)) ->
  nth_error le f = Some e -> nth_error le' f' = Some e' -> name 3 V (4 + e) = name 3 V' (4 + e') ->
  (forall d d', edge_of_facet f d -> edge_of_facet f' d' -> name 3 V (4 + d) = name 3 V' (4 + d') -> mark d = mark' d') ->
  forall T, piece 3 V (children_of 3 l) f T <-> piece 3 V' (children_of 3 l') f' T.
Proof. exact (neighbours_statement order order' le le' mark mark' indices indices' V V' l l' f f' e e'). Qed.
Print Assumptions C53_neighbours.

(** An edge of a triangle is divided if and only if it is marked. *)
Theorem C53_side le uniform mark indices V l f a b :
  le < 3 -> mark le = true -> indices_of 2 mark indices -> get_triangles indices le uniform = Some l ->
  nth_error (ref_edges 2) f = Some (a, b) ->
  forall T, piece 2 V (children_of 2 l) f T <-> exists t, In t (split_side (V a) (V b) (mark f)) /\ same_elements t T.
Proof. exact (side_statement le uniform mark indices V l f a b). Qed.
Print Assumptions C53_side.

(** The longest edges of the faces come from one order of the edges, whatever the order of
    the vertices in each face, also if edges have the same length. *)
Theorem C53_longest (L : Type) (ltb : L -> L -> bool) (zero : L) (g : nat -> nat) (len : nat -> L) (w ed : nat -> list nat) le :
  (forall x y, ltb x y = true -> ltb y x = false) ->
  (forall x y z, ltb x y = false -> ltb y z = false -> ltb x z = false) ->
  (forall x, ltb x zero = false) ->
  (forall i j, i <= 3 -> j <= 3 -> g i = g j -> i = j) ->
  (forall f, f < 4 -> face_of f (w f) (ed f)) ->
  length le = 4 ->
  (forall f d, nth_error le f = Some d ->
    exists i, face_long_edge L ltb zero true (map g (w f)) (map len (ed f)) = Some i /\ nth_error (ed f) i = Some d) ->
  exists order, Permutation order (seq 0 6) /\ longest_in order le.
Proof. intros A B C D E F G. exact (order_statement L ltb zero A B C g len D w ed le E F G). Qed.
Print Assumptions C53_longest.

(** The loop over cells: a cell without marks is copied; from a cell with marks come its
    children with their new vertices, their parent and their parent facets. *)
Theorem C53_cell tdim c vertices edges faces gi marked nv long_edge uniform le mark (ix : nat -> Z) :
  tdim = 2 \/ tdim = 3 -> length vertices = S tdim -> length edges = length (ref_edges tdim) -> NoDup edges -> length faces = length le ->
  (forall i, i <= tdim -> exists v, nth_error vertices i = Some v /\ nth_error gi v = Some (ix i)) ->
  (forall e, e < length edges -> exists d, nth_error edges e = Some d /\ nth_error marked d = Some (mark e) /\
     (mark e = true -> nv d = Some (ix (S tdim + e)) /\ (0 <= ix (S tdim + e)%nat)%Z)) ->
  (forall f, f < length faces -> exists fc l d, nth_error faces f = Some fc /\ nth_error le f = Some l /\ nth_error edges l = Some d /\ nth_error long_edge fc = Some d) ->
  ((forall e, e < length edges -> mark e = false) ->
    refine_cell tdim c vertices edges faces gi marked nv long_edge uniform = Some ([map ix (seq 0 (S tdim))], [c], map Z.of_nat (seq 0 (S tdim)))) /\
  (ready tdim le mark -> exists children pf,
    refine_cell tdim c vertices edges faces gi marked nv long_edge uniform = Some (map (map ix) children, repeat c (length children), pf) /\
    subdivides tdim mark children /\ parent_facets tdim children pf).
Proof. exact (cell_statement tdim c vertices edges faces gi marked nv long_edge uniform le mark ix). Qed.
Print Assumptions C53_cell.

(** * Examples *)
(** Two tetrahedra with vertices 10, 11, 12, 13 and 12, 10, 14, 11 and three marked edges
    each *)
Definition ex_mark (e : nat) : bool := mem e [0; 4; 5].
Definition ex_mark' (e : nat) : bool := mem e [1; 2; 5].
Definition ex_indices : list Z := [0; 1; 2; 3; 20; -1; -1; -1; 21; 22]%Z.
Definition ex_indices' : list Z := [2; 0; 4; 1; -1; 22; 23; -1; -1; 21]%Z.
Lemma longest_check order le : le = le_of order -> forallb (fun f => existsb (fun e => has 3 e f) order) (seq 0 4) = true -> longest_in order le.
Proof.
  intros -> H. split; [reflexivity|]. intros f e E. unfold le_of in E. rewrite nth_error_map in E.
  assert (Hf : f < 4) by (apply nth_error_bound in E || (destruct (nth_error (seq 0 4) f) eqn:E'; [apply nth_error_bound in E'; rewrite seq_length in E'; exact E'|discriminate])).
  rewrite nth_error_seq in E by lia. cbn [option_map] in E. rewrite Nat.add_0_l in E.
  rewrite forallb_forall in H. specialize (H f ltac:(apply in_seq; lia)). injection E as E. clear Hf. induction order as [|x order IH]; [discriminate|].
  cbn in E, H. destruct (has 3 x f) eqn:Ex.
  - subst e. exists [], order. split; [reflexivity|]. split; [now apply eof_has|]. intros e' [].
  - destruct (IH H E) as (p & q & Eo & Ho & Hp). exists (x :: p), q. split; [cbn; now rewrite Eo|]. split; [exact Ho|].
    intros e' [<-|He']; [rewrite eof_has; congruence|auto].
Qed.
Lemma closed_check' le mark : length le = 4 -> closedb le (map mark (seq 0 6)) = true -> marks_closed le mark.
Proof.
  intros Ll H. unfold closedb in H. apply andb_true_iff in H as (H1 & H2). split.
  - apply existsb_exists in H1 as (b & Hb & ->). apply in_map_iff in Hb as (e & Em & He). apply in_seq in He. exists e. split; [lia|exact Em].
  - intros f e l Ef He Hm. rewrite forallb_forall in H2. specialize (H2 f ltac:(apply in_seq; apply nth_error_bound in Ef; lia)). rewrite forallb_forall in H2.
    assert (e < 6) by (destruct He as (a & b & E & _); apply (nth_error_bound _ _ _ E)). specialize (H2 e ltac:(apply in_seq; lia)).
    apply eof_has in He. rewrite He, mark_list, Hm in H2 by assumption. cbn [andb negb orb] in H2. rewrite (nth_error_nth _ _ 6 Ef) in H2.
    destruct (Nat.ltb_spec l 6) as [Hl|Hl]; [now rewrite mark_list in H2|]. now rewrite nth_overflow in H2 by (cbn; exact Hl).
Qed.
Lemma indices_check tdim mark indices : length indices = S tdim + length (ref_edges tdim) ->
  forallb (fun e => match nth_error indices (S tdim + e) with Some x => Bool.eqb (0 <=? x)%Z (mark e) | None => false end) (seq 0 (length (ref_edges tdim))) = true ->
  indices_of tdim mark indices.
Proof.
  intros Ll H. split; [exact Ll|]. intros e He. rewrite forallb_forall in H. specialize (H e ltac:(apply in_seq; lia)).
  destruct (nth_error indices (S tdim + e)) as [x|]; [|discriminate]. exists x. split; [reflexivity|]. apply Bool.eqb_prop in H. rewrite <- H. now rewrite Z.leb_le.
Qed.
Lemma ex_order : Permutation [0; 5; 4; 2; 1; 3] (seq 0 6).
Proof. symmetry. exact (isort_perm' (fun a b => nth a [0; 4; 3; 5; 2; 1] 0 <=? nth b [0; 4; 3; 5; 2; 1] 0) (seq 0 6)). Qed.
Lemma ex_order' : Permutation [2; 1; 5; 3; 0; 4] (seq 0 6).
Proof. symmetry. exact (isort_perm' (fun a b => nth a [4; 1; 0; 3; 5; 2] 0 <=? nth b [4; 1; 0; 3; 5; 2] 0) (seq 0 6)). Qed.
Lemma ex_longest : longest_in [0; 5; 4; 2; 1; 3] [0; 0; 5; 5].
Proof. now apply longest_check. Qed.
Lemma ex_longest' : longest_in [2; 1; 5; 3; 0; 4] [2; 3; 1; 2].
Proof. now apply longest_check. Qed.
Example C53_subdivision_example : ready 3 [0; 0; 5; 5] ex_mark /\ indices_of 3 ex_mark ex_indices /\
  get_simplices ex_indices [0; 0; 5; 5] 3 false = Some [0; 3; 4; 9; 0; 4; 8; 9; 1; 2; 4; 9; 1; 3; 4; 9; 2; 4; 8; 9] /\
  compute_parent_facets 3 [0; 3; 4; 9; 0; 4; 8; 9; 1; 2; 4; 9; 1; 3; 4; 9; 2; 4; 8; 9] =
    Some [-1; -1; 2; 1; -1; 3; -1; 1; -1; -1; 3; 0; -1; -1; 2; 0; -1; 3; -1; 1]%Z.
Proof.
  split; [|split; [|split]].
  - exists [0; 5; 4; 2; 1; 3]. split; [exact ex_order|]. split; [exact ex_longest|now apply closed_check'].
  - now apply indices_check.
  - vm_compute. reflexivity.
  - vm_compute. reflexivity.
Qed.
Example C53_triangle_example : ready 2 [1] (fun _ => true) /\ indices_of 2 (fun _ => true) [0; 1; 2; 7; 8; 9]%Z /\
  get_simplices [0; 1; 2; 7; 8; 9]%Z [1] 2 true = Some [5; 3; 1; 3; 4; 2; 4; 5; 0; 4; 3; 5] /\
  get_simplices [0; 1; 2; 7; 8; 9]%Z [1] 2 false = Some [4; 1; 5; 4; 5; 0; 4; 1; 3; 4; 3; 2].
Proof.
  split; [|split; [|split; reflexivity]].
  - exists 1. auto.
  - now apply indices_check.
Qed.
Definition ex_V (i : nat) : nat := nth i [10; 11; 12; 13] 0.
Definition ex_V' (i : nat) : nat := nth i [12; 10; 14; 11] 0.
Example C53_neighbours_example : forall T,
  piece 3 ex_V (children_of 3 [0; 3; 4; 9; 0; 4; 8; 9; 1; 2; 4; 9; 1; 3; 4; 9; 2; 4; 8; 9]) 3 T <->
  piece 3 ex_V' (children_of 3 [0; 2; 3; 6; 0; 3; 5; 6; 0; 5; 6; 9; 1; 5; 6; 9]) 2 T.
Proof.
  apply (C53_neighbours [0; 5; 4; 2; 1; 3] [2; 1; 5; 3; 0; 4] [0; 0; 5; 5] [2; 3; 1; 2] ex_mark ex_mark' ex_indices ex_indices' ex_V ex_V' _ _ 3 2 5 1).
  - exact ex_order.
  - exact ex_longest.
  - now apply closed_check'.
  - now apply indices_check.
  - vm_compute. reflexivity.
  - exact ex_order'.
  - exact ex_longest'.
  - now apply closed_check'.
  - now apply indices_check.
  - vm_compute. reflexivity.
  - intros i j Hi Hj. do 4 (destruct i as [|i]; [do 4 (destruct j as [|j]; [cbn; lia|]); lia|]). lia.
  - intro v. split; intros (i & Hi & Hf & <-).
    + do 4 (destruct i as [|i]; [cbn; first [lia|exists 0; cbn; lia|exists 1; cbn; lia|exists 3; cbn; lia]|]); lia.
    + do 4 (destruct i as [|i]; [cbn; first [lia|exists 0; cbn; lia|exists 1; cbn; lia|exists 2; cbn; lia]|]); lia.
  - reflexivity.
  - reflexivity.
  - reflexivity.
  - intros d d' (a & b & E & Ha & Hb) (a' & b' & E' & Ha' & Hb').
    do 6 (destruct d as [|d]; [injection E as <- <-; do 6 (destruct d' as [|d']; [injection E' as <- <-; first [intros _; reflexivity|lia|intro HH; vm_compute in HH; discriminate HH]|]); destruct d'; discriminate|]).
    destruct d; discriminate.
Qed.
(** The longest edges of a tetrahedron where edges have the same length *)
Definition ex_w (f : nat) : list nat := nth f [[3; 1; 2]; [0; 3; 2]; [3; 0; 1]; [2; 1; 0]] [].
Definition ex_ed (f : nat) : list nat := nth f [[2; 0; 1]; [0; 4; 3]; [5; 1; 3]; [5; 4; 2]] [].
Definition ex_len (e : nat) : Z := nth e [2; 2; 2; 1; 2; 1]%Z 0%Z.
Definition ex_g (i : nat) : nat := nth i [31; 40; 12; 25] 0.
Example C53_longest_example : (forall f, f < 4 -> face_of f (ex_w f) (ex_ed f)) /\
  forall f d, nth_error [0; 0; 1; 4] f = Some d ->
    exists i, face_long_edge Z Z.ltb 0%Z true (map ex_g (ex_w f)) (map ex_len (ex_ed f)) = Some i /\ nth_error (ex_ed f) i = Some d.
Proof.
  split.
  - intros f Hf. do 4 (destruct f as [|f]; [split;
      [now split
      |repeat first [apply NoDup_nil | apply NoDup_cons; [cbn; lia|]]
      |cbn; lia
      |intros i v d Ev Ed; do 3 (destruct i as [|i]; [injection Ev as <-; injection Ed as <-; eexists _, _; split; [reflexivity|]; cbn; lia|]); destruct i; discriminate]|]). lia.
  - intros f d E. do 4 (destruct f as [|f]; [injection E as <-; vm_compute; eexists; split; [reflexivity|reflexivity]|]). destruct f; discriminate.
Qed.
(** One cell of a mesh *)
Example C53_cell_example :
  refine_cell 3 7 [5; 6; 7; 8] [10; 11; 12; 13; 14; 15] [2; 3; 4; 5] [0; 0; 0; 0; 0; 50; 60; 70; 80]%Z
    [false; false; false; false; false; false; false; false; false; false; true; false; false; false; true; true]
    (fun e => Some (Z.of_nat (100 + e))) [0; 0; 10; 10; 15; 15] false =
  Some ([[50; 80; 110; 115]; [50; 110; 114; 115]; [60; 70; 110; 115]; [60; 80; 110; 115]; [70; 110; 114; 115]]%Z, [7; 7; 7; 7; 7],
        [-1; -1; 2; 1; -1; 3; -1; 1; -1; -1; 3; 0; -1; -1; 2; 0; -1; 3; -1; 1]%Z).
Proof. vm_compute. reflexivity. Qed.

(** Without a common order of the edges the statement is wrong: here every facet has one of
    its edges as longest edge and all edges are marked, but the only child is a tetrahedron in
    the interior. *)
Theorem C53_cyclic_refuted : exists le indices mark l,
  length le = 4 /\ (forall f e, nth_error le f = Some e -> edge_of_facet f e) /\ marks_closed le mark /\ indices_of 3 mark indices /\
  get_tetrahedra indices le = Some l /\ ~ subdivides 3 mark (children_of 3 l).
Proof.
  exists [0; 3; 1; 2], [0; 0; 0; 0; 0; 0; 0; 0; 0; 0]%Z, (fun _ => true), [3; 4; 5; 7].
  split; [reflexivity|]. split; [|split; [now apply closed_check'|split; [now apply indices_check|split; [vm_compute; reflexivity|]]]].
  - intros f e E. apply eof_has. do 4 (destruct f as [|f]; [injection E as <-; reflexivity|]). destruct f; discriminate.
  - intros [_ _ H]. specialize (H (fun i c => if i =? S c then 1%R else 0%R)). cbn in H.
    rewrite Rplus_0_r in H. 
    match type of H with Rabs ?x = Rabs ?y => assert (Ex : (x = / 8 \/ x = - / 8)%R) by (left; field || right; field); assert (Ey : y = 1%R) by ring end.
    rewrite Ey in H. destruct Ex as [Ex|Ex]; rewrite Ex in H; unfold Rabs in H; destruct (Rcase_abs _), (Rcase_abs _); lra.
Qed.
Print Assumptions C53_cyclic_refuted.
