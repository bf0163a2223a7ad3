(** Boundary vertices of all ranks. *)
From Verif Require Import Base BaseProofs Algo AlgoProofs Sort SortSpec World WorldProofs CellTypes DualGraph DualGraphSpec DualRows DualStorage MeshCreate MeshCreateProofs TopoCreate TopoCreateSpec TopoCreateProofs BoundaryVerts BoundarySpec BoundaryProofs BoundaryMain.
From Coq Require Import Relation_Operators.
Open Scope nat_scope.

Section World.
Variables (P : nat) (ts : list cell_type) (own : nat -> nat -> list Z).
Notation T := (length ts).
Notation cell := (nat * (nat * nat))%type.

(** A path that leaves a rank has a step that leaves it. *)
Lemma leaving v (a b : cell) : clos_refl_trans_1n _ (adjacent_at P ts own v) a b -> fst b <> fst a ->
  exists a' b', fst a' = fst a /\ fst b' <> fst a /\ adjacent_at P ts own v a' b'.
Proof.
  induction 1 as [a|a a1 b H Hr IH]; intro N; [congruence|]. destruct (Nat.eq_dec (fst a1) (fst a)) as [E|N1].
  - rewrite E in IH. apply IH. exact N.
  - exists a, a1. auto.
Qed.

Definition on_rank (r : nat) (id : nat * (nat * nat)) : cell * nat := ((r, (fst id, fst (snd id))), snd (snd id)).
Lemma on_rank_inj r : FinFun.Injective (on_rank r).
Proof. intros (t, (k, i)) (t', (k', i')) E. unfold on_rank in E. cbn in E. congruence. Qed.
Lemma on_rank_facet r id vs : r < P -> rank_facet ts (own r) id vs -> cell_facet P ts own (fst (on_rank r id)) (snd (on_rank r id)) vs.
Proof. destruct id as (t, (k, i)). intros Hr H. split; [exact Hr|exact H]. Qed.

(** Facets of the rank with given vertices, in a list *)
Definition fid_verts (r : nat) (id : nat * (nat * nat)) : list Z := fvs (nth (fst id) ts Point) (own r (fst id)) (snd id).
Lemma rank_facet_fid r id vs : rank_facet ts (own r) id vs -> vs = fid_verts r id.
Proof.
  intros (c & E & H). unfold fid_verts. rewrite (nth_error_nth _ _ _ E). destruct id as (t, (k, i)). cbn [fst snd] in *. now apply facet_vertices_fvs.
Qed.
Lemma same_facets r vs : exists l, NoDup l /\ forall id, In id l <-> exists vs', rank_facet ts (own r) id vs' /\ Permutation vs vs'.
Proof.
  set (all := concat (map (fun t => map (pair t) (list_prod (seq 0 (length (own r t) / verts (nth t ts Point))) (seq 0 (length (facets (nth t ts Point)))))) (seq 0 T))).
  exists (filter (fun id => zrow_eqb (isort Z.leb vs) (isort Z.leb (fid_verts r id))) all). split.
  - apply NoDup_filter. apply NoDup_tagged; [apply seq_NoDup|]. intros t _. generalize (length (facets (nth t ts Point))) as m. intro m.
    assert (G : forall b k, NoDup (list_prod (seq b k) (seq 0 m))).
    { intros b k. revert b. induction k as [|k IH]; intro b; [constructor|]. cbn [seq list_prod]. apply ScattererProofs.NoDup_app_intro; [|apply IH|].
      - apply FinFun.Injective_map_NoDup; [intros x y Q; now injection Q|apply seq_NoDup].
      - intros x Hx Hy. apply in_map_iff in Hx as (y & <- & _). apply in_prod_iff in Hy as (Hy & _). apply in_seq in Hy. lia. }
    apply G.
  - intro id. rewrite filter_In, zrow_eqb_eq. split.
    + intros (Hid & E). unfold all in Hid. apply in_concat in Hid as (l & Hl & Hid). apply in_map_iff in Hl as (t & <- & Ht). apply in_seq in Ht. apply in_map_iff in Hid as ((k, i) & <- & Hki). apply in_prod_iff in Hki as (Hk & Hi). apply in_seq in Hk, Hi.
      exists (fid_verts r (t, (k, i))). split.
      * exists (nth t ts Point). cbn [fst snd]. split; [apply nth_error_nth'; lia|]. split; [lia|]. exists (nth i (facets (nth t ts Point)) []). split; [apply nth_error_nth'; lia|reflexivity].
      * transitivity (isort Z.leb vs); [apply isort_perm|]. rewrite E. symmetry. apply isort_perm.
    + intros (vs' & F & Pv). pose proof (rank_facet_fid r id vs' F) as Ev. split; [|rewrite <- Ev; now apply zsort_perm_eq].
      destruct F as (c & E & Hk & fv & Ef & _). destruct id as (t, (k, i)). cbn [fst snd] in *. unfold all. apply in_concat. exists (map (pair t) (list_prod (seq 0 (length (own r t) / verts (nth t ts Point))) (seq 0 (length (facets (nth t ts Point)))))).
      split; [apply in_map_iff; exists t; split; [reflexivity|]; apply in_seq; apply nth_error_bound in E; lia|]. apply in_map, in_prod; apply in_seq; rewrite (nth_error_nth _ _ _ E); [lia|]. apply nth_error_bound in Ef. lia.
Qed.

Hypothesis Hconn : facet_connected P ts own.

Lemma crossing r s v a b : r < P -> r <> s -> fst a = r -> fst b = s -> cell_vertex P ts own a v -> cell_vertex P ts own b v ->
  exists id vs b' j vs', rank_facet ts (own r) id vs /\ In v vs /\ fst b' <> r /\ cell_facet P ts own b' j vs' /\ Permutation vs vs'.
Proof.
  intros Hr N Ea Eb Ha Hb. destruct (leaving v a b (Hconn v a b Ha Hb)) as (a' & b' & E1 & E2 & (i & j & vs & vs' & F & F' & Pv & Hv)); [congruence|].
  destruct F as (_ & F). rewrite E1, Ea in F. exists (fst (snd a'), (snd (snd a'), i)), vs, b', j, vs'. rewrite Ea in E2. auto.
Qed.

Lemma shared_single m r s v a b : facets_shared_by P ts own m -> r < P -> r <> s -> fst a = r -> fst b = s -> cell_vertex P ts own a v -> cell_vertex P ts own b v ->
  exists id vs, rank_facet ts (own r) id vs /\ In v vs /\ fewer_than ts (own r) m vs.
Proof.
  intros Hm Hr N Ea Eb Ha Hb. destruct (crossing r s v a b Hr N Ea Eb Ha Hb) as (id & vs & b' & j & vs' & F & Hv & N' & F' & Pv). exists id, vs. split; [exact F|]. split; [exact Hv|].
  destruct (same_facets r vs) as (l & Nl & Hl). exists l. split; [exact Nl|]. split; [exact Hl|].
  specialize (Hm vs ((b', j) :: map (on_rank r) l)). cbn [length] in Hm. rewrite map_length in Hm. apply Hm.
  - constructor; [|apply FinFun.Injective_map_NoDup; [apply on_rank_inj|exact Nl]]. intro H. apply in_map_iff in H as (x & E & _). unfold on_rank in E. injection E as E _. rewrite <- E in N'. now apply N'.
  - intros c i [E|H]; [injection E as <- <-; eauto|]. apply in_map_iff in H as (x & E & Hx). apply Hl in Hx as (v0 & F0 & P0). exists v0. split; [|exact P0].
    pose proof (on_rank_facet r x v0 Hr F0) as Q. now rewrite E in Q.
Qed.
Lemma two_on_rank r : facets_shared_by P ts own 2 -> r < P -> at_most_two ts (own r).
Proof.
  intros Hm Hr id0 id1 id2 vs0 vs1 vs2 F0 F1 F2 P1 P2.
  assert (D : forall x y : nat * (nat * nat), {x = y} + {x <> y}) by (repeat decide equality).
  destruct (D id0 id1) as [|N1]; [auto|]. destruct (D id0 id2) as [|N2]; [auto|]. destruct (D id1 id2) as [|N3]; [auto|]. exfalso.
  specialize (Hm vs0 (map (on_rank r) [id0; id1; id2])). cbn [length map] in Hm. assert (Q : 3 <= 2); [|lia]. apply Hm.
  - apply (FinFun.Injective_map_NoDup (on_rank_inj r) (l := [id0; id1; id2])). repeat constructor; cbn; intuition congruence.
  - intros c i H. cbn [In] in H. destruct H as [E|[E|[E|[]]]].
    + exists vs0. pose proof (on_rank_facet r id0 vs0 Hr F0) as Q. rewrite E in Q. auto.
    + exists vs1. pose proof (on_rank_facet r id1 vs1 Hr F1) as Q. rewrite E in Q. auto.
    + exists vs2. pose proof (on_rank_facet r id2 vs2 Hr F2) as Q. rewrite E in Q. auto.
Qed.
Lemma shared_several r s v a b : facets_shared_by P ts own 2 -> r < P -> r <> s -> fst a = r -> fst b = s -> cell_vertex P ts own a v -> cell_vertex P ts own b v ->
  exists id vs, rank_facet ts (own r) id vs /\ In v vs /\ only ts (own r) id vs.
Proof.
  intros Hm Hr N Ea Eb Ha Hb. destruct (crossing r s v a b Hr N Ea Eb Ha Hb) as (id & vs & b' & j & vs' & F & Hv & N' & F' & Pv). exists id, vs. split; [exact F|]. split; [exact Hv|].
  intros id' w F1 Pw. assert (D : forall x y : nat * (nat * nat), {x = y} + {x <> y}) by (repeat decide equality). destruct (D id' id) as [|Nd]; [assumption|]. exfalso.
  specialize (Hm vs [(b', j); on_rank r id; on_rank r id']). cbn [length] in Hm. assert (Q : 3 <= 2); [|lia]. apply Hm.
  - assert (G : forall x, (b', j) <> on_rank r x) by (intros x E; unfold on_rank in E; injection E as E _; rewrite E in N'; now apply N').
    constructor; [cbn; intros [E|[E|[]]]; symmetry in E; exact (G _ E)|]. constructor; [cbn; intros [E|[]]; apply on_rank_inj in E; congruence|]. constructor; [intros []|constructor].
  - intros c i [E|[E|[E|[]]]].
    + injection E as <- <-. eauto.
    + exists vs. pose proof (on_rank_facet r id vs Hr F) as Q. rewrite E in Q. auto.
    + exists w. pose proof (on_rank_facet r id' w Hr F1) as Q. rewrite E in Q. auto.
Qed.
End World.

(** ** From boundary vertices to the input of create_topology *)
Section Topology.
Variables (P : nat) (ts : list cell_type) (num_dofs : nat -> nat) (n : nat -> nat -> nat).
Variables (nodes cells original : nat -> nat -> list Z) (owners : nat -> nat -> list nat).
Notation T := (length ts).
Definition own_of (r : nat) : nat -> list Z := owned ts (fun t => n t r) (fun t => cells t r).
Hypothesis Hin : forall r, r < P ->
  cells_input ts num_dofs (fun t => n t r) (fun t => nodes t r) (fun t => cells t r) (fun t => original t r) (fun t => length (owners t r)).
Hypothesis Hdc : distributed_cells P T (nverts ts) n cells original owners.

Lemma nverts_pos t : t < T -> 0 < nverts ts t.
Proof. intro H. unfold nverts. rewrite (nth_error_nth' ts Point H). apply verts_ok. Qed.
Lemma own_nth r t c j : t < T -> r < P -> c < n t r -> j < nverts ts t ->
  nth_error (own_of r t) (c * nverts ts t + j) = nth_error (cells t r) (c * nverts ts t + j).
Proof. intros Ht Hr Hc Hj. unfold own_of, owned. apply nth_error_firstn. nia. Qed.
Lemma own_cells r t : t < T -> r < P -> length (own_of r t) = n t r * nverts ts t /\ length (own_of r t) / nverts ts t = n t r.
Proof.
  intros Ht Hr. assert (L : length (own_of r t) = n t r * nverts ts t).
  { unfold own_of, owned. pose proof (ci_cells _ _ _ _ _ _ _ (Hin r Hr) t Ht) as E1. pose proof (ci_original _ _ _ _ _ _ _ (Hin r Hr) t Ht) as E2. cbv beta in *. rewrite firstn_length, E1, E2. nia. }
  split; [exact L|]. rewrite L. apply Nat.div_mul. pose proof (nverts_pos t Ht). lia.
Qed.
Lemma owned_vertex_cell r v : r < P -> has_owned_vertex T (nverts ts) n cells r v <-> exists a, fst a = r /\ cell_vertex P ts own_of a v.
Proof.
  intro Hr. split.
  - intros (t & c & j & Ht & Hc & Hj & E). exists (r, (t, c)). split; [reflexivity|].
    assert (En : nverts ts t = verts (nth t ts Point)) by (unfold nverts; now rewrite (nth_error_nth' ts Point Ht)). pose proof (own_cells r t Ht Hr) as (L & D). rewrite En in D.
    exists (nth t ts Point), j. split; [split; [exact Hr|]; cbn [fst snd]; split; [now apply nth_error_nth'|lia]|]. rewrite <- En. split; [exact Hj|]. cbn [fst snd]. now rewrite own_nth.
  - intros ((r', (t, k)) & E0 & c & x & (H1 & H2 & H3) & Hx & E). cbn [fst snd] in *. subst r'. pose proof (nth_error_bound _ _ _ H2) as Ht.
    assert (En : nverts ts t = verts c) by (unfold nverts; now rewrite H2). pose proof (own_cells r t Ht Hr) as (L & D). rewrite <- En in *. rewrite D in H3.
    exists t, k, x. split; [exact Ht|]. split; [exact H3|]. split; [exact Hx|]. now rewrite <- own_nth with (r := r).
Qed.

(** Reordered arrays *)
Variables (nodes' cells' original' : nat -> nat -> list Z) (sigma : nat -> nat -> list nat).
Hypothesis Hre : forall t r, t < T -> r < P -> Permutation (sigma t r) (seq 0 (n t r)) /\
  cells_reordered (num_dofs t) (n t r) (sigma t r) (nodes t r) (nodes' t r) /\
  cells_reordered (nverts ts t) (n t r) (sigma t r) (cells t r) (cells' t r) /\
  cells_reordered 1 (n t r) (sigma t r) (original t r) (original' t r).

Lemma len_o t r : t < T -> r < P -> length (original t r) = n t r + length (owners t r) /\ length (original' t r) = length (original t r).
Proof. intros Ht Hr. split; [exact (ci_original _ _ _ _ _ _ _ (Hin r Hr) t Ht)|]. destruct (Hre t r Ht Hr) as (_ & _ & _ & (L & _)). exact L. Qed.
Lemma len_c t r : t < T -> r < P -> length (cells t r) = length (original t r) * nverts ts t /\ length (cells' t r) = length (cells t r).
Proof. intros Ht Hr. split; [exact (ci_cells _ _ _ _ _ _ _ (Hin r Hr) t Ht)|]. destruct (Hre t r Ht Hr) as (_ & _ & (L & _) & _). exact L. Qed.

(** Old position of a new position *)
Definition old (t r p : nat) : nat := if p <? n t r then pos (sigma t r) p else p.
Lemma old_lt t r p : t < T -> r < P -> p < n t r -> old t r p < n t r /\ nth_error (sigma t r) (old t r p) = Some p.
Proof.
  intros Ht Hr Hp. unfold old. destruct (Nat.ltb_spec p (n t r)); [|lia]. destruct (Hre t r Ht Hr) as (Hs & _). split; [eapply pos_lt; eauto|eapply pos_ok; eauto].
Qed.
Lemma old_ge t r p : n t r <= p -> old t r p = p.
Proof. intro H. unfold old. destruct (Nat.ltb_spec p (n t r)); [lia|reflexivity]. Qed.
Lemma old_original t r p : t < T -> r < P -> nth_error (original' t r) p = nth_error (original t r) (old t r p).
Proof.
  intros Ht Hr. destruct (Hre t r Ht Hr) as (_ & _ & _ & (_ & R1 & R2)). destruct (Nat.lt_ge_cases p (n t r)) as [H|H].
  - destruct (old_lt t r p Ht Hr H) as (_ & E). specialize (R1 _ _ 0 E ltac:(lia)). rewrite !Nat.mul_1_r, !Nat.add_0_r in R1. exact R1.
  - rewrite old_ge by exact H. apply R2. lia.
Qed.
Lemma old_cells t r p j : t < T -> r < P -> j < nverts ts t -> nth_error (cells' t r) (p * nverts ts t + j) = nth_error (cells t r) (old t r p * nverts ts t + j).
Proof.
  intros Ht Hr Hj. destruct (Hre t r Ht Hr) as (_ & _ & (_ & R1 & R2) & _). destruct (Nat.lt_ge_cases p (n t r)) as [H|H].
  - destruct (old_lt t r p Ht Hr H) as (_ & E). exact (R1 _ _ j E Hj).
  - rewrite old_ge by exact H. apply R2. nia.
Qed.
Lemma old_inj t r p q : t < T -> r < P -> old t r p = old t r q -> p = q.
Proof.
  intros Ht Hr E. destruct (Nat.lt_ge_cases p (n t r)) as [H|H], (Nat.lt_ge_cases q (n t r)) as [H'|H'].
  - destruct (old_lt t r p Ht Hr H) as (_ & E1). destruct (old_lt t r q Ht Hr H') as (_ & E2). rewrite E in E1. congruence.
  - destruct (old_lt t r p Ht Hr H) as (B & _). rewrite (old_ge t r q H') in E. lia.
  - destruct (old_lt t r q Ht Hr H') as (B & _). rewrite (old_ge t r p H) in E. lia.
  - rewrite !old_ge in E by assumption. exact E.
Qed.
Lemma new_of t r j : t < T -> r < P -> j < n t r -> exists p, p < n t r /\ old t r p = j.
Proof.
  intros Ht Hr Hj. destruct (Hre t r Ht Hr) as (Hs & _). destruct (nth_error_lt (sigma t r) j) as (p & E); [rewrite (Permutation_length Hs), seq_length; exact Hj|].
  exists p. pose proof (remap_lt _ _ Hs j p E) as B. split; [exact B|]. unfold old. destruct (Nat.ltb_spec p (n t r)); [|lia]. eapply pos_remap; eauto.
Qed.

Lemma has_owned_same r v : r < P -> has_owned_vertex T (nverts ts) n cells' r v <-> has_owned_vertex T (nverts ts) n cells r v.
Proof.
  intro Hr. split; intros (t & c & j & Ht & Hc & Hj & E).
  - exists t, (old t r c), j. split; [exact Ht|]. split; [now apply old_lt|]. split; [exact Hj|]. now rewrite <- old_cells.
  - destruct (new_of t r c Ht Hr Hc) as (p & Hp & Ep). exists t, p, j. split; [exact Ht|]. split; [exact Hp|]. split; [exact Hj|]. now rewrite old_cells, Ep.
Qed.
Lemma cells_vertices t r v : t < T -> r < P -> In v (cells' t r) -> In v (cells t r).
Proof.
  intros Ht Hr H. pose proof (nverts_pos t Ht) as V. destruct (len_c t r Ht Hr) as (L1 & L2). apply In_nth_error in H as (i & E). pose proof (nth_error_bound _ _ _ E) as B.
  pose proof (Nat.div_mod i (nverts ts t) ltac:(lia)) as D. pose proof (Nat.mod_upper_bound i (nverts ts t) ltac:(lia)) as M. rewrite D, (Nat.mul_comm (nverts ts t)), old_cells in E by assumption. eapply nth_error_In; eauto.
Qed.

Variable boundary : nat -> list Z.
Hypothesis Hsort : forall r, r < P -> StronglySorted Z.lt (boundary r).
Hypothesis Hown : forall r v, r < P -> In v (boundary r) -> has_owned_vertex T (nverts ts) n cells r v.
Hypothesis Hshared : forall r s v, r < P -> s < P -> r <> s -> has_owned_vertex T (nverts ts) n cells r v -> has_owned_vertex T (nverts ts) n cells s v -> In v (boundary r).

Lemma topology_input_ok : topology_input P T (nverts ts) n cells' original' owners boundary.
Proof.
  constructor.
  - exact nverts_pos.
  - intros t r Ht Hr. destruct (len_o t r Ht Hr) as (L1 & L2). destruct (len_c t r Ht Hr) as (L3 & L4). split; [lia|]. rewrite L4, L3, L2. reflexivity.
  - intros t r v Ht Hr Hv. apply cells_vertices in Hv; [|exact Ht|exact Hr]. apply (ci_vertices _ _ _ _ _ _ _ (Hin r Hr) t v Ht Hv).
  - intros t r Ht Hr. pose proof (dc_once _ _ _ _ _ _ _ Hdc t r Ht Hr) as N. rewrite NoDup_nth_error in *. intros i j Hi E. rewrite !old_original in E by assumption. apply (old_inj t r); [exact Ht|exact Hr|].
    apply N; [|exact E]. destruct (len_o t r Ht Hr) as (L1 & L2). destruct (Nat.lt_ge_cases i (n t r)) as [H|H]; [destruct (old_lt t r i Ht Hr H); lia|rewrite old_ge by exact H; lia].
  - intros t r s c d g Ht Hr Hs Hc Hd E1 E2. rewrite old_original in E1, E2 by assumption. exact (dc_owner _ _ _ _ _ _ _ Hdc t r s _ _ g Ht Hr Hs (proj1 (old_lt t r c Ht Hr Hc)) (proj1 (old_lt t s d Ht Hs Hd)) E1 E2).
  - intros t r k o g Ht Hr Eo Eg. rewrite old_original, old_ge in Eg by (assumption || lia). destruct (dc_ghost _ _ _ _ _ _ _ Hdc t r k o g Ht Hr Eo Eg) as (Bo & No & c & Hc & Ec & Hv).
    split; [exact Bo|]. split; [exact No|]. destruct (new_of t o c Ht Bo Hc) as (p & Hp & Ep). exists p. split; [exact Hp|]. split; [now rewrite old_original, Ep|].
    intros j Hj. rewrite !old_cells, Ep by assumption. rewrite old_ge by lia. now apply Hv.
  - exact Hsort.
  - intros r v Hr Hv. apply has_owned_same; [exact Hr|]. now apply Hown.
  - intros r s v Hr Hs N H1 H2. apply has_owned_same in H1; [|exact Hr]. apply has_owned_same in H2; [|exact Hs]. now apply (Hshared r s).
Qed.
End Topology.

(** ** The whole step of create_mesh *)
Section All.
Variables (P : nat) (ts : list cell_type) (num_dofs : nat -> nat) (n : nat -> nat -> nat).
Variables (nodes cells original : nat -> nat -> list Z) (owners : nat -> nat -> list nat).
Variables (sched : nat -> nat -> nat -> list (nat * frow) -> list (nat * frow)) (tsort : nat -> nat -> list (list Z) -> list nat).
Variables (reorder_fn : nat -> list nat -> list nat -> list nat) (max : option nat) (threads : nat -> nat).
Notation T := (length ts).
Notation own := (own_of ts n cells).
Notation bl r := (blocks_of T (fun t => length (owners t r))).
Hypothesis HT : 0 < T.
Hypothesis Hsched : forall r t j l, r < P -> t < T -> Permutation (sched r t j l) l.
Hypothesis Hts : forall r t, r < P -> t < T -> sorts_facets (tsort r t).
Hypothesis Hre : forall r offsets data, r < P -> Permutation (reorder_fn r offsets data) (seq 0 (length offsets - 1)).
Hypothesis Hth : forall r, r < P -> 0 < threads r.
Hypothesis Hin : forall r, r < P ->
  cells_input ts num_dofs (fun t => n t r) (fun t => nodes t r) (fun t => cells t r) (fun t => original t r) (fun t => length (owners t r)).
Hypothesis Hdc : distributed_cells P T (nverts ts) n cells original owners.
Hypothesis Hconn : facet_connected P ts own.
Hypothesis Hmax : match max with Some m => facets_shared_by P ts own m | None => True end.
Hypothesis Hmany : 2 <= T -> match max with Some m => 2 <= m | None => True end /\ facets_shared_by P ts own 2 /\ (forall r, r < P -> no_part ts (own r)).

Lemma facet_has r id vs v : r < P -> rank_facet ts (own r) id vs -> In v vs -> has_owned_vertex T (nverts ts) n cells r v.
Proof.
  intros Hr (c & E & Hk & fv & Ef & ->) Hv. destruct id as (t, (k, i)). cbn [fst snd] in *. apply in_map_iff in Hv as (x & Ev & Hx). apply nth_error_In in Ef. pose proof (facets_bound c fv x Ef Hx) as Bx.
  pose proof (nth_error_bound _ _ _ E) as Ht. assert (En : nverts ts t = verts c) by (unfold nverts; now rewrite E). pose proof (own_cells P ts num_dofs n nodes cells original owners Hin r t Ht Hr) as (L & D).
  rewrite <- En in *. rewrite D in Hk. exists t, k, x. split; [exact Ht|]. split; [exact Hk|]. split; [exact Bx|]. rewrite <- (own_nth P ts num_dofs n nodes cells original owners Hin r t k x Ht Hr Hk Bx), <- Ev. apply nth_error_nth'. rewrite L. nia.
Qed.

Lemma rank_boundary r : r < P -> exists boundary bs,
  boundary_vertices (sched r) (tsort r) (reorder_fn r) max (threads r) ts num_dofs (bl r (fun t => nodes t r) (fun t => cells t r) (fun t => original t r)) = Some (boundary, bs) /\
  moved_cells ts num_dofs (fun t => n t r) (fun t => nodes t r) (fun t => cells t r) (fun t => original t r) (fun t => length (owners t r)) bs /\
  StronglySorted Z.lt boundary /\
  (forall v, In v boundary -> has_owned_vertex T (nverts ts) n cells r v) /\
  (forall s v, s < P -> r <> s -> has_owned_vertex T (nverts ts) n cells r v -> has_owned_vertex T (nverts ts) n cells s v -> In v boundary).
Proof.
  intro Hr. destruct (Nat.eq_dec T 1) as [T1|N1].
  - destruct (single_ok (sched r) (tsort r) (reorder_fn r) max (threads r) ts num_dofs (fun t => n t r) (fun t => nodes t r) (fun t => cells t r) (fun t => original t r) (fun t => length (owners t r))
      (fun t j l => Hsched r t j l Hr) (fun t => Hts r t Hr) (fun o d => Hre r o d Hr) (Hth r Hr) (Hin r Hr) T1) as (boundary & bs & E & M & S & B).
    exists boundary, bs. split; [exact E|]. split; [exact M|]. split; [exact S|]. split.
    + intros v Hv. apply B in Hv as (id & vs & F & Hv & _). exact (facet_has r id vs v Hr F Hv).
    + intros s v Hs N H1 H2. apply B. apply (owned_vertex_cell P ts num_dofs n nodes cells original owners Hin r v Hr) in H1 as (a & Ea & Ha). apply (owned_vertex_cell P ts num_dofs n nodes cells original owners Hin s v Hs) in H2 as (b & Eb & Hb).
      destruct max as [m|]; [exact (shared_single P ts own Hconn m r s v a b Hmax Hr N Ea Eb Ha Hb)|].
      destruct (crossing P ts own Hconn r s v a b Hr N Ea Eb Ha Hb) as (id & vs & _ & _ & _ & F & Hv & _). exists id, vs. split; [exact F|]. split; [exact Hv|exact I].
  - assert (T2 : 2 <= T) by lia. destruct (Hmany T2) as (Hm2 & H2 & Hp).
    destruct (several_types_ok (sched r) (tsort r) (reorder_fn r) max (threads r) ts num_dofs (fun t => n t r) (fun t => nodes t r) (fun t => cells t r) (fun t => original t r) (fun t => length (owners t r))
      (fun t j l => Hsched r t j l Hr) (fun t => Hts r t Hr) (fun o d => Hre r o d Hr) (Hth r Hr) (Hin r Hr) T2 Hm2 (two_on_rank P ts own r H2 Hr) (Hp r Hr)) as (boundary & bs & E & M & S & B).
    exists boundary, bs. split; [exact E|]. split; [exact M|]. split; [exact S|]. split.
    + intros v Hv. apply B in Hv as (id & vs & F & Hv & _). exact (facet_has r id vs v Hr F Hv).
    + intros s v Hs N H1 H3. apply B. apply (owned_vertex_cell P ts num_dofs n nodes cells original owners Hin r v Hr) in H1 as (a & Ea & Ha). apply (owned_vertex_cell P ts num_dofs n nodes cells original owners Hin s v Hs) in H3 as (b & Eb & Hb).
      exact (shared_several P ts own Hconn r s v a b H2 Hr N Ea Eb Ha Hb).
Qed.

Lemma finite_choice {A} (R : nat -> A -> Prop) (d : A) m : (forall r, r < m -> exists a, R r a) -> exists f, forall r, r < m -> R r (f r).
Proof.
  induction m as [|m IH]; intro H; [exists (fun _ => d); intros; lia|]. destruct IH as (f & Hf); [intros; apply H; lia|]. destruct (H m) as (a & Ha); [lia|].
  exists (fun r => if r =? m then a else f r). intros r Hr. destruct (Nat.eqb_spec r m) as [->|N]; [exact Ha|apply Hf; lia].
Qed.

Lemma boundary_input_ok : exists boundary nodes' cells' original' sigma,
  (forall r, r < P ->
     boundary_vertices (sched r) (tsort r) (reorder_fn r) max (threads r) ts num_dofs (bl r (fun t => nodes t r) (fun t => cells t r) (fun t => original t r)) =
     Some (boundary r, bl r (fun t => nodes' t r) (fun t => cells' t r) (fun t => original' t r))) /\
  (forall t r, t < T -> r < P -> Permutation (sigma t r) (seq 0 (n t r)) /\
     cells_reordered (num_dofs t) (n t r) (sigma t r) (nodes t r) (nodes' t r) /\
     cells_reordered (nverts ts t) (n t r) (sigma t r) (cells t r) (cells' t r) /\
     cells_reordered 1 (n t r) (sigma t r) (original t r) (original' t r)) /\
  topology_input P T (nverts ts) n cells' original' owners boundary.
Proof.
  destruct (finite_choice (fun r (q : list Z * ((nat -> list Z) * (nat -> list Z) * (nat -> list Z) * (nat -> list nat))) =>
     boundary_vertices (sched r) (tsort r) (reorder_fn r) max (threads r) ts num_dofs (bl r (fun t => nodes t r) (fun t => cells t r) (fun t => original t r)) =
       Some (fst q, bl r (fst (fst (fst (snd q)))) (snd (fst (fst (snd q)))) (snd (fst (snd q)))) /\
     (forall t, t < T -> Permutation (snd (snd q) t) (seq 0 (n t r)) /\
       cells_reordered (num_dofs t) (n t r) (snd (snd q) t) (nodes t r) (fst (fst (fst (snd q))) t) /\
       cells_reordered (nverts ts t) (n t r) (snd (snd q) t) (cells t r) (snd (fst (fst (snd q))) t) /\
       cells_reordered 1 (n t r) (snd (snd q) t) (original t r) (snd (fst (snd q)) t)) /\
     StronglySorted Z.lt (fst q) /\
     (forall v, In v (fst q) -> has_owned_vertex T (nverts ts) n cells r v) /\
     (forall s v, s < P -> r <> s -> has_owned_vertex T (nverts ts) n cells r v -> has_owned_vertex T (nverts ts) n cells s v -> In v (fst q)))
     ([], (fun _ => [], fun _ => [], fun _ => [], fun _ => [])) P) as (f & Hf).
  { intros r Hr. destruct (rank_boundary r Hr) as (boundary & bs & E & (nd & cl & og & sg & Eb & M) & S & B1 & B2). exists (boundary, (nd, cl, og, sg)). cbn [fst snd]. rewrite Eb in E. auto. }
  set (nd' := fun t r => fst (fst (fst (snd (f r)))) t). set (cl' := fun t r => snd (fst (fst (snd (f r)))) t). set (og' := fun t r => snd (fst (snd (f r))) t). set (sg := fun t r => snd (snd (f r)) t).
  assert (M : forall t r, t < T -> r < P -> Permutation (sg t r) (seq 0 (n t r)) /\
     cells_reordered (num_dofs t) (n t r) (sg t r) (nodes t r) (nd' t r) /\
     cells_reordered (nverts ts t) (n t r) (sg t r) (cells t r) (cl' t r) /\
     cells_reordered 1 (n t r) (sg t r) (original t r) (og' t r)) by (intros t r Ht Hr; destruct (Hf r Hr) as (_ & M & _); exact (M t Ht)).
  exists (fun r => fst (f r)), nd', cl', og', sg. split; [|split; [exact M|]].
  - intros r Hr. exact (proj1 (Hf r Hr)).
  - apply (topology_input_ok P ts num_dofs n nodes cells original owners Hin Hdc nd' cl' og' sg M).
    + intros r Hr. destruct (Hf r Hr) as (_ & _ & S & _). exact S.
    + intros r v Hr. destruct (Hf r Hr) as (_ & _ & _ & B & _). exact (B v).
    + intros r s v Hr Hs N. destruct (Hf r Hr) as (_ & _ & _ & _ & B). exact (B s v Hs N).
Qed.
End All.

(** create_topology then gets what it needs. *)
Lemma boundary_topology_ok P ts num_dofs n nodes cells original owners sched tsort reorder_fn max threads nbx pcx nbxc nbxv pick :
  0 < P -> 0 < length ts ->
  nbx_oracle P nbx -> nbx_oracle P pcx -> nbx_oracle P nbxc -> nbx_oracle P nbxv -> (forall r i m, 1 < m -> pick r i m < m) ->
  (forall r t j l, r < P -> t < length ts -> Permutation (sched r t j l) l) ->
  (forall r t, r < P -> t < length ts -> sorts_facets (tsort r t)) ->
  (forall r offsets data, r < P -> Permutation (reorder_fn r offsets data) (seq 0 (length offsets - 1))) ->
  (forall r, r < P -> 0 < threads r) ->
  (forall r, r < P -> cells_input ts num_dofs (fun t => n t r) (fun t => nodes t r) (fun t => cells t r) (fun t => original t r) (fun t => length (owners t r))) ->
  (forall t r v, t < length ts -> r < P -> In v (cells t r) -> (v < 2 ^ 31)%Z) ->
  distributed_cells P (length ts) (nverts ts) n cells original owners ->
  facet_connected P ts (own_of ts n cells) ->
  match max with Some m => facets_shared_by P ts (own_of ts n cells) m | None => True end ->
  (2 <= length ts -> match max with Some m => 2 <= m | None => True end /\ facets_shared_by P ts (own_of ts n cells) 2 /\ (forall r, r < P -> no_part ts (own_of ts n cells r))) ->
  exists boundary nodes' cells' original' sigma num vmap cmap conn,
    (forall r, r < P ->
       boundary_vertices (sched r) (tsort r) (reorder_fn r) max (threads r) ts num_dofs
         (blocks_of (length ts) (fun t => length (owners t r)) (fun t => nodes t r) (fun t => cells t r) (fun t => original t r)) =
         Some (boundary r, blocks_of (length ts) (fun t => length (owners t r)) (fun t => nodes' t r) (fun t => cells' t r) (fun t => original' t r)) /\
       create_topology P nbx pcx nbxc nbxv pick threads (length ts) (nverts ts) cells' original' owners boundary r =
         Some (vmap r, map (fun t => (cmap t r, map Some (conn t r))) (seq 0 (length ts)))) /\
    (forall t r, t < length ts -> r < P -> Permutation (sigma t r) (seq 0 (n t r)) /\
       cells_reordered (num_dofs t) (n t r) (sigma t r) (nodes t r) (nodes' t r) /\
       cells_reordered (nverts ts t) (n t r) (sigma t r) (cells t r) (cells' t r) /\
       cells_reordered 1 (n t r) (sigma t r) (original t r) (original' t r)) /\
    topology_result P (length ts) (nverts ts) n cells' original' num vmap cmap conn.
Proof.
  intros HP HT N1 N2 N3 N4 Hpick Hsched Hts Hre Hth Hin H31 Hdc Hconn Hmax Hmany.
  edestruct boundary_input_ok as (boundary & nd & cl & og & sg & E & M & TI); try eassumption.
  edestruct (create_topology_ok P nbx pcx nbxc nbxv pick threads) as (num & vmap & cmap & conn & E2 & R); try eassumption.
  - intros r v Hr Hv. destruct (ti_boundary _ _ _ _ _ _ _ _ TI r v Hr Hv) as (t & c & j & Ht & Hc & Hj & Hn). apply nth_error_In in Hn.
    apply (H31 t r v Ht Hr). exact (cells_vertices P ts num_dofs n nodes cells original owners Hin nd cl og sg M t r v Ht Hr Hn).
  - exists boundary, nd, cl, og, sg, num, vmap, cmap, conn. split; [|split; [exact M|exact R]]. intros r Hr. split; [exact (E r Hr)|exact (E2 r Hr)].
Qed.
