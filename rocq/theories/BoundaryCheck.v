(** Checks that a given mesh meets the hypotheses of C65, for the examples. *)
From Verif Require Import Base BaseProofs Algo AlgoProofs CellTypes DualGraph DualGraphSpec DualRows DualStorage BoundarySpec BoundaryProofs BoundaryMain BoundaryWorld.
From Coq Require Import Relation_Operators.
Open Scope nat_scope.

Section Check.
Variables (P : nat) (ts : list cell_type) (own : nat -> nat -> list Z).
Notation T := (length ts).
Notation cell := (nat * (nat * nat))%type.
Definition ct (a : cell) : cell_type := nth (fst (snd a)) ts Point.
Definition all_cells : list cell :=
  concat (map (fun r => concat (map (fun t => map (fun k => (r, (t, k))) (seq 0 (length (own r t) / verts (nth t ts Point)))) (seq 0 T))) (seq 0 P)).
Definition all_facets : list (cell * nat) := concat (map (fun a => map (pair a) (seq 0 (length (facets (ct a))))) all_cells).
Definition vof (x : cell * nat) : list Z := fvs (ct (fst x)) (own (fst (fst x)) (fst (snd (fst x)))) (snd (snd (fst x)), snd x).
Definition cverts (a : cell) : list Z := map (fun x => nth (snd (snd a) * verts (ct a) + x) (own (fst a) (fst (snd a))) 0%Z) (seq 0 (verts (ct a))).
Definition sameb (x y : cell * nat) : bool := zrow_eqb (isort Z.leb (vof x)) (isort Z.leb (vof y)).

Lemma sameb_ok x y : sameb x y = true <-> Permutation (vof x) (vof y).
Proof.
  unfold sameb. rewrite zrow_eqb_eq. split; [|apply zsort_perm_eq]. intro E. transitivity (isort Z.leb (vof x)); [apply isort_perm|]. rewrite E. symmetry. apply isort_perm.
Qed.
Lemma all_cells_in r t k : In (r, (t, k)) all_cells <-> r < P /\ t < T /\ k < length (own r t) / verts (nth t ts Point).
Proof.
  unfold all_cells. rewrite in_concat. split.
  - intros (l & Hl & H). apply in_map_iff in Hl as (r' & <- & Hr). apply in_concat in H as (l & Hl & H). apply in_map_iff in Hl as (t' & <- & Ht). apply in_map_iff in H as (k' & E & Hk). injection E as -> -> ->.
    apply in_seq in Hr, Ht, Hk. lia.
  - intros (Hr & Ht & Hk). eexists. split; [apply in_map_iff; exists r; split; [reflexivity|apply in_seq; lia]|]. apply in_concat. eexists. split; [apply in_map_iff; exists t; split; [reflexivity|apply in_seq; lia]|].
    apply in_map_iff. exists k. split; [reflexivity|apply in_seq; lia].
Qed.
Lemma cell_facet_in a i vs : cell_facet P ts own a i vs <-> In (a, i) all_facets /\ vs = vof (a, i).
Proof.
  destruct a as (r, (t, k)). unfold all_facets. rewrite in_concat. split.
  - intros (Hr & c & E & F). cbn [fst snd] in *. pose proof (nth_error_bound _ _ _ E) as Ht. pose proof (nth_error_nth _ _ Point E) as Ec. pose proof (facet_vertices_fvs _ _ _ _ _ F) as Ev. destruct F as (Hk & fv & Ef & _).
    split; [|unfold vof, ct; cbn [fst snd]; now rewrite Ec]. exists (map (pair (r, (t, k))) (seq 0 (length (facets (ct (r, (t, k))))))). split.
    + apply (in_map (fun a => map (pair a) (seq 0 (length (facets (ct a)))))). apply all_cells_in. rewrite Ec. auto.
    + apply in_map, in_seq. unfold ct. cbn [fst snd]. rewrite Ec. apply nth_error_bound in Ef. lia.
  - intros ((l & Hl & H) & ->). apply in_map_iff in Hl as (a & <- & Ha). apply in_map_iff in H as (j & E & Hj). injection E as -> ->. apply all_cells_in in Ha as (Hr & Ht & Hk). apply in_seq in Hj. unfold ct in Hj. cbn [fst snd] in Hj.
    split; [exact Hr|]. exists (nth t ts Point). cbn [fst snd]. split; [now apply nth_error_nth'|]. split; [exact Hk|]. exists (nth i (facets (nth t ts Point)) []). split; [apply nth_error_nth'; lia|reflexivity].
Qed.

Lemma check_shared m : forallb (fun x => length (filter (sameb x) all_facets) <=? m) all_facets = true -> facets_shared_by P ts own m.
Proof.
  intros H vs l N Hl. rewrite forallb_forall in H. destruct l as [|(a, i) l']; [cbn; lia|]. destruct (Hl a i (or_introl eq_refl)) as (v0 & F0 & P0). apply cell_facet_in in F0 as (I0 & E0).
  specialize (H _ I0). apply Nat.leb_le in H. etransitivity; [|exact H]. apply NoDup_incl_length; [exact N|]. intros (b, j) Hb. destruct (Hl b j Hb) as (v1 & F1 & P1). apply cell_facet_in in F1 as (I1 & E1).
  apply filter_In. split; [exact I1|]. apply sameb_ok. rewrite <- E0, <- E1. now rewrite <- P0.
Qed.

Definition zmem (v : Z) (l : list Z) : bool := existsb (Z.eqb v) l.
Lemma zmem_ok v l : zmem v l = true <-> In v l.
Proof. unfold zmem. rewrite existsb_exists. split; [intros (x & H & E); apply Z.eqb_eq in E; now subst|intro H; exists v; split; [exact H|apply Z.eqb_refl]]. Qed.
Definition adjb (v : Z) (a b : cell) : bool :=
  existsb (fun x => (fst (fst x) =? fst a) && (fst (snd (fst x)) =? fst (snd a)) && (snd (snd (fst x)) =? snd (snd a)) && zmem v (vof x) &&
     existsb (fun y => (fst (fst y) =? fst b) && (fst (snd (fst y)) =? fst (snd b)) && (snd (snd (fst y)) =? snd (snd b)) && sameb x y) all_facets) all_facets.
Lemma adjb_ok v a b : adjb v a b = true -> adjacent_at P ts own v a b.
Proof.
  intro H. apply existsb_exists in H as (x & Hx & H). rewrite !andb_true_iff in H. destruct H as ((((E1 & E2) & E3) & Hv) & H). apply existsb_exists in H as (y & Hy & H). rewrite !andb_true_iff in H. destruct H as (((F1 & F2) & F3) & S).
  apply Nat.eqb_eq in E1, E2, E3, F1, F2, F3. destruct a as (r, (t, k)), b as (r', (t', k')), x as ((rx, (tx, kx)), i), y as ((ry, (ty, ky)), j). cbn [fst snd] in *. subst.
  exists i, j, (vof ((r, (t, k)), i)), (vof ((r', (t', k')), j)). split; [apply cell_facet_in; auto|]. split; [apply cell_facet_in; auto|]. split; [now apply sameb_ok|now apply zmem_ok].
Qed.

(** Two steps are enough, as a cell is adjacent to itself. *)
Lemma check_connected :
  forallb (fun a => forallb (fun b => forallb (fun v => negb (zmem v (cverts b)) || existsb (fun c => adjb v a c && adjb v c b) all_cells) (cverts a)) all_cells) all_cells = true ->
  facet_connected P ts own.
Proof.
  intros H v a b Ha Hb.
  assert (G : forall a, cell_vertex P ts own a v -> In a all_cells /\ In v (cverts a)).
  { intros (r, (t, k)) (c & x & (H1 & H2 & H3) & Hx & E). cbn [fst snd] in *. pose proof (nth_error_nth _ _ Point H2) as Ec. split.
    - apply all_cells_in. rewrite Ec. apply nth_error_bound in H2. auto.
    - unfold cverts, ct. cbn [fst snd]. rewrite Ec. apply in_map_iff. exists x. split; [now apply nth_error_nth|apply in_seq; lia]. }
  destruct (G a Ha) as (Ia & Va). destruct (G b Hb) as (Ib & Vb). rewrite forallb_forall in H. specialize (H a Ia). rewrite forallb_forall in H. specialize (H b Ib). rewrite forallb_forall in H. specialize (H v Va).
  apply orb_true_iff in H as [H|H]; [rewrite (proj2 (zmem_ok v (cverts b)) Vb) in H; discriminate|]. apply existsb_exists in H as (c & _ & H). apply andb_true_iff in H as (H1 & H2). apply adjb_ok in H1, H2.
  apply (rt1n_trans _ _ a c b H1). apply (rt1n_trans _ _ c b b H2). constructor.
Qed.

Lemma check_no_part r : r < P -> forallb (fun x => forallb (fun y => negb (fst (fst x) =? fst (fst y)) || negb (forallb (fun v => zmem v (vof y)) (vof x)) || (length (vof y) <=? length (vof x))) all_facets) all_facets = true -> no_part ts (own r).
Proof.
  intros Hr H (t, (k, i)) vs (t', (k', i')) vs' F F' Hi. assert (C : cell_facet P ts own (r, (t, k)) i vs) by (split; [exact Hr|exact F]). assert (C' : cell_facet P ts own (r, (t', k')) i' vs') by (split; [exact Hr|exact F']).
  apply cell_facet_in in C as (I0 & E0). apply cell_facet_in in C' as (I1 & E1). rewrite forallb_forall in H. specialize (H _ I0). rewrite forallb_forall in H. specialize (H _ I1). rewrite !orb_true_iff in H. rewrite <- E0, <- E1 in H. cbn [fst snd] in H.
  destruct H as [[H|H]|H]; [rewrite Nat.eqb_refl in H; discriminate| |now apply Nat.leb_le in H]. apply negb_true_iff in H. assert (Q : forallb (fun v => zmem v vs') vs = true); [|congruence].
  apply forallb_forall. intros v Hv. apply zmem_ok, Hi, Hv.
Qed.
End Check.
