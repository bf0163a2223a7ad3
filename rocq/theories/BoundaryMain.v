(** Boundary vertices and reordered cells of one rank. *)
From Verif Require Import Base BaseProofs Algo AlgoProofs Sort SortSpec World CellTypes DualGraph DualGraphSpec DualRows DualStorage MeshCreate MeshCreateProofs BoundaryVerts BoundarySpec BoundaryProofs.
Open Scope nat_scope.

(** ** Reordering *)
Definition crows {A} (w n : nat) (l : list A) : list (list A) := map (fun j => firstn w (skipn (j * w) l)) (seq 0 n).
Lemma crows_len {A} w n (l : list A) : n * w <= length l -> forall r, In r (crows w n l) -> length r = w.
Proof. intros H r Hr. apply in_map_iff in Hr as (j & <- & Hj). apply in_seq in Hj. rewrite firstn_length, skipn_length. nia. Qed.
Lemma crows_nth {A} w n (l : list A) j : j < n -> nth_error (crows w n l) j = Some (firstn w (skipn (j * w) l)).
Proof. intro H. unfold crows. rewrite nth_error_map_some, nth_error_seq by exact H. reflexivity. Qed.
Lemma crows_concat {A} w n (l : list A) : n * w <= length l -> concat (crows w n l) = firstn (n * w) l.
Proof.
  intro H. assert (L : length (concat (crows w n l)) = n * w) by (rewrite (concat_len w _ (crows_len w n l H)); unfold crows; now rewrite map_length, seq_length).
  apply nth_error_ext. intro i. destruct (Nat.lt_ge_cases i (n * w)) as [Hi|Hi].
  - rewrite nth_error_firstn by exact Hi. assert (w <> 0) by nia. pose proof (Nat.div_mod i w ltac:(lia)) as D. pose proof (Nat.mod_upper_bound i w ltac:(lia)) as B.
    assert (Hq : i / w < n) by (apply Nat.div_lt_upper_bound; lia). rewrite D at 1. rewrite (Nat.mul_comm w).
    rewrite (row_nth w _ _ _ _ (crows_len w n l H) (crows_nth w n l _ Hq) B), nth_error_firstn, nth_error_skipn by exact B. f_equal. lia.
  - transitivity (@None A); [|symmetry]; apply nth_error_None; [lia|rewrite firstn_length; lia].
Qed.
Lemma moved_at {A} remap n (d : A) l j p : Permutation remap (seq 0 n) -> length l = n -> nth_error remap j = Some p -> nth_error (moved remap n d l) p = nth_error l j.
Proof. intros Hp Hl E. exact (proj2 (moved_ok remap n Hp d l Hl) j p E). Qed.

Section Reordered.
Variables (n : nat) (sigma : list nat).
Hypothesis Hs : Permutation sigma (seq 0 n).
Lemma sigma_lt j p : nth_error sigma j = Some p -> p < n /\ j < n.
Proof. intro E. split; [eapply remap_lt; eauto|]. apply nth_error_bound in E. now rewrite (Permutation_length Hs), seq_length in E. Qed.

Lemma reorder_cells_spec w l : n * w <= length l -> exists l', reorder_cells w l sigma = Some l' /\ cells_reordered w n sigma l l'.
Proof.
  intro H. set (rows := crows w n l). set (gh := skipn (n * w) l).
  assert (E : l = concat rows ++ gh) by (unfold rows, gh; rewrite crows_concat by exact H; symmetry; apply firstn_skipn).
  assert (Lr : length rows = n) by (unfold rows, crows; now rewrite map_length, seq_length).
  assert (Hr : forall r, In r rows -> length r = w) by (apply crows_len; exact H).
  assert (Hm : forall r, In r (moved sigma n [] rows) -> length r = w) by (intros r Hi; apply Hr; eapply moved_in; eauto).
  assert (Lc : length (concat rows) = n * w) by (rewrite (concat_len w rows Hr), Lr; reflexivity).
  assert (Lm : length (concat (moved sigma n [] rows)) = n * w) by (rewrite (concat_len w _ Hm), moved_len; reflexivity).
  exists (concat (moved sigma n [] rows) ++ gh). split; [rewrite E; now apply (reorder_cells_ok sigma n)|].
  split; [rewrite E, !app_length; lia|]. split.
  - intros j p x Ej Hx. destruct (sigma_lt j p Ej) as (Bp & Bj). assert (Qj : j * w + x < n * w) by nia. assert (Qp : p * w + x < n * w) by nia.
    rewrite E, !nth_error_app1 by lia. pose proof (crows_nth w n l j Bj) as Ej'. fold rows in Ej'. rewrite (row_nth w rows j _ x Hr Ej' Hx).
    apply row_nth; [exact Hm| |exact Hx]. rewrite (moved_at sigma n [] rows j p Hs Lr Ej). exact Ej'.
  - intros y Hy. rewrite E at 1. rewrite !nth_error_app2 by lia. now rewrite Lm, Lc.
Qed.
Lemma reorder_original_spec l g : length l = n + g -> exists l', reorder_original g l sigma = Some l' /\ cells_reordered 1 n sigma l l'.
Proof.
  intro H. set (a := firstn n l). set (gh := skipn n l). assert (E : l = a ++ gh) by (symmetry; apply firstn_skipn).
  assert (La : length a = n) by (unfold a; rewrite firstn_length; lia). assert (Lg : length gh = g) by (unfold gh; rewrite skipn_length; lia).
  exists (moved sigma n 0%Z a ++ gh). split; [rewrite E, <- Lg; now apply reorder_original_ok|]. assert (Lm : length (moved sigma n 0%Z a) = n) by apply moved_len.
  split; [rewrite E, !app_length; lia|]. split.
  - intros j p x Ej Hx. assert (x = 0) by lia. subst x. rewrite !Nat.mul_1_r, !Nat.add_0_r. destruct (sigma_lt j p Ej) as (Bp & Bj). rewrite E, !nth_error_app1 by lia. now apply moved_at.
  - intros y Hy. rewrite E at 1. rewrite !nth_error_app2 by lia. now rewrite Lm, La.
Qed.
End Reordered.

(** ** One rank *)
Section Rank.
Variables (sched : nat -> nat -> list (nat * frow) -> list (nat * frow)) (tsort : nat -> list (list Z) -> list nat).
Variables (reorder_fn : list nat -> list nat -> list nat) (max : option nat) (threads : nat).
Variables (ts : list cell_type) (num_dofs n : nat -> nat) (nodes cells original : nat -> list Z) (ghosts : nat -> nat).
Hypothesis Hsched : forall t j l, t < length ts -> Permutation (sched t j l) l.
Hypothesis Hts : forall t, t < length ts -> sorts_facets (tsort t).
Hypothesis Hre : forall offsets data, Permutation (reorder_fn offsets data) (seq 0 (length offsets - 1)).
Hypothesis Hth : 0 < threads.
Hypothesis Hin : cells_input ts num_dofs n nodes cells original ghosts.
Notation own := (owned ts n cells).
Notation T := (length ts).

Notation bof := (blocks_of T ghosts).
Lemma blocks_nth t : t < T -> nth_error (bof nodes cells original) t = Some (mkBlock (nodes t) (cells t) (original t) (ghosts t)).
Proof. intro H. unfold blocks_of. rewrite nth_error_map_some, nth_error_seq by exact H. reflexivity. Qed.

Definition ctype (t : nat) : cell_type := nth t ts Point.
Lemma ctype_ok t : t < T -> nth_error ts t = Some (ctype t) /\ 0 < cell_dim (ctype t) /\ nverts ts t = verts (ctype t).
Proof.
  intro H. assert (E : nth_error ts t = Some (ctype t)) by (now apply nth_error_nth'). split; [exact E|]. split; [|unfold nverts; now rewrite E].
  apply (ci_dim _ _ _ _ _ _ _ Hin). eapply nth_error_In; eauto.
Qed.
Lemma owned_len t : t < T -> length (own t) = n t * verts (ctype t) /\ length (own t) / verts (ctype t) = n t.
Proof.
  intro H. destruct (ctype_ok t H) as (_ & _ & E). pose proof (proj2 (verts_ok (ctype t))) as V.
  assert (L : length (own t) = n t * verts (ctype t)).
  { unfold owned. rewrite firstn_length, (ci_cells _ _ _ _ _ _ _ Hin t H), (ci_original _ _ _ _ _ _ _ Hin t H), E. nia. }
  split; [exact L|]. rewrite L. apply Nat.div_mul. lia.
Qed.
Lemma owned_bound t : t < T -> Forall (fun v => (0 <= v < 2 ^ 63 - 1)%Z) (own t).
Proof.
  intro H. apply Forall_forall. intros v Hv. apply (ci_vertices _ _ _ _ _ _ _ Hin t v H). rewrite <- (firstn_skipn (n t * nverts ts t) (cells t)). apply in_or_app. now left.
Qed.

(** Facets of a rank as a function *)
Notation V id := (fvs (ctype (fst id)) (own (fst id)) (snd id)).
Lemma rank_facet_V id vs : rank_facet ts own id vs -> fst id < T /\ vs = V id /\ facet_vertices (ctype (fst id)) (own (fst id)) (fst (snd id)) (snd (snd id)) vs.
Proof.
  intros (c & E & H). pose proof (nth_error_bound _ _ _ E) as B. destruct (ctype_ok _ B) as (E' & _). rewrite E in E'. injection E' as ->.
  split; [exact B|]. split; [|exact H]. destruct id as (t & k & i). cbn [fst snd] in *. now apply facet_vertices_fvs.
Qed.
Lemma V_rank_facet t k i vs : t < T -> facet_vertices (ctype t) (own t) k i vs -> rank_facet ts own (t, (k, i)) vs.
Proof. intros B H. exists (ctype t). cbn [fst snd]. split; [exact (proj1 (ctype_ok t B))|exact H]. Qed.

(** One block *)
Lemma nfacets_ok t : t < T -> nfacets ts t = length (facets (ctype t)).
Proof. intro H. unfold nfacets. now rewrite (proj1 (ctype_ok t H)). Qed.
Lemma lsum_ge l x : In x l -> x <= lsum l.
Proof. unfold lsum. induction l as [|y l IH]; [intros []|]. cbn [fold_right]. intros [->|H]; [lia|]. specialize (IH H). lia. Qed.
Lemma block_size t : t < T -> n t * length (facets (ctype t)) <= owned_facets ts n.
Proof. intro H. rewrite <- nfacets_ok by exact H. apply lsum_ge. apply (in_map (fun t => n t * nfacets ts t)), in_seq. lia. Qed.

Record block_result (t : nat) (rows : list (list Z)) (w : nat) (b' : block) (sigma : list nat) (ids : list (nat * nat)) : Prop := {
  br_sigma : Permutation sigma (seq 0 (n t));
  br_ghosts : b_ghosts b' = ghosts t;
  br_nodes : cells_reordered (num_dofs t) (n t) sigma (nodes t) (b_cells b');
  br_cells : cells_reordered (nverts ts t) (n t) sigma (cells t) (b_verts b');
  br_original : cells_reordered 1 (n t) sigma (original t) (b_original b');
  br_NoDup : NoDup ids;
  br_ids : forall k i, In (k, i) ids <-> exists vs, facet_vertices (ctype t) (own t) k i vs /\ few_in (ctype t) (own t) max vs;
  br_width : forall id, In id ids -> length (fvs (ctype t) (own t) id) <= w;
  br_rows : rows = map (fun id => fkey w (fvs (ctype t) (own t) id)) ids }.

Lemma block_ok t : t < T -> exists rows w b' sigma ids,
  boundary_block sched tsort reorder_fn max threads t (ctype t) (num_dofs t) (mkBlock (nodes t) (cells t) (original t) (ghosts t)) = Some ((rows, w), b') /\
  block_result t rows w b' sigma ids.
Proof.
  intro H. destruct (ctype_ok t H) as (Et & Hd & Ev). destruct (owned_len t H) as (Lo & Do). pose proof (proj2 (verts_ok (ctype t))) as Vp.
  pose proof (ci_cells _ _ _ _ _ _ _ Hin t H) as Lc. pose proof (ci_original _ _ _ _ _ _ _ Hin t H) as Lor. pose proof (ci_nodes _ _ _ _ _ _ _ Hin t H) as Ln. rewrite Ev in Lc.
  destruct (block_facets (ctype t) (own t) Hd (owned_bound t H) (sched t) (tsort t) max threads) as (ld & ids & Eld & Loff & Nd & Hids & Hw & Erows).
  { intros j l. now apply Hsched. } { now apply Hts. } { exact Hth. }
  { rewrite Do. pose proof (block_size t H) as B. pose proof (ci_size _ _ _ _ _ _ _ Hin) as S. clear - B S. lia. }
  unfold boundary_block. rewrite (proj1 (verts_ok (ctype t))). cbn [obind b_verts b_ghosts b_original b_cells].
  assert (Dv : length (cells t) / verts (ctype t) = n t + ghosts t) by (rewrite Lc, Lor; apply Nat.div_mul; lia). rewrite Dv.
  destruct (Nat.ltb_spec (n t + ghosts t) (ghosts t)) as [|_]; [lia|]. replace (n t + ghosts t - ghosts t) with (n t) by lia.
  assert (Es : slice (cells t) 0 (n t * verts (ctype t)) = Some (own t)).
  { apply slice_some. rewrite Lc, Lor. split; [lia|]. split; [nia|]. cbn [skipn]. rewrite Nat.sub_0_r. unfold owned. now rewrite Ev. }
  rewrite Es. cbn [obind]. rewrite Eld. cbn [obind]. rewrite Do in Loff.
  set (sigma := reorder_fn (ld_offsets ld) (ld_data ld)).
  assert (Hsg : Permutation sigma (seq 0 (n t))) by (pose proof (Hre (ld_offsets ld) (ld_data ld)) as Q; rewrite Loff in Q; replace (S (n t) - 1) with (n t) in Q by lia; exact Q).
  destruct (reorder_original_spec (n t) sigma Hsg (original t) (ghosts t) Lor) as (o' & Eo & Ro). rewrite Eo. cbn [obind].
  destruct (reorder_cells_spec (n t) sigma Hsg (verts (ctype t)) (cells t)) as (c' & Ec & Rc); [nia|]. rewrite Ec. cbn [obind].
  destruct (reorder_cells_spec (n t) sigma Hsg (num_dofs t) (nodes t)) as (m' & Em & Rm); [nia|]. rewrite Em. cbn [obind].
  eexists _, _, _, sigma, ids. split; [reflexivity|]. constructor; cbn [b_cells b_verts b_original b_ghosts]; auto. now rewrite Ev.
Qed.

Lemma blocks_ok : exists rows w b' sigma ids,
  omap (fun i => t <- nth_error ts i ;; b <- nth_error (bof nodes cells original) i ;; boundary_block sched tsort reorder_fn max threads i t (num_dofs i) b) (seq 0 T) =
    Some (map (fun t => ((rows t, w t), b' t)) (seq 0 T)) /\
  forall t, t < T -> block_result t (rows t) (w t) (b' t) (sigma t) (ids t).
Proof.
  assert (C : forall t, exists q : list (list Z) * nat * block * list nat * list (nat * nat), t < T ->
    boundary_block sched tsort reorder_fn max threads t (ctype t) (num_dofs t) (mkBlock (nodes t) (cells t) (original t) (ghosts t)) = Some (fst (fst (fst (fst q))), snd (fst (fst (fst q))), snd (fst (fst q))) /\
    block_result t (fst (fst (fst (fst q)))) (snd (fst (fst (fst q)))) (snd (fst (fst q))) (snd (fst q)) (snd q)).
  { intro t. destruct (Nat.lt_ge_cases t T) as [H|H].
    - destruct (block_ok t H) as (rows & w & b' & sigma & ids & E & R). exists (rows, w, b', sigma, ids). intros _. cbn [fst snd]. auto.
    - exists ([], 0, mkBlock [] [] [] 0, [], []). intro. lia. }
  assert (D : exists f : nat -> list (list Z) * nat * block * list nat * list (nat * nat), forall t, t < T ->
    boundary_block sched tsort reorder_fn max threads t (ctype t) (num_dofs t) (mkBlock (nodes t) (cells t) (original t) (ghosts t)) = Some (fst (fst (fst (fst (f t)))), snd (fst (fst (fst (f t)))), snd (fst (fst (f t)))) /\
    block_result t (fst (fst (fst (fst (f t))))) (snd (fst (fst (fst (f t))))) (snd (fst (fst (f t)))) (snd (fst (f t))) (snd (f t))).
  { clear - C. assert (G : forall m, m <= T -> exists f : nat -> list (list Z) * nat * block * list nat * list (nat * nat), forall t, t < m ->
      boundary_block sched tsort reorder_fn max threads t (ctype t) (num_dofs t) (mkBlock (nodes t) (cells t) (original t) (ghosts t)) = Some (fst (fst (fst (fst (f t)))), snd (fst (fst (fst (f t)))), snd (fst (fst (f t)))) /\
      block_result t (fst (fst (fst (fst (f t))))) (snd (fst (fst (fst (f t))))) (snd (fst (fst (f t)))) (snd (fst (f t))) (snd (f t))).
    { induction m as [|m IH]; intro Hm; [exists (fun _ => ([], 0, mkBlock [] [] [] 0, [], [])); intros; lia|]. destruct IH as (f & Hf); [lia|]. destruct (C m) as (q & Hq).
      exists (fun t => if t =? m then q else f t). intros t Ht. destruct (Nat.eqb_spec t m) as [->|N]; [apply Hq; lia|apply Hf; lia]. }
    now apply G. }
  destruct D as (f & Hf). exists (fun t => fst (fst (fst (fst (f t))))), (fun t => snd (fst (fst (fst (f t))))), (fun t => snd (fst (fst (f t)))), (fun t => snd (fst (f t))), (fun t => snd (f t)).
  split; [|intros t Ht; exact (proj2 (Hf t Ht))]. apply omap_map. intros t Ht. apply in_seq in Ht. rewrite (proj1 (ctype_ok t ltac:(lia))). cbn [obind]. rewrite blocks_nth by lia. cbn [obind]. exact (proj1 (Hf t ltac:(lia))).
Qed.

Lemma several_eq (fs : list (list (list Z) * nat)) facets0 W : fs <> [] -> W = fold_right Nat.max 0 (map snd fs) ->
  concat (map (fun f : list (list Z) * nat => map (fun row => row ++ repeat (-1)%Z (W - snd f)) (fst f)) fs) = facets0 ->
  boundary_several fs =
    (perm <- sort_by_perm_cols 64 16 (map (fun j => map (fun row => nth j row 0%Z) facets0) (seq 0 W)) ;;
     rows <- omap (nth_error facets0) perm ;; groups <- group_by (length rows) same_facet rows ;;
     vertices <- omap group_vertices groups ;; Some (nodes1 (concat vertices))).
Proof. intros N -> <-. destruct fs; [congruence|reflexivity]. Qed.

(** What happens to the cells *)
Definition moved_cells (bs : list block) : Prop :=
  exists nodes' cells' original' sigma, bs = bof nodes' cells' original' /\
    forall t, t < T -> Permutation (sigma t) (seq 0 (n t)) /\
      cells_reordered (num_dofs t) (n t) (sigma t) (nodes t) (nodes' t) /\
      cells_reordered (nverts ts t) (n t) (sigma t) (cells t) (cells' t) /\
      cells_reordered 1 (n t) (sigma t) (original t) (original' t).
Lemma moved_blocks rows w b' sigma ids : (forall t, t < T -> block_result t (rows t) (w t) (b' t) (sigma t) (ids t)) -> moved_cells (map b' (seq 0 T)).
Proof.
  intro H. exists (fun t => b_cells (b' t)), (fun t => b_verts (b' t)), (fun t => b_original (b' t)), sigma. split.
  - apply map_ext_in. intros t Ht. apply in_seq in Ht. destruct (H t ltac:(lia)) as [_ G _ _ _ _ _ _ _]. destruct (b' t) as [a b c g]. cbn in *. now rewrite G.
  - intros t Ht. destruct (H t Ht) as [G1 G2 G3 G4 G5 _ _ _ _]. auto.
Qed.

Lemma facet_info t k i vs : t < T -> facet_vertices (ctype t) (own t) k i vs -> vs <> [] /\ Forall (fun v => (0 <= v < 2 ^ 63 - 1)%Z) vs.
Proof. intros H F. destruct (fvs_ok (ctype t) (own t) (proj1 (proj2 (ctype_ok t H))) (owned_bound t H) k i vs F) as (F1 & F2 & _). auto. Qed.

Lemma single_ok : T = 1 -> exists boundary bs,
  boundary_vertices sched tsort reorder_fn max threads ts num_dofs (bof nodes cells original) = Some (boundary, bs) /\
  moved_cells bs /\ StronglySorted Z.lt boundary /\
  forall v, In v boundary <-> exists id vs, rank_facet ts own id vs /\ In v vs /\ match max with None => True | Some m => fewer_than ts own m vs end.
Proof.
  intro T1. destruct blocks_ok as (rows & w & b' & sigma & ids & E & R). assert (T0 : 0 < T) by lia. pose proof (R 0 T0) as R0.
  unfold boundary_vertices. rewrite E. cbn [obind]. rewrite !map_map. cbn [fst snd]. rewrite map_length, seq_length, T1. cbn [Nat.eqb obind seq map fst snd concat]. rewrite app_nil_r.
  destruct R0 as [_ _ _ _ _ _ Hids Hw Er]. rewrite Er.
  destruct (boundary_single_ok (fun id => fvs (ctype 0) (own 0) id) (ids 0) (w 0)) as (S & M).
  { intros (k, i) Hid. apply Hids in Hid as (vs & F & _). rewrite <- (facet_vertices_fvs _ _ _ _ _ F). destruct (facet_info 0 k i vs T0 F) as (_ & F2). eapply Forall_impl; [|exact F2]. cbv beta. intros. lia. }
  eexists _, _. split; [reflexivity|]. split; [pose proof (moved_blocks rows w b' sigma ids R) as Q; rewrite T1 in Q; exact Q|]. split; [exact S|].
  assert (Hr : forall t k i vs, rank_facet ts own (t, (k, i)) vs <-> t = 0 /\ facet_vertices (ctype 0) (own 0) k i vs).
  { intros t k i vs. split.
    - intro H. apply rank_facet_V in H as (B & _ & H). cbn [fst snd] in *. assert (t = 0) by lia. subst t. auto.
    - intros (-> & H). now apply V_rank_facet. }
  assert (Hf : forall vs, few_in (ctype 0) (own 0) max vs <-> match max with None => True | Some m => fewer_than ts own m vs end).
  { intro vs. unfold few_in. destruct max as [m|]; [|tauto]. split.
    - intros (l & N & Hl & L). exists (map (pair 0) l). split; [apply FinFun.Injective_map_NoDup; [intros x y Q; now injection Q|exact N]|]. split; [|now rewrite map_length].
      intros (t, (k, i)). rewrite in_map_iff. split.
      + intros ((k', i') & Q & H). injection Q as <- <- <-. apply Hl in H as (vs' & H1 & H2). exists vs'. split; [apply Hr; auto|exact H2].
      + intros (vs' & H1 & H2). apply Hr in H1 as (-> & H1). exists (k, i). split; [reflexivity|]. apply Hl. eauto.
    - intros (l & N & Hl & L). exists (map snd l). split; [|split; [|now rewrite map_length]].
      + assert (Z0 : forall x, In x l -> fst x = 0) by (intros (t, (k, i)) Hx; apply Hl in Hx as (vs' & H1 & _); apply Hr in H1 as (-> & _); reflexivity).
        clear - N Z0. induction N as [|x l Hx N IH]; cbn [map]; constructor; [|apply IH; intros; apply Z0; now right]. intro H. apply in_map_iff in H as (y & Q & Hy). apply Hx.
        replace x with y; [exact Hy|]. pose proof (Z0 x (or_introl eq_refl)). pose proof (Z0 y (or_intror Hy)). destruct x, y; cbn in *; congruence.
      + intros k i. rewrite in_map_iff. split.
        * intros ((t, ki) & Q & H). cbn in Q. subst ki. apply Hl in H as (vs' & H1 & H2). apply Hr in H1 as (_ & H1). eauto.
        * intros (vs' & H1 & H2). exists (0, (k, i)). split; [reflexivity|]. apply Hl. exists vs'. split; [apply Hr; auto|exact H2]. }
  intro v. rewrite M. split.
  - intros ((k, i) & Hid & Hv). apply Hids in Hid as (vs & F & Fw). rewrite <- (facet_vertices_fvs _ _ _ _ _ F) in Hv. exists (0, (k, i)), vs. split; [apply Hr; auto|]. split; [exact Hv|now apply Hf].
  - intros ((t, (k, i)) & vs & F & Hv & Fw). apply Hr in F as (-> & F). exists (k, i). split; [apply Hids; exists vs; split; [exact F|now apply Hf]|]. now rewrite <- (facet_vertices_fvs _ _ _ _ _ F).
Qed.

Lemma NoDup_tagged (ids : nat -> list (nat * nat)) l : NoDup l -> (forall t, In t l -> NoDup (ids t)) -> NoDup (concat (map (fun t => map (pair t) (ids t)) l)).
Proof.
  intros Nl Hi. apply DualLocal.NoDup_concat_i; [exact Nl| |].
  - intros t Ht. apply FinFun.Injective_map_NoDup; [intros x y Q; now injection Q|auto].
  - intros x y z _ _ H1 H2. apply in_map_iff in H1 as (a & <- & _). apply in_map_iff in H2 as (b & Q & _). now injection Q.
Qed.
Lemma max_le l m : (forall x, In x l -> x <= m) -> fold_right Nat.max 0 l <= m.
Proof. induction l as [|x l IH]; intro H; cbn; [lia|]. specialize (IH (fun y Hy => H y (or_intror Hy))). specialize (H x (or_introl eq_refl)). lia. Qed.

Lemma several_types_ok : 2 <= T -> match max with None => True | Some m => 2 <= m end -> at_most_two ts own -> no_part ts own -> exists boundary bs,
  boundary_vertices sched tsort reorder_fn max threads ts num_dofs (bof nodes cells original) = Some (boundary, bs) /\
  moved_cells bs /\ StronglySorted Z.lt boundary /\
  forall v, In v boundary <-> exists id vs, rank_facet ts own id vs /\ In v vs /\ only ts own id vs.
Proof.
  intros T2 Hmax Htwo Hpart. destruct blocks_ok as (rows & w & b' & sigma & ids & E & R).
  unfold boundary_vertices. rewrite E. cbn [obind]. rewrite !map_map. cbn [fst snd]. rewrite map_length, seq_length.
  destruct (Nat.eqb_spec T 1) as [|_]; [lia|]. set (fs := map (fun t => (rows t, w t)) (seq 0 T)).
  set (W := fold_right Nat.max 0 (map snd fs)).
  assert (HW : forall t, t < T -> w t <= W).
  { intros t Ht. apply DualLocalGraph.max_ge. unfold fs. rewrite map_map. cbn [snd]. apply (in_map (fun t => w t)), in_seq. lia. }
  set (all := concat (map (fun t => map (pair t) (ids t)) (seq 0 T))).
  assert (Hall : forall t k i, In (t, (k, i)) all <-> t < T /\ exists vs, facet_vertices (ctype t) (own t) k i vs /\ few_in (ctype t) (own t) max vs).
  { intros t k i. unfold all. rewrite in_concat. split.
    - intros (l & Hl & H). apply in_map_iff in Hl as (t' & <- & Ht). apply in_seq in Ht. apply in_map_iff in H as (x & Q & Hx). injection Q as -> ->. split; [lia|]. now apply (br_ids _ _ _ _ _ _ (R t ltac:(lia))).
    - intros (Ht & H). exists (map (pair t) (ids t)). split; [apply (in_map (fun t => map (pair t) (ids t))), in_seq; lia|]. apply in_map, (br_ids _ _ _ _ _ _ (R t Ht)), H. }
  assert (Hfac : concat (map (fun f : list (list Z) * nat => map (fun row => row ++ repeat (-1)%Z (W - snd f)) (fst f)) fs) = map (srow (fun id => V id) W) all).
  { unfold all, fs. rewrite map_map, concat_map, map_map. f_equal. apply map_ext_in. intros t Ht. apply in_seq in Ht. cbn [fst snd]. pose proof (R t ltac:(lia)) as Rt. rewrite (br_rows _ _ _ _ _ _ Rt), !map_map.
    apply map_ext_in. intros id Hid. pose proof (br_width _ _ _ _ _ _ Rt id Hid) as Bw. unfold srow. cbn [fst snd]. pose proof (HW t ltac:(lia)).
    assert (Lf : length (fkey (w t) (fvs (ctype t) (own t) id)) = w t) by (now apply fkey_length). transitivity (pad W (fkey (w t) (fvs (ctype t) (own t) id))); [unfold pad; now rewrite Lf|].
    unfold fkey. apply pad_pad; [now rewrite isort_length|exact H]. }
  assert (Hf : forall t k i, In (t, (k, i)) all -> exists vs, rank_facet ts own (t, (k, i)) vs /\ vs = V (t, (k, i)) /\ few_in (ctype t) (own t) max vs).
  { intros t k i H. apply Hall in H as (Ht & vs & F & Fw). exists vs. split; [now apply V_rank_facet|]. split; [cbn [fst snd]; now apply facet_vertices_fvs|exact Fw]. }
  assert (Hnd : NoDup all) by (apply NoDup_tagged; [apply seq_NoDup|intros t Ht; apply in_seq in Ht; exact (br_NoDup _ _ _ _ _ _ (R t ltac:(lia)))]).
  destruct (several_ok (fun id => V id) all W (tsort 0)) as (perm & srt & groups & vertices & E1 & E2 & E3 & E4 & M).
  { apply Hts. lia. }
  { exact Hnd. }
  { intros (t, (k, i)) H. pose proof H as H0. apply Hall in H as (Ht & vs & F & _). cbn [fst snd]. rewrite <- (facet_vertices_fvs _ _ _ _ _ F). destruct (facet_info t k i vs Ht F) as (F1 & F2). split; [exact F1|]. split; [exact F2|].
    etransitivity; [|exact (HW t Ht)]. rewrite (facet_vertices_fvs _ _ _ _ _ F). apply (br_width _ _ _ _ _ _ (R t Ht)). apply Hall in H0 as (_ & H0). now apply (br_ids _ _ _ _ _ _ (R t Ht)). }
  { intros (t, (k, i)) (t', (k', i')) H H' Hi. destruct (Hf _ _ _ H) as (vs & F & Ev & _). destruct (Hf _ _ _ H') as (vs' & F' & Ev' & _). rewrite <- Ev, <- Ev' in *. exact (Hpart _ _ _ _ F F' Hi). }
  { intros (t, (k, i)) (t', (k', i')) (t'', (k'', i'')) H H' H'' P1 P2. destruct (Hf _ _ _ H) as (vs & F & Ev & _). destruct (Hf _ _ _ H') as (vs' & F' & Ev' & _). destruct (Hf _ _ _ H'') as (vs'' & F'' & Ev'' & _).
    rewrite <- Ev, <- Ev' in P1. rewrite <- Ev, <- Ev'' in P2. exact (Htwo _ _ _ _ _ _ F F' F'' P1 P2). }
  { pose proof (ci_size _ _ _ _ _ _ _ Hin) as S. assert (L : length all <= owned_facets ts n); [|clear - L S; lia].
    unfold all, owned_facets. rewrite <- lsum_concat_length, map_map. assert (G : forall l, (forall t, In t l -> t < T) -> lsum (map (fun t => length (map (pair t) (ids t))) l) <= lsum (map (fun t => n t * nfacets ts t) l)).
    { induction l as [|t l IH]; intro Hl; [apply le_n|]. cbn [map]. unfold lsum in *. cbn [fold_right]. specialize (IH (fun y Hy => Hl y (or_intror Hy))). rewrite map_length.
      pose proof (Hl t (or_introl eq_refl)) as Ht. pose proof (R t Ht) as Rt. assert (length (ids t) <= n t * nfacets ts t); [|lia]. rewrite nfacets_ok by exact Ht.
      rewrite <- (seq_length (n t) 0), <- (seq_length (length (facets (ctype t))) 0), <- prod_length. apply NoDup_incl_length; [exact (br_NoDup _ _ _ _ _ _ Rt)|].
      intros (k, i) Hk. apply (br_ids _ _ _ _ _ _ Rt) in Hk as (vs & (Hk & fv & Ef & _) & _). rewrite (proj2 (owned_len t Ht)) in Hk. apply nth_error_bound in Ef. apply in_prod; apply in_seq; lia. }
    apply G. intros t Ht. apply in_seq in Ht. lia. }
  assert (Ns : fs <> []) by (unfold fs; destruct T; [lia|discriminate]). rewrite (several_eq fs _ W Ns eq_refl Hfac).
  rewrite E1. cbn [obind]. rewrite E2. cbn [obind]. rewrite E3. cbn [obind]. rewrite E4. cbn [obind].
  eexists _, _. split; [reflexivity|]. split; [exact (moved_blocks rows w b' sigma ids R)|]. split; [apply nodes1_sorted|].
  intro v. rewrite nodes1_in, M. split.
  - intros ((t, (k, i)) & Hid & Hal & Hv). destruct (Hf _ _ _ Hid) as (vs & F & Ev & Fw). exists (t, (k, i)), vs. split; [exact F|]. rewrite <- Ev in Hv. split; [exact Hv|].
    intros (t', (k', i')) vs' F' Pv. pose proof (rank_facet_V _ _ F') as (Bt' & Ev' & G'). cbn [fst snd] in Bt', G'. pose proof (rank_facet_V _ _ F) as (Bt & _ & G). cbn [fst snd] in Bt, G.
    destruct (Nat.eq_dec t' t) as [->|Nt].
    + apply Hal.
      * apply Hall. split; [exact Bt|]. exists vs'. split; [exact G'|]. unfold few_in in *. destruct max as [m|]; [|exact I]. destruct Fw as (l & N & Hl & L). exists l. split; [exact N|]. split; [|exact L].
        intros k0 i0. rewrite Hl. split; intros (v0 & H1 & H2); exists v0; (split; [exact H1|]); [rewrite <- Pv; exact H2|rewrite Pv; exact H2].
      * rewrite <- Ev, <- Ev'. exact Pv.
    + apply Hal; [|rewrite <- Ev, <- Ev'; exact Pv]. apply Hall. split; [exact Bt'|]. exists vs'. split; [exact G'|]. unfold few_in. destruct max as [m|]; [|exact I].
      exists [(k', i')]. split; [constructor; [intros []|constructor]|]. split; [|cbn; lia]. intros k0 i0. split.
      * intros [Q|[]]. injection Q as <- <-. exists vs'. split; [exact G'|reflexivity].
      * intros (v0 & H1 & H2). left. pose proof (V_rank_facet t' k0 i0 v0 Bt' H1) as F0. destruct (Htwo _ _ _ _ _ _ F F' F0 Pv) as [Q|[Q|Q]]; [rewrite Pv; exact H2|congruence|congruence|]. congruence.
  - intros ((t, (k, i)) & vs & F & Hv & Ho). pose proof (rank_facet_V _ _ F) as (Bt & Ev & G). cbn [fst snd] in Bt, G. exists (t, (k, i)). split; [|split].
    + apply Hall. split; [exact Bt|]. exists vs. split; [exact G|]. unfold few_in. destruct max as [m|]; [|exact I]. exists [(k, i)]. split; [constructor; [intros []|constructor]|]. split; [|cbn; lia].
      intros k0 i0. split.
      * intros [Q|[]]. injection Q as <- <-. exists vs. split; [exact G|reflexivity].
      * intros (v0 & H1 & H2). left. pose proof (Ho _ _ (V_rank_facet t k0 i0 v0 Bt H1) H2) as Q. now injection Q as -> ->.
    + intros (t', (k', i')) Hid' Pv. destruct (Hf _ _ _ Hid') as (vs' & F' & Ev' & _). apply (Ho _ vs' F'). rewrite Ev, Ev'. exact Pv.
    + rewrite <- Ev. exact Hv.
Qed.
End Rank.
