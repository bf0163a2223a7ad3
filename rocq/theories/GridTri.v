(** Triangles on a grid of squares which are divided by one of their diagonals or by both. *)
From Coq Require Import Reals Lra.
From Verif Require ScattererProofs.
From Verif Require Import Base BaseProofs GenerationSpec GridTiling GridCells GridShapes Generation GenerationProofs.
Open Scope nat_scope.

Inductive kind := falling_kind | rising_kind | both_kind.
(** Corner or midpoint of a square *)
Inductive lv := Cn (dx dy : nat) | Md.
Definition lveqb (u w : lv) : bool :=
  match u, w with Cn a b, Cn c d => (a =? c) && (b =? d) | Md, Md => true | _, _ => false end.
Lemma lveqb_spec u w : lveqb u w = true <-> u = w.
Proof.
  destruct u as [a b|], w as [c d|]; cbn; try (split; congruence).
  rewrite andb_true_iff, !Nat.eqb_eq. split; [intros (-> & ->); reflexivity|]. intro E. injection E as -> ->. auto.
Qed.
Definition c00 := Cn 0 0.
Definition c10 := Cn 1 0.
Definition c01 := Cn 0 1.
Definition c11 := Cn 1 1.
Definition tris (k : kind) : list (list lv) :=
  match k with
  | falling_kind => [ [c00; c10; c01]; [c10; c01; c11] ]
  | rising_kind => [ [c00; c10; c11]; [c00; c01; c11] ]
  | both_kind => [ [c00; c10; Md]; [c00; c01; Md]; [c10; c11; Md]; [c01; c11; Md] ]
  end.
Definition lx (u : lv) : R := match u with Cn a _ => INR a | Md => (/ 2)%R end.
Definition ly (u : lv) : R := match u with Cn _ b => INR b | Md => (/ 2)%R end.
Definition wtl (u : lv) (T : list lv) (l : list R) : R := comb (fun x => if lveqb x u then 1%R else 0%R) T l.
(** Corners and midpoint *)
Definition lvs : list lv := [c00; c10; c01; c11; Md].

Ltac tricomb := unfold wtl, comb, rsum; cbn [map combine fold_right fst snd lx ly lveqb Nat.eqb andb INR c00 c10 c01 c11].
Ltac tri_weights H := destruct H as (?L & ?P & ?E).
Lemma weights3 l : simplex_weights 3 l -> exists a b c, l = [a; b; c] /\ (0 <= a)%R /\ (0 <= b)%R /\ (0 <= c)%R /\ (a + b + c = 1)%R.
Proof.
  intros (L & P & E). apply three in L as (a & b & c & ->). exists a, b, c. split; [reflexivity|].
  split; [apply P; cbn; auto|]. split; [apply P; cbn; auto|]. split; [apply P; cbn; auto|]. cbn in E. lra.
Qed.

Lemma same_square k T T' l m u : In T (tris k) -> In T' (tris k) -> simplex_weights 3 l -> simplex_weights 3 m ->
  comb lx T l = comb lx T' m -> comb ly T l = comb ly T' m -> In u lvs -> wtl u T l = wtl u T' m.
Proof.
  intros HT HT' Hl Hm. apply weights3 in Hl as (a & b & c & -> & Ha & Hb & Hc & E). apply weights3 in Hm as (a' & b' & c' & -> & Ha' & Hb' & Hc' & E').
  destruct k; cbn [tris] in HT, HT'; cases0 HT; cases0 HT'; tricomb; intros Ex Ey Hu; unfold lvs in Hu; cases0 Hu; tricomb; lra.
Qed.

Lemma vertical_edge k T l e : In T (tris k) -> simplex_weights 3 l -> e <= 1 -> comb lx T l = INR e ->
  wtl Md T l = 0%R /\ forall dx dy, dx <= 1 -> dy <= 1 -> wtl (Cn dx dy) T l = if dx =? e then seg (comb ly T l) dy else 0%R.
Proof.
  intros HT Hl He. apply weights3 in Hl as (a & b & c & -> & Ha & Hb & Hc & E).
  destruct e as [|[|e]]; [| |lia]; destruct k; cbn [tris] in HT; cases0 HT; tricomb; intro Ex; (split; [lra|]); intros dx dy Hdx Hdy;
    (destruct dx as [|[|dx]]; [| |lia]); (destruct dy as [|[|dy]]; [| |lia]); tricomb; cbn [seg]; lra.
Qed.
Lemma horizontal_edge k T l e : In T (tris k) -> simplex_weights 3 l -> e <= 1 -> comb ly T l = INR e ->
  wtl Md T l = 0%R /\ forall dx dy, dx <= 1 -> dy <= 1 -> wtl (Cn dx dy) T l = if dy =? e then seg (comb lx T l) dx else 0%R.
Proof.
  intros HT Hl He. apply weights3 in Hl as (a & b & c & -> & Ha & Hb & Hc & E).
  destruct e as [|[|e]]; [| |lia]; destruct k; cbn [tris] in HT; cases0 HT; tricomb; intro Ex; (split; [lra|]); intros dx dy Hdx Hdy;
    (destruct dx as [|[|dx]]; [| |lia]); (destruct dy as [|[|dy]]; [| |lia]); tricomb; cbn [seg]; lra.
Qed.

Lemma tri_unit k T l : In T (tris k) -> simplex_weights 3 l -> unit (comb lx T l) /\ unit (comb ly T l).
Proof.
  intros HT Hl. apply weights3 in Hl as (a & b & c & -> & Ha & Hb & Hc & E). unfold unit.
  destruct k; cbn [tris] in HT; cases0 HT; tricomb; lra.
Qed.
Lemma tri_cover k x y : unit x -> unit y -> exists T l, In T (tris k) /\ simplex_weights 3 l /\ comb lx T l = x /\ comb ly T l = y.
Proof.
  intros (X0 & X1) (Y0 & Y1).
  assert (F : forall T a b c, In T (tris k) -> (0 <= a)%R -> (0 <= b)%R -> (0 <= c)%R -> (a + b + c = 1)%R ->
    comb lx T [a; b; c] = x -> comb ly T [a; b; c] = y ->
    exists T l, In T (tris k) /\ simplex_weights 3 l /\ comb lx T l = x /\ comb ly T l = y).
  { intros T a b c HT Ha Hb Hc E Ex Ey. exists T, [a; b; c]. split; [exact HT|]. split; [|split; [exact Ex|exact Ey]].
    split; [reflexivity|]. split; [|cbn; lra]. intros z Hz. cases0 Hz; assumption. }
  destruct k.
  - destruct (Rle_dec (x + y) 1) as [H|H].
    + apply (F [c00; c10; c01] (1 - x - y)%R x y); [cbn; auto|try (tricomb; lra)..].
    + apply (F [c10; c01; c11] (1 - y)%R (1 - x)%R (x + y - 1)%R); [cbn; auto|try (tricomb; lra)..].
  - destruct (Rle_dec y x) as [H|H].
    + apply (F [c00; c10; c11] (1 - x)%R (x - y)%R y); [cbn; auto|try (tricomb; lra)..].
    + apply (F [c00; c01; c11] (1 - y)%R (y - x)%R x); [cbn; auto|try (tricomb; lra)..].
  - destruct (Rle_dec (x + y) 1) as [H|H]; destruct (Rle_dec y x) as [H'|H'].
    + apply (F [c00; c10; Md] (1 - x - y)%R (x - y)%R (2 * y)%R); [cbn; auto|try (tricomb; lra)..].
    + apply (F [c00; c01; Md] (1 - x - y)%R (y - x)%R (2 * x)%R); [cbn; auto|try (tricomb; lra)..].
    + apply (F [c10; c11; Md] (x - y)%R (x + y - 1)%R (2 * (1 - x))%R); [cbn; auto|try (tricomb; lra)..].
    + apply (F [c01; c11; Md] (y - x)%R (x + y - 1)%R (2 * (1 - y))%R); [cbn; auto|try (tricomb; lra)..].
Qed.
Lemma tri_valid k T u : In T (tris k) -> In u T -> In u lvs /\ (u = Md -> k = both_kind).
Proof.
  intros HT Hu. destruct k; cbn [tris] in HT; cases0 HT; cases0 Hu; (split; [cbn; auto 10|intro; try discriminate; reflexivity]).
Qed.

(** ** The grid *)
Section Tri.
Variables nx ny : nat.
(** Are the squares divided by both diagonals? *)
Variable cross : bool.
Variable kd : nat * nat -> kind.
Hypothesis Hx : 1 <= nx.
Hypothesis Hy : 1 <= ny.
Hypothesis Hk : forall b, kd b = both_kind <-> cross = true.

(** Grid points and midpoints of squares *)
Notation label := ((nat * nat) + (nat * nat))%type.
Definition M := (nx + 1) * (ny + 1).
Definition NT := if cross then M + nx * ny else M.
Definition code (g : label) : nat :=
  match g with inl (a, c) => c * (nx + 1) + a | inr (a, c) => M + (c * nx + a) end.
Definition lab (v : nat) : label :=
  if v <? M then inl (v mod (nx + 1), v / (nx + 1)) else inr ((v - M) mod nx, (v - M) / nx).
Definition valid (g : label) : Prop :=
  match g with inl (a, c) => a <= nx /\ c <= ny | inr (a, c) => cross = true /\ a < nx /\ c < ny end.
Lemma code_ok g : valid g -> code g < NT /\ lab (code g) = g.
Proof.
  destruct g as [(a, c)|(a, c)]; cbn [valid code].
  - intros (Ha & Hc). unfold NT, lab. assert (L : c * (nx + 1) + a < M) by (unfold M; nia).
    split; [destruct cross; nia|]. rewrite (proj2 (Nat.ltb_lt _ _) L). destruct (divmod_add (nx + 1) c a ltac:(lia)) as (-> & ->). reflexivity.
  - intros (Ec & Ha & Hc). unfold NT, lab. split; [rewrite Ec; nia|]. rewrite (proj2 (Nat.ltb_ge _ _)) by lia.
    replace (M + (c * nx + a) - M) with (c * nx + a) by lia. destruct (divmod_add nx c a Ha) as (-> & ->). reflexivity.
Qed.
Lemma lab_ok v : v < NT -> valid (lab v) /\ code (lab v) = v.
Proof.
  unfold NT, lab. intro H. destruct (Nat.ltb_spec v M) as [L|L].
  - destruct (divmod_split (nx + 1) v (ny + 1) ltac:(lia) ltac:(unfold M in L; nia)) as (H1 & H2 & H3). cbn [valid code]. split; [lia|]. lia.
  - destruct cross eqn:E; [|lia].
    destruct (divmod_split nx (v - M) ny ltac:(lia) ltac:(nia)) as (H1 & H2 & H3). cbn [valid code]. split; [rewrite E; auto|]. lia.
Qed.
Definition lpos (j : nat) (g : label) : R :=
  match j, g with
  | 0, inl (a, _) => INR a
  | 1, inl (_, c) => INR c
  | 0, inr (a, _) => (INR a + / 2)%R
  | 1, inr (_, c) => (INR c + / 2)%R
  | _, _ => 0%R
  end.
Definition tpos (j v : nat) : R := lpos j (lab v).
Definition glab (b : nat * nat) (u : lv) : label :=
  match u with Cn dx dy => inl (fst b + dx, snd b + dy) | Md => inr b end.
Definition tcell (b : nat * nat) (T : list lv) : list nat := map (fun u => code (glab b u)) T.
Definition tbases : list (nat * nat) := map (fun i => (i mod nx, i / nx)) (seq 0 (ny * nx)).
Definition tri_grid_cells : list (list nat) := concat (map (fun b => map (tcell b) (tris (kd b))) tbases).

Lemma tbases_in b : In b tbases <-> fst b < nx /\ snd b < ny.
Proof.
  unfold tbases. rewrite in_map_iff. split.
  - intros (i & <- & Hi). apply in_seq in Hi. destruct (divmod_split nx i ny ltac:(lia) ltac:(lia)) as (H1 & H2 & H3). cbn. lia.
  - intros (H1 & H2). destruct b as (a, c). cbn [fst snd] in *. exists (c * nx + a). split.
    + destruct (divmod_add nx c a ltac:(lia)) as (-> & ->). reflexivity.
    + apply in_seq. nia.
Qed.
Lemma tbases_nd : NoDup tbases.
Proof.
  unfold tbases. apply ScattererProofs.NoDup_map_inj; [apply seq_NoDup|].
  intros i k Hi Hk' E. apply in_seq in Hi. apply in_seq in Hk'. injection E as E1 E2.
  destruct (divmod_split nx i ny ltac:(lia) ltac:(lia)) as (H1 & H2 & H3).
  destruct (divmod_split nx k ny ltac:(lia) ltac:(lia)) as (K1 & K2 & K3).
  rewrite H3, K3, E1, E2. reflexivity.
Qed.
Lemma in_tcells c : In c tri_grid_cells <-> exists b T, In b tbases /\ In T (tris (kd b)) /\ c = tcell b T.
Proof.
  unfold tri_grid_cells. rewrite in_concat. split.
  - intros (t & Ht & Hc). apply in_map_iff in Ht as (b & <- & Hb). apply in_map_iff in Hc as (D & <- & HD). exists b, D. auto.
  - intros (b & D & Hb & HD & ->). exists (map (tcell b) (tris (kd b))). split; [apply (in_map (fun b => map (tcell b) (tris (kd b)))), Hb|]. apply in_map, HD.
Qed.
Lemma glab_valid b T u : In b tbases -> In T (tris (kd b)) -> In u T -> valid (glab b u).
Proof.
  intros Hb HT Hu. apply tbases_in in Hb as (H1 & H2). destruct (tri_valid _ _ _ HT Hu) as (Hv & Hm).
  destruct u as [dx dy|]; cbn [glab valid].
  - unfold lvs in Hv. cbn in Hv. assert (dx <= 1 /\ dy <= 1).
    { destruct Hv as [E|[E|[E|[E|[E|[]]]]]]; try discriminate; injection E as <- <-; lia. }
    lia.
  - destruct b as (a, c). cbn [fst snd] in *. split; [|lia]. apply (Hk (a, c)). apply Hm. reflexivity.
Qed.
Lemma glab_inj b u w : glab b u = glab b w -> u = w.
Proof.
  destruct u as [a c|], w as [a' c'|]; cbn; intro E; try discriminate; [|reflexivity].
  injection E as E1 E2. f_equal; lia.
Qed.

Lemma tcell_comb b T l : In b tbases -> In T (tris (kd b)) -> simplex_weights 3 l ->
  comb (tpos 0) (tcell b T) l = (INR (fst b) + comb lx T l)%R /\ comb (tpos 1) (tcell b T) l = (INR (snd b) + comb ly T l)%R /\
  forall j, comb (tpos (S (S j))) (tcell b T) l = 0%R.
Proof.
  intros Hb HT Hl. assert (El : length T = length l).
  { destruct Hl as (-> & _). clear - HT. destruct (kd b); cbn [tris] in HT; cases0 HT; reflexivity. }
  assert (Es : rsum l = 1%R) by apply Hl.
  assert (A : forall u, In u T -> lab (code (glab b u)) = glab b u) by (intros u Hu; apply code_ok, (glab_valid b T u Hb HT Hu)).
  unfold tcell. split; [|split].
  - rewrite comb_map. rewrite (comb_ext _ (fun u => INR (fst b) + lx u * 1)%R).
    + rewrite comb_affine by exact El. rewrite Es. lra.
    + intros u Hu. unfold tpos. rewrite (A u Hu). destruct u as [dx dy|], b as (p, q); cbn [glab lpos lx fst snd]; rewrite ?plus_INR; lra.
  - rewrite comb_map. rewrite (comb_ext _ (fun u => INR (snd b) + ly u * 1)%R).
    + rewrite comb_affine by exact El. rewrite Es. lra.
    + intros u Hu. unfold tpos. rewrite (A u Hu). destruct u as [dx dy|], b as (p, q); cbn [glab lpos ly fst snd]; rewrite ?plus_INR; lra.
  - intro j. rewrite comb_map. apply comb_zero. intros u Hu. unfold tpos. destruct (lab (code (glab b u))) as [(p, q)|(p, q)]; reflexivity.
Qed.

(** The weight of a label in a cell *)
Lemma weight_local b T l u : In b tbases -> In T (tris (kd b)) -> valid (glab b u) ->
  weight (code (glab b u)) (tcell b T) l = wtl u T l.
Proof.
  intros Hb HT Hu. unfold weight, tcell, wtl. rewrite comb_map. apply comb_ext. intros w Hw.
  destruct (lveqb w u) eqn:Q.
  - apply lveqb_spec in Q. subst w. rewrite Nat.eqb_refl. reflexivity.
  - destruct (Nat.eqb_spec (code (glab b w)) (code (glab b u))) as [F|F]; [|reflexivity].
    destruct (code_ok _ (glab_valid b T w Hb HT Hw)) as (_ & F1). destruct (code_ok _ Hu) as (_ & F2).
    assert (G : glab b w = glab b u) by congruence. apply glab_inj in G. apply lveqb_spec in G. congruence.
Qed.
Lemma weight_none b T l g : In b tbases -> In T (tris (kd b)) -> valid g -> (forall u, In u lvs -> glab b u <> g) ->
  weight (code g) (tcell b T) l = 0%R.
Proof.
  intros Hb HT Hg Hn. unfold weight, tcell. rewrite comb_map. apply comb_zero. intros w Hw.
  destruct (Nat.eqb_spec (code (glab b w)) (code g)) as [F|F]; [|reflexivity]. exfalso.
  destruct (code_ok _ (glab_valid b T w Hb HT Hw)) as (_ & F1). destruct (code_ok _ Hg) as (_ & F2).
  apply (Hn w); [apply (tri_valid _ _ _ HT Hw)|congruence].
Qed.
Lemma corner_cases b a c :
  (exists dx dy, dx <= 1 /\ dy <= 1 /\ a = fst b + dx /\ c = snd b + dy) \/ (forall u, In u lvs -> glab b u <> inl (a, c)).
Proof.
  destruct (le_dec (fst b) a); [|right]. destruct (le_dec a (fst b + 1)); [|right]. destruct (le_dec (snd b) c); [|right]. destruct (le_dec c (snd b + 1)); [|right].
  { left. exists (a - fst b), (c - snd b). lia. }
  all: intros u Hu E; unfold lvs in Hu; cases0 Hu; cbn in E; try discriminate; injection E as E1 E2; lia.
Qed.

(** On the left or right side of its square, the weights in a cell are those on the side. *)
Lemma vertical_weight b T l e v : In b tbases -> In T (tris (kd b)) -> simplex_weights 3 l -> e <= 1 -> comb lx T l = INR e -> v < NT ->
  match lab v with
  | inl (a, c) => if a =? fst b + e then hat [(INR (snd b) + comb ly T l - INR c)%R] (weight v (tcell b T) l) else weight v (tcell b T) l = 0%R
  | inr _ => weight v (tcell b T) l = 0%R
  end.
Proof.
  intros Hb HT Hl He Ex Hv. destruct (lab_ok v Hv) as (Hval & Ev). destruct (vertical_edge _ _ _ _ HT Hl He Ex) as (Wm & Wc).
  destruct (tri_unit _ _ _ HT Hl) as (_ & Uy). rewrite <- Ev. set (g := lab v) in *. clearbody g. destruct (code_ok g Hval) as (_ & Eg). rewrite Eg. clear Ev Eg.
  destruct g as [(a, c)|s].
  - destruct (corner_cases b a c) as [(dx & dy & Hdx & Hdy & Ea & Ec)|Hn].
    + cbv beta iota. replace (inl (a, c)) with (glab b (Cn dx dy)) by (cbn; congruence).
      rewrite weight_local; [|exact Hb|exact HT|cbn [glab]; rewrite <- Ea, <- Ec; exact Hval]. rewrite (Wc dx dy Hdx Hdy).
      destruct (Nat.eqb_spec dx e) as [D|D]; destruct (Nat.eqb_spec a (fst b + e)) as [D'|D']; try lia; [|reflexivity].
      rewrite Ec, plus_INR. replace (INR (snd b) + comb ly T l - (INR (snd b) + INR dy))%R with (comb ly T l - INR dy)%R by lra.
      apply hat_seg; assumption.
    + rewrite (weight_none b T l (inl (a, c)) Hb HT Hval Hn). destruct (Nat.eqb_spec a (fst b + e)) as [D'|D']; [|reflexivity].
      apply (hat_out _ (INR (snd b) + comb ly T l - INR c)%R); [left; reflexivity|].
      assert (C : c < snd b \/ snd b + 1 < c).
      { destruct (Nat.lt_ge_cases c (snd b)) as [|G]; [left; assumption|]. destruct (Nat.lt_ge_cases (snd b + 1) c) as [|G']; [right; assumption|].
        exfalso. apply (Hn (Cn e (c - snd b))).
        - assert (c - snd b <= 1) by lia. destruct e as [|[|e]]; [| |lia]; (destruct (c - snd b) as [|[|k]]; [| |lia]); cbn; auto 10.
        - cbn. f_equal. f_equal; lia. }
      destruct Uy as (U0 & U1). destruct C as [C|C]; apply le_INR in C; rewrite S_INR in C; [right; lra|]. rewrite plus_INR in C. cbn in C. left. lra.
  - destruct (Nat.eq_dec (fst s) (fst b)) as [E1|E1]; [destruct (Nat.eq_dec (snd s) (snd b)) as [E2|E2]|].
    + assert (s = b) by (destruct s, b; cbn in *; congruence). subst s. change (@inr (nat * nat) (nat * nat) b) with (glab b Md).
      rewrite weight_local; [exact Wm|exact Hb|exact HT|exact Hval].
    + apply weight_none; [exact Hb|exact HT|exact Hval|]. intros u _ E. destruct u; cbn in E; congruence.
    + apply weight_none; [exact Hb|exact HT|exact Hval|]. intros u _ E. destruct u; cbn in E; congruence.
Qed.
Lemma horizontal_weight b T l e v : In b tbases -> In T (tris (kd b)) -> simplex_weights 3 l -> e <= 1 -> comb ly T l = INR e -> v < NT ->
  match lab v with
  | inl (a, c) => if c =? snd b + e then hat [(INR (fst b) + comb lx T l - INR a)%R] (weight v (tcell b T) l) else weight v (tcell b T) l = 0%R
  | inr _ => weight v (tcell b T) l = 0%R
  end.
Proof.
  intros Hb HT Hl He Ex Hv. destruct (lab_ok v Hv) as (Hval & Ev). destruct (horizontal_edge _ _ _ _ HT Hl He Ex) as (Wm & Wc).
  destruct (tri_unit _ _ _ HT Hl) as (Uy & _). rewrite <- Ev. set (g := lab v) in *. clearbody g. destruct (code_ok g Hval) as (_ & Eg). rewrite Eg. clear Ev Eg.
  destruct g as [(a, c)|s].
  - destruct (corner_cases b a c) as [(dx & dy & Hdx & Hdy & Ea & Ec)|Hn].
    + cbv beta iota. replace (inl (a, c)) with (glab b (Cn dx dy)) by (cbn; congruence).
      rewrite weight_local; [|exact Hb|exact HT|cbn [glab]; rewrite <- Ea, <- Ec; exact Hval]. rewrite (Wc dx dy Hdx Hdy).
      destruct (Nat.eqb_spec dy e) as [D|D]; destruct (Nat.eqb_spec c (snd b + e)) as [D'|D']; try lia; [|reflexivity].
      rewrite Ea, plus_INR. replace (INR (fst b) + comb lx T l - (INR (fst b) + INR dx))%R with (comb lx T l - INR dx)%R by lra.
      apply hat_seg; assumption.
    + rewrite (weight_none b T l (inl (a, c)) Hb HT Hval Hn). destruct (Nat.eqb_spec c (snd b + e)) as [D'|D']; [|reflexivity].
      apply (hat_out _ (INR (fst b) + comb lx T l - INR a)%R); [left; reflexivity|].
      assert (C : a < fst b \/ fst b + 1 < a).
      { destruct (Nat.lt_ge_cases a (fst b)) as [|G]; [left; assumption|]. destruct (Nat.lt_ge_cases (fst b + 1) a) as [|G']; [right; assumption|].
        exfalso. apply (Hn (Cn (a - fst b) e)).
        - assert (a - fst b <= 1) by lia. destruct e as [|[|e]]; [| |lia]; (destruct (a - fst b) as [|[|k]]; [| |lia]); cbn; auto 10.
        - cbn. f_equal. f_equal; lia. }
      destruct Uy as (U0 & U1). destruct C as [C|C]; apply le_INR in C; rewrite S_INR in C; [right; lra|]. rewrite plus_INR in C. cbn in C. left. lra.
  - destruct (Nat.eq_dec (fst s) (fst b)) as [E1|E1]; [destruct (Nat.eq_dec (snd s) (snd b)) as [E2|E2]|].
    + assert (s = b) by (destruct s, b; cbn in *; congruence). subst s. change (@inr (nat * nat) (nat * nat) b) with (glab b Md).
      rewrite weight_local; [exact Wm|exact Hb|exact HT|exact Hval].
    + apply weight_none; [exact Hb|exact HT|exact Hval|]. intros u _ E. destruct u; cbn in E; congruence.
    + apply weight_none; [exact Hb|exact HT|exact Hval|]. intros u _ E. destruct u; cbn in E; congruence.
Qed.

(** Two neighbours with different numbers share a side. *)
Lemma adjacent p q s t : unit s -> unit t -> (INR p + s = INR q + t)%R -> p < q -> q = p + 1 /\ s = INR 1 /\ t = INR 0.
Proof.
  intros (S0 & S1) (T0 & T1) E H. assert (Q : q = p + 1).
  { destruct (Nat.lt_ge_cases (p + 1) q) as [G|G]; [|lia]. exfalso. apply le_INR in G. rewrite S_INR, plus_INR in G. cbn in G. lra. }
  subst q. rewrite plus_INR in E. cbn in *. split; [reflexivity|]. lra.
Qed.

Lemma tri_match b T l b' T' m v : In b tbases -> In T (tris (kd b)) -> simplex_weights 3 l ->
  In b' tbases -> In T' (tris (kd b')) -> simplex_weights 3 m ->
  (INR (fst b) + comb lx T l = INR (fst b') + comb lx T' m)%R -> (INR (snd b) + comb ly T l = INR (snd b') + comb ly T' m)%R ->
  v < NT -> weight v (tcell b T) l = weight v (tcell b' T') m.
Proof.
  intros Hb HT Hl Hb' HT' Hm Ex Ey Hv.
  destruct (tri_unit _ _ _ HT Hl) as (Ux & Uy). destruct (tri_unit _ _ _ HT' Hm) as (Ux' & Uy').
  assert (V : forall e e', e <= 1 -> e' <= 1 -> fst b + e = fst b' + e' -> comb lx T l = INR e -> comb lx T' m = INR e' ->
    weight v (tcell b T) l = weight v (tcell b' T') m).
  { intros e e' He He' E E1 E2. pose proof (vertical_weight b T l e v Hb HT Hl He E1 Hv) as A. pose proof (vertical_weight b' T' m e' v Hb' HT' Hm He' E2 Hv) as B.
    destruct (lab v) as [(a, c)|s]; [|congruence]. rewrite E in A. rewrite Ey in A. destruct (a =? fst b' + e'); [|congruence]. exact (hat_fun _ _ _ A B). }
  assert (H : forall e e', e <= 1 -> e' <= 1 -> snd b + e = snd b' + e' -> comb ly T l = INR e -> comb ly T' m = INR e' ->
    weight v (tcell b T) l = weight v (tcell b' T') m).
  { intros e e' He He' E E1 E2. pose proof (horizontal_weight b T l e v Hb HT Hl He E1 Hv) as A. pose proof (horizontal_weight b' T' m e' v Hb' HT' Hm He' E2 Hv) as B.
    destruct (lab v) as [(a, c)|s]; [|congruence]. rewrite E in A. rewrite Ex in A. destruct (c =? snd b' + e'); [|congruence]. exact (hat_fun _ _ _ A B). }
  destruct (Nat.lt_total (fst b) (fst b')) as [L|[L|L]].
  - destruct (adjacent _ _ _ _ Ux Ux' Ex L) as (E1 & E2 & E3). apply (V 1 0); [lia|lia|lia|exact E2|exact E3].
  - destruct (Nat.lt_total (snd b) (snd b')) as [G|[G|G]].
    + destruct (adjacent _ _ _ _ Uy Uy' Ey G) as (E1 & E2 & E3). apply (H 1 0); [lia|lia|lia|exact E2|exact E3].
    + assert (Eb : b = b') by (destruct b, b'; cbn in *; congruence). subst b'. clear V H.
      destruct (lab_ok v Hv) as (Hval & Ev). rewrite <- Ev. set (g := lab v) in *. clearbody g. clear Ev.
      assert (Gx : comb lx T l = comb lx T' m) by lra. assert (Gy : comb ly T l = comb ly T' m) by lra.
      destruct g as [(a, c)|s].
      * destruct (corner_cases b a c) as [(dx & dy & Hdx & Hdy & Ea & Ec)|Hn].
        -- assert (Eg : inl (a, c) = glab b (Cn dx dy)) by (cbn; congruence). rewrite Eg in *.
           rewrite !weight_local by assumption. apply (same_square (kd b)); try assumption.
           destruct dx as [|[|dx]]; [| |lia]; (destruct dy as [|[|dy]]; [| |lia]); cbn; auto 10.
        -- rewrite !(weight_none b) by assumption. reflexivity.
      * destruct (Nat.eq_dec (fst s) (fst b)) as [E1|E1]; [destruct (Nat.eq_dec (snd s) (snd b)) as [E2|E2]|].
        -- assert (s = b) by (destruct s, b; cbn in *; congruence). subst s. change (@inr (nat * nat) (nat * nat) b) with (glab b Md).
           rewrite !weight_local by assumption. apply (same_square (kd b)); try assumption. cbn; auto 10.
        -- rewrite !weight_none; [reflexivity|assumption..| |assumption|assumption|assumption|]; intros u _ E; destruct u; cbn in E; congruence.
        -- rewrite !weight_none; [reflexivity|assumption..| |assumption|assumption|assumption|]; intros u _ E; destruct u; cbn in E; congruence.
    + destruct (adjacent _ _ _ _ Uy' Uy (eq_sym Ey) G) as (E1 & E2 & E3). apply (H 0 1); [lia|lia|lia|exact E3|exact E2].
  - destruct (adjacent _ _ _ _ Ux' Ux (eq_sym Ex) L) as (E1 & E2 & E3). apply (V 0 1); [lia|lia|lia|exact E3|exact E2].
Qed.

(** Twice the coordinates, as numbers *)
Definition twice (y : bool) (g : label) : nat :=
  match g with inl (a, c) => 2 * (if y then c else a) | inr (a, c) => 2 * (if y then c else a) + 1 end.
Definition ltwice (y : bool) (u : lv) : nat := match u with Cn a c => 2 * (if y then c else a) | Md => 1 end.
Lemma tcell_sum b T y : In b tbases -> In T (tris (kd b)) ->
  lsum (map (fun v => twice y (lab v)) (tcell b T)) = 6 * (if y then snd b else fst b) + lsum (map (ltwice y) T).
Proof.
  intros Hb HT. assert (A : forall u, In u T -> twice y (lab (code (glab b u))) = 2 * (if y then snd b else fst b) + ltwice y u).
  { intros u Hu. destruct (code_ok _ (glab_valid b T u Hb HT Hu)) as (_ & ->). destruct u as [p q|], b as (a, c), y; cbn; lia. }
  unfold tcell. rewrite map_map. rewrite (map_ext_in _ _ _ A).
  assert (L : length T = 3) by (clear - HT; destruct (kd b); cbn [tris] in HT; cases0 HT; reflexivity).
  destruct T as [|u [|w [|z [|? ?]]]]; try discriminate. cbn [map]. rewrite !lsum_cons. lia.
Qed.
Lemma tri_low k T y : In T (tris k) -> lsum (map (ltwice y) T) < 6.
Proof. intro HT. destruct k, y; cbn [tris] in HT; cases0 HT; vm_compute; lia. Qed.

Lemma tri_grid : gtiling (simplex_weights 3) NT tpos (fun j => INR (co j (nx, ny, 0))) tri_grid_cells.
Proof.
  constructor.
  - intros c Hc. apply in_tcells in Hc as (b & T & Hb & HT & ->). split.
    + unfold tcell. assert (Hnd : NoDup T).
      { clear - HT. destruct (kd b); cbn [tris] in HT; cases0 HT; repeat (apply NoDup_cons; [cbn; intuition discriminate|]); apply NoDup_nil. }
      apply ScattererProofs.NoDup_map_inj; [exact Hnd|]. intros u w Hu Hw E. apply (glab_inj b).
      destruct (code_ok _ (glab_valid b T u Hb HT Hu)) as (_ & E1). destruct (code_ok _ (glab_valid b T w Hb HT Hw)) as (_ & E2). congruence.
    + intros v Hv. apply in_map_iff in Hv as (u & <- & Hu). apply code_ok, (glab_valid b T); assumption.
  - intros v w Hv Hw E. destruct (lab_ok v Hv) as (_ & <-). destruct (lab_ok w Hw) as (_ & <-). f_equal.
    pose proof (E 0) as E0. pose proof (E 1) as E1. unfold tpos in E0, E1.
    assert (Half : forall p q, (INR p <> INR q + / 2)%R).
    { intros p q F. destruct (Nat.le_gt_cases p q) as [G|G]; apply le_INR in G; rewrite ?S_INR in G; lra. }
    destruct (lab v) as [(a, c)|(a, c)], (lab w) as [(a', c')|(a', c')]; cbn [lpos] in E0, E1.
    + apply INR_eq in E0. apply INR_eq in E1. congruence.
    + exfalso. exact (Half _ _ E0).
    + exfalso. exact (Half _ _ (eq_sym E0)).
    + assert (F0 : INR a = INR a') by lra. assert (F1 : INR c = INR c') by lra. apply INR_eq in F0. apply INR_eq in F1. congruence.
  - intros v Hv. destruct (lab_ok v Hv) as (Hval & Ev). destruct (lab v) as [(a, c)|(a, c)] eqn:El.
    + set (b := (min a (nx - 1), min c (ny - 1))). cbn [valid] in Hval.
      assert (Hb : In b tbases) by (apply tbases_in; cbn [b fst snd]; lia).
      assert (U : exists T, In T (tris (kd b)) /\ In (Cn (a - fst b) (c - snd b)) T).
      { assert (a - fst b <= 1) by (cbn [b fst]; lia). assert (c - snd b <= 1) by (cbn [b snd]; lia).
        generalize dependent (a - fst b). generalize dependent (c - snd b). intros dy Hdy dx Hdx. clear - Hdx Hdy.
        destruct (kd b); (destruct dx as [|[|dx]]; [| |lia]); (destruct dy as [|[|dy]]; [| |lia]); cbn [tris];
          first [eexists; split; [left; reflexivity|cbn; tauto] | eexists; split; [right; left; reflexivity|cbn; tauto] | eexists; split; [right; right; left; reflexivity|cbn; tauto]]. }
      destruct U as (T & HT & Hu). exists (tcell b T). split; [apply in_tcells; exists b, T; auto|].
      apply in_map_iff. exists (Cn (a - fst b) (c - snd b)). split; [|exact Hu]. rewrite <- Ev. f_equal. cbn [glab b fst snd]. f_equal. f_equal; lia.
    + cbn [valid] in Hval. destruct Hval as (Hc & Ha & Hc').
      assert (Hb : In (a, c) tbases) by (apply tbases_in; cbn; lia).
      exists (tcell (a, c) [c00; c10; Md]). split.
      * apply in_tcells. exists (a, c), [c00; c10; Md]. split; [exact Hb|]. split; [|reflexivity]. rewrite (proj2 (Hk (a, c)) Hc). left. reflexivity.
      * apply in_map_iff. exists Md. split; [exact Ev|cbn; auto].
  - unfold tri_grid_cells. apply FOP_concat; [exact tbases_nd| |].
    + intros b Hb. apply FOP_map. apply (FOP_impl (fun T T' => exists y, lsum (map (ltwice y) T) <> lsum (map (ltwice y) T'))).
      * intros T T' HT HT' (y & Hy') Hp. apply Hy'. apply (perm_csum (fun v => twice y (lab v))) in Hp. rewrite !tcell_sum in Hp by assumption. lia.
      * clear. destruct (kd b); cbn [tris]; repeat (constructor; [repeat (apply Forall_cons; [first [exists false; vm_compute; discriminate|exists true; vm_compute; discriminate]|]); apply Forall_nil|]); constructor.
    + intros b b' c c' Hb Hb' Hne Hc Hc' Hp. apply in_map_iff in Hc as (T & <- & HT). apply in_map_iff in Hc' as (T' & <- & HT').
      apply Hne.
      assert (F : forall y : bool, (if y then snd b else fst b) = (if y then snd b' else fst b')).
      { intro y. pose proof (perm_csum (fun v => twice y (lab v)) _ _ Hp) as S. rewrite !tcell_sum in S by assumption.
        pose proof (tri_low _ _ y HT). pose proof (tri_low _ _ y HT'). lia. }
      pose proof (F true) as F1. pose proof (F false) as F2. destruct b, b'. cbn in *. congruence.
  - intros v j Hv. unfold tpos. destruct (lab_ok v Hv) as (Hval & _).
    destruct (lab v) as [(a, c)|(a, c)]; cbn [valid] in Hval; destruct j as [|[|[|j]]]; cbn [lpos co fst snd].
    + split; [apply pos_INR|apply le_INR; lia].
    + split; [apply pos_INR|apply le_INR; lia].
    + cbn. lra.
    + cbn. lra.
    + pose proof (pos_INR a). destruct Hval as (_ & Ha & _). apply le_INR in Ha. rewrite S_INR in Ha. lra.
    + pose proof (pos_INR c). destruct Hval as (_ & _ & Ha). apply le_INR in Ha. rewrite S_INR in Ha. lra.
    + cbn. lra.
    + cbn. lra.
  - intros g Hg. destruct (unit_square nx (g 0)) as (b0 & B0 & B1 & B2); [exact (Hg 0)|]. destruct (unit_square ny (g 1)) as (b1 & C0 & C1 & C2); [exact (Hg 1)|].
    replace (min 1 nx) with 1 in B2 by lia. replace (min 1 ny) with 1 in C2 by lia.
    assert (Hb : In (b0, b1) tbases) by (apply tbases_in; cbn; lia).
    destruct (tri_cover (kd (b0, b1)) (g 0%nat - INR b0)%R (g 1%nat - INR b1)%R) as (T & l & HT & Hl & E0 & E1); [split; cbn in *; lra|split; cbn in *; lra|].
    exists (tcell (b0, b1) T), l. split; [apply in_tcells; exists (b0, b1), T; auto|]. split; [exact Hl|]. split.
    { destruct Hl as (-> & _). unfold tcell. rewrite map_length. clear - HT. destruct (kd (b0, b1)); cbn [tris] in HT; cases0 HT; reflexivity. }
    destruct (tcell_comb (b0, b1) T l Hb HT Hl) as (F0 & F1 & F2). intros [|[|j]].
    + rewrite F0, E0. cbn [fst]. lra.
    + rewrite F1, E1. cbn [snd]. lra.
    + rewrite F2. pose proof (Hg (S (S j))) as G. destruct j; cbn in G; lra.
  - intros c c' l m Hc Hc' Hl _ Hm _ E v Hv. apply in_tcells in Hc as (b & T & Hb & HT & ->). apply in_tcells in Hc' as (b' & T' & Hb' & HT' & ->).
    destruct (tcell_comb b T l Hb HT Hl) as (F0 & F1 & _). destruct (tcell_comb b' T' m Hb' HT' Hm) as (G0 & G1 & _).
    pose proof (E 0) as E0. pose proof (E 1) as E1. rewrite F0, G0 in E0. rewrite F1, G1 in E1. apply tri_match; assumption.
Qed.

(** ** Diagonals *)
Lemma half_not p q : (INR p <> INR q + / 2)%R.
Proof. intro F. destruct (Nat.le_gt_cases p q) as [G|G]; apply le_INR in G; rewrite ?S_INR in G; lra. Qed.
Lemma lab_at v a c : tpos 0 v = INR a -> tpos 1 v = INR c -> lab v = inl (a, c).
Proof.
  unfold tpos. intros E0 E1. destruct (lab v) as [(a', c')|(a', c')]; cbn [lpos] in E0, E1.
  - apply INR_eq in E0. apply INR_eq in E1. congruence.
  - exfalso. exact (half_not _ _ (eq_sym E0)).
Qed.
Lemma rising_grid ix iy : ix < nx -> iy < ny ->
  (exists c v w, In c tri_grid_cells /\ In v c /\ In w c /\ lab v = inl (ix, iy) /\ lab w = inl (ix + 1, iy + 1)) <-> kd (ix, iy) = rising_kind.
Proof.
  intros Lx Ly. split.
  - intros (c & v & w & Hc & Hv & Hw & Ev & Ew). apply in_tcells in Hc as (b & T & Hb & HT & ->).
    apply in_map_iff in Hv as (u & <- & Hu). apply in_map_iff in Hw as (z & <- & Hz).
    destruct (code_ok _ (glab_valid b T u Hb HT Hu)) as (_ & E1). destruct (code_ok _ (glab_valid b T z Hb HT Hz)) as (_ & E2).
    rewrite E1 in Ev. rewrite E2 in Ew. clear E1 E2.
    assert (Eb : b = (ix, iy) /\ u = c00 /\ z = c11).
    { pose proof (proj1 (tri_valid _ _ _ HT Hu)) as Vu. pose proof (proj1 (tri_valid _ _ _ HT Hz)) as Vz. destruct b as (p, q).
      unfold lvs in Vu, Vz. cases0 Vu; cases0 Vz; cbn [glab c00 c10 c01 c11 fst snd] in Ev, Ew; try discriminate;
        injection Ev as A1 A2; injection Ew as B1 B2; try (exfalso; lia); (split; [f_equal; lia|split; reflexivity]). }
    destruct Eb as (-> & -> & ->). destruct (kd (ix, iy)); [|reflexivity|]; cbn [tris] in HT; cases0 HT; cbn in Hu, Hz; intuition discriminate.
  - intro Ek. exists (tcell (ix, iy) [c00; c10; c11]), (code (glab (ix, iy) c00)), (code (glab (ix, iy) c11)).
    assert (Hb : In (ix, iy) tbases) by (apply tbases_in; cbn; lia).
    assert (HT : In [c00; c10; c11] (tris (kd (ix, iy)))) by (rewrite Ek; left; reflexivity).
    split; [apply in_tcells; exists (ix, iy), [c00; c10; c11]; auto|].
    split; [apply (in_map (fun u => code (glab (ix, iy) u))); cbn; auto|]. split; [apply (in_map (fun u => code (glab (ix, iy) u))); cbn; auto|].
    destruct (code_ok _ (glab_valid (ix, iy) _ c00 Hb HT ltac:(cbn; auto))) as (_ & ->). destruct (code_ok _ (glab_valid (ix, iy) _ c11 Hb HT ltac:(cbn; auto))) as (_ & ->).
    cbn. rewrite !Nat.add_0_r. auto.
Qed.
Lemma falling_grid ix iy : ix < nx -> iy < ny ->
  (exists c v w, In c tri_grid_cells /\ In v c /\ In w c /\ lab v = inl (ix + 1, iy) /\ lab w = inl (ix, iy + 1)) <-> kd (ix, iy) = falling_kind.
Proof.
  intros Lx Ly. split.
  - intros (c & v & w & Hc & Hv & Hw & Ev & Ew). apply in_tcells in Hc as (b & T & Hb & HT & ->).
    apply in_map_iff in Hv as (u & <- & Hu). apply in_map_iff in Hw as (z & <- & Hz).
    destruct (code_ok _ (glab_valid b T u Hb HT Hu)) as (_ & E1). destruct (code_ok _ (glab_valid b T z Hb HT Hz)) as (_ & E2).
    rewrite E1 in Ev. rewrite E2 in Ew. clear E1 E2.
    assert (Eb : b = (ix, iy) /\ u = c10 /\ z = c01).
    { pose proof (proj1 (tri_valid _ _ _ HT Hu)) as Vu. pose proof (proj1 (tri_valid _ _ _ HT Hz)) as Vz. destruct b as (p, q).
      unfold lvs in Vu, Vz. cases0 Vu; cases0 Vz; cbn [glab c00 c10 c01 c11 fst snd] in Ev, Ew; try discriminate;
        injection Ev as A1 A2; injection Ew as B1 B2; try (exfalso; lia); (split; [f_equal; lia|split; reflexivity]). }
    destruct Eb as (-> & -> & ->). destruct (kd (ix, iy)); [reflexivity| |]; cbn [tris] in HT; cases0 HT; cbn in Hu, Hz; intuition discriminate.
  - intro Ek. exists (tcell (ix, iy) [c00; c10; c01]), (code (glab (ix, iy) c10)), (code (glab (ix, iy) c01)).
    assert (Hb : In (ix, iy) tbases) by (apply tbases_in; cbn; lia).
    assert (HT : In [c00; c10; c01] (tris (kd (ix, iy)))) by (rewrite Ek; left; reflexivity).
    split; [apply in_tcells; exists (ix, iy), [c00; c10; c01]; auto|].
    split; [apply (in_map (fun u => code (glab (ix, iy) u))); cbn; auto|]. split; [apply (in_map (fun u => code (glab (ix, iy) u))); cbn; auto|].
    destruct (code_ok _ (glab_valid (ix, iy) _ c10 Hb HT ltac:(cbn; auto))) as (_ & ->). destruct (code_ok _ (glab_valid (ix, iy) _ c01 Hb HT ltac:(cbn; auto))) as (_ & ->).
    cbn. rewrite !Nat.add_0_r. auto.
Qed.
End Tri.

(** ** The model *)
Definition local_at (diagonal : diagonal_type) (iy ix : nat) : diagonal_type :=
  match diagonal with
  | right_left => if Nat.even (ix + iy) then left else right
  | left_right => if Nat.even (ix + iy) then right else left
  | d => d
  end.
Definition is_crossed (diagonal : diagonal_type) : bool := match diagonal with crossed => true | _ => false end.
Definition kind_at (diagonal : diagonal_type) (b : nat * nat) : kind :=
  match diagonal with
  | crossed => both_kind
  | _ => match local_at diagonal (snd b) (fst b) with left => falling_kind | _ => rising_kind end
  end.
Lemma mod2_even k : (k mod 2 =? 0) = Nat.even k.
Proof.
  destruct (Nat.Even_or_Odd k) as [H|H].
  - rewrite (proj2 (Nat.even_spec k) H). destruct H as (m & ->). rewrite Nat.mul_comm, Nat.mod_mul by lia. reflexivity.
  - destruct (Nat.even k) eqn:E.
    + apply Nat.even_spec in E. destruct H as (m & Hm), E as (m' & Hm'). lia.
    + destruct H as (m & ->). rewrite Nat.add_comm, (Nat.mul_comm 2), Nat.mod_add by lia. reflexivity.
Qed.
Definition sq_cells (diagonal : diagonal_type) (nx iy ix : nat) : list (list nat) :=
  let v0 := iy * (nx + 1) + ix in
  let v1 := v0 + 1 in
  let v2 := v0 + (nx + 1) in
  let v3 := v1 + (nx + 1) in
  match local_at diagonal iy ix with
  | left => [ [v0; v1; v2]; [v1; v2; v3] ]
  | _ => [ [v0; v1; v3]; [v0; v2; v3] ]
  end.
Lemma row_fold diagonal nx iy cs k :
  fold_left (tri_step diagonal nx iy) (seq 0 k) (local_at diagonal iy 0, cs)
  = (local_at diagonal iy k, cs ++ concat (map (sq_cells diagonal nx iy) (seq 0 k))).
Proof.
  induction k as [|k IH]; [cbn; rewrite app_nil_r; reflexivity|].
  rewrite seq_S, fold_left_app, IH, map_app, concat_app. cbn [Nat.add fold_left map concat]. rewrite app_nil_r.
  unfold tri_step, sq_cells.
  assert (S : Nat.even (S k + iy) = negb (Nat.even (k + iy))) by (cbn [Nat.add]; rewrite Nat.even_succ; symmetry; apply Nat.negb_even).
  destruct diagonal; cbn [local_at alternating]; rewrite ?S; try (rewrite app_assoc; reflexivity);
    destruct (Nat.even (k + iy)); cbn [negb]; rewrite app_assoc; reflexivity.
Qed.
Lemma rows_fold diagonal nx m : exists d,
  fold_left (tri_row diagonal nx) (seq 0 m) (diagonal, []) = (d, concat (map (fun iy => concat (map (sq_cells diagonal nx iy) (seq 0 nx))) (seq 0 m)))
  /\ (alternating diagonal = true \/ d = diagonal).
Proof.
  induction m as [|m (d & IH & Hd)]; [exists diagonal; auto|].
  exists (local_at diagonal m nx). rewrite seq_S, fold_left_app, IH, map_app, concat_app. cbn [Nat.add fold_left map concat]. rewrite app_nil_r.
  unfold tri_row at 1. cbn [fst snd].
  assert (Er : row_start diagonal d m = local_at diagonal m 0).
  { destruct diagonal; cbn [row_start local_at Nat.add]; rewrite ?mod2_even; try reflexivity; destruct Hd as [Hd|Hd]; try discriminate Hd; exact Hd. }
  rewrite Er, row_fold. split; [reflexivity|]. destruct diagonal; cbn; auto.
Qed.

Lemma concat_concat {A} (l : list (list (list A))) : concat (concat l) = concat (map (@concat A) l).
Proof. induction l as [|x l IH]; [reflexivity|]. cbn [concat map]. rewrite concat_app, IH. reflexivity. Qed.
Lemma concat_grid {A} (f : nat -> nat -> list A) m k : 0 < k ->
  concat (map (fun i => concat (map (f i) (seq 0 k))) (seq 0 m)) = concat (map (fun v => f (v / k) (v mod k)) (seq 0 (m * k))).
Proof. intro Hk. rewrite <- (grid_list f m k Hk). rewrite concat_concat, map_map. reflexivity. Qed.

Lemma tri_cells_grid diagonal nx ny : 1 <= nx -> tri_cells diagonal nx ny = tri_grid_cells nx ny (kind_at diagonal).
Proof.
  intro Hx. unfold tri_grid_cells, tbases. rewrite map_map.
  assert (C : forall f, (forall iy ix, f iy ix = map (tcell nx ny (ix, iy)) (tris (kind_at diagonal (ix, iy)))) ->
    concat (map (fun iy => concat (map (f iy) (seq 0 nx))) (seq 0 ny)) =
    concat (map (fun i => map (tcell nx ny (i mod nx, i / nx)) (tris (kind_at diagonal (i mod nx, i / nx)))) (seq 0 (ny * nx)))).
  { intros f Hf. rewrite concat_grid by lia. f_equal. apply map_ext. intro i. apply Hf. }
  destruct diagonal.
  3:{ cbn [tri_cells]. apply C. intros iy ix. unfold crossed_cells, tcell. cbn [kind_at tris map glab code fst snd c00 c10 c01 c11]. unfold M.
      repeat match goal with |- _ :: _ = _ :: _ => f_equal end; lia. }
  all: unfold tri_cells; match goal with |- context [fold_left (tri_row ?d _)] => destruct (rows_fold d nx ny) as (? & -> & _) end; cbn [snd];
    apply C; intros iy ix; unfold sq_cells, tcell, kind_at; cbn [fst snd];
    match goal with |- context [local_at ?d iy ix] => cbn [local_at] end; try destruct (Nat.even (ix + iy));
    cbn [tris map glab code fst snd c00 c10 c01 c11]; repeat match goal with |- _ :: _ = _ :: _ => f_equal end; lia.
Qed.

Lemma nth_map_seq {A} (f : nat -> A) n v d : v < n -> nth v (map f (seq 0 n)) d = f v.
Proof.
  intro H. rewrite (nth_indep _ d (f 0)) by (rewrite map_length, seq_length; exact H).
  rewrite map_nth, seq_nth by exact H. reflexivity.
Qed.

Lemma tri_statement (eps : R) (nx ny gdim : nat) (x0 y0 x1 y1 : R) (diagonal : diagonal_type) :
  1 <= nx -> 1 <= ny -> 2 <= gdim <= 3 -> (x0 < x1)%R -> (y0 < y1)%R -> (eps <= x1 - x0)%R -> (eps <= y1 - y0)%R ->
  (forall rank, 0 < rank -> create_rectangle eps rank (x0, y0) (x1, y1) (nx, ny) triangle diagonal gdim = Some ([], [])) /\
  exists X cells, create_rectangle eps 0 (x0, y0) (x1, y1) (nx, ny) triangle diagonal gdim = Some (X, cells) /\
    length X = tri_points diagonal nx ny /\ length cells = tri_count diagonal * (nx * ny) /\ (forall x, In x X -> length x = gdim) /\
    tiling (simplex_weights 3) X cells (corner [x0; y0]) (corner [x1; y1]) /\
    forall ix iy, ix < nx -> iy < ny ->
      let g := grid_point x0 y0 x1 y1 nx ny in
      (joined X cells (g ix iy) (g (ix + 1) (iy + 1)) <-> rising diagonal ix iy = true) /\
      (joined X cells (g (ix + 1) iy) (g ix (iy + 1)) <-> falling diagonal ix iy = true).
Proof.
  intros Hx Hy Hg Lx Ly Ex Ey.
  assert (B : existsb (fun e => e <? 1) [nx; ny] = false).
  { cbn [existsb]. rewrite !(proj2 (Nat.ltb_ge _ 1)) by lia. reflexivity. }
  assert (Bg : (gdim <? 2) || (3 <? gdim) = false) by (apply orb_false_iff; split; apply Nat.ltb_ge; lia).
  unfold create_rectangle, build_tri. rewrite B, Bg, !less_true by assumption. cbn [andb negb].
  split. { intros rank Hr. destruct (Nat.eqb_spec rank 0); [lia|reflexivity]. }
  cbn [Nat.eqb]. rewrite !Rabs_pos_eq by lra. rewrite !less_false by assumption. cbn [orb]. eexists _, _. split; [reflexivity|].
  set (ab := ((x1 - x0) / INR nx)%R). set (cd := ((y1 - y0) / INR ny)%R).
  pose proof (width_pos x0 x1 nx Hx Lx : 0 < ab)%R as P0. pose proof (width_pos y0 y1 ny Hy Ly : 0 < cd)%R as P1.
  pose proof (INR_pos nx Hx) as Nx. pose proof (INR_pos ny Hy) as Ny.
  set (X := map (embed gdim) (tri_vertices x0 y0 ab cd nx ny diagonal)).
  set (cross := is_crossed diagonal).
  assert (Hk : forall b, kind_at diagonal b = both_kind <-> cross = true).
  { intro b. unfold cross, is_crossed, kind_at. destruct diagonal; cbn [local_at]; try destruct (Nat.even _); split; congruence. }
  set (V1 := map (fun v => [(x0 + ab * INR (v mod (nx + 1)))%R; (y0 + cd * INR (v / (nx + 1)))%R]) (seq 0 (M nx ny))).
  set (V2 := if cross then map (fun v => [(x0 + ab * (INR (v mod nx) + / 2))%R; (y0 + cd * (INR (v / nx) + / 2))%R]) (seq 0 (nx * ny)) else []).
  assert (EV : tri_vertices x0 y0 ab cd nx ny diagonal = V1 ++ V2).
  { unfold tri_vertices. rewrite (grid_list (fun iy ix => [(x0 + ab * INR ix)%R; (y0 + cd * INR iy)%R]) (ny + 1) (nx + 1)) by lia.
    unfold V1, M. rewrite (Nat.mul_comm (nx + 1) (ny + 1)). f_equal. unfold V2, cross, is_crossed. destruct diagonal; try reflexivity.
    rewrite (grid_list (fun iy ix => [(x0 + ab * (INR ix + / 2))%R; (y0 + cd * (INR iy + / 2))%R]) ny nx) by lia. rewrite (Nat.mul_comm nx ny). reflexivity. }
  assert (LX : length X = NT nx ny cross).
  { unfold X. rewrite EV, map_length, app_length. unfold V1, V2, NT. rewrite map_length, seq_length. destruct cross; [rewrite map_length, seq_length|]; cbn [length]; lia. }
  assert (CX : forall v j, v < length X -> coordinate X j v = (corner [x0; y0] j + tpos nx ny j v * match j with 0%nat => ab | 1%nat => cd | _ => 1%R end)%R).
  { intros v j Hv. rewrite LX in Hv. unfold X, coordinate. rewrite EV.
    assert (E : nth v (map (embed gdim) (V1 ++ V2)) [] = embed gdim (nth v (V1 ++ V2) [])).
    { destruct (Nat.lt_ge_cases v (length (V1 ++ V2))) as [L|L].
      - rewrite (nth_indep _ [] (embed gdim [])) by (rewrite map_length; exact L). apply map_nth.
      - exfalso. rewrite <- LX in Hv. unfold X in Hv. rewrite EV, map_length in Hv. lia. }
    rewrite E. clear E. unfold tpos, lab. destruct (Nat.ltb_spec v (M nx ny)) as [L|L].
    - rewrite app_nth1 by (unfold V1; rewrite map_length, seq_length; exact L).
      unfold V1. rewrite nth_map_seq by exact L. rewrite embed_nth by (cbn; lia). unfold corner.
      destruct j as [|[|j]]; cbn [nth lpos]; [lra|lra|]. destruct j; lra.
    - unfold NT in Hv. destruct cross eqn:Ec; [|lia].
      rewrite app_nth2 by (unfold V1; rewrite map_length, seq_length; exact L).
      unfold V1 at 1. rewrite map_length, seq_length. unfold V2.
      rewrite nth_map_seq by lia. rewrite embed_nth by (cbn; lia). unfold corner.
      destruct j as [|[|j]]; cbn [nth lpos]; [lra|lra|]. destruct j; lra. }
  pose proof (tri_grid nx ny cross (kind_at diagonal) Hx Hy Hk) as HG.
  rewrite tri_cells_grid by exact Hx.
  split. { rewrite LX. unfold NT, tri_points, M, cross, is_crossed. destruct diagonal; lia. }
  split.
  { unfold tri_grid_cells, tbases. rewrite map_map, (Nat.mul_comm ny nx). generalize (seq_length (nx * ny) 0). generalize (seq 0 (nx * ny)) as l. intros l <-.
    induction l as [|i l IH]; [cbn; lia|]. cbn [map concat]. rewrite app_length, IH, map_length.
    assert (E : length (tris (kind_at diagonal (i mod nx, i / nx))) = tri_count diagonal).
    { unfold kind_at. destruct diagonal; cbn [local_at fst snd]; try destruct (Nat.even _); reflexivity. }
    rewrite E. cbn [length]. lia. }
  split. { intros x Hxi. apply in_map_iff in Hxi as (r & <- & Hr). unfold embed. rewrite firstn_length, app_length, repeat_length. lia. }
  split.
  - apply (tiling_ext _ _ _ _ (fun j => corner [x0; y0] j + INR (co j (nx, ny, 0%nat)) * match j with 0%nat => ab | 1%nat => cd | _ => 1%R end)%R).
    { intros [|[|[|j]]]; unfold corner; cbn [nth co fst snd]; unfold ab, cd; [field; lra|field; lra|cbn; lra|]. destruct j; cbn; lra. }
    apply (reduce (simplex_weights 3) X (tpos nx ny) (corner [x0; y0]) (fun j => match j with 0%nat => ab | 1%nat => cd | _ => 1%R end) (fun j => INR (co j (nx, ny, 0)))).
    + intros l (_ & H). exact H.
    + exact CX.
    + intros [|[|j]]; lra.
    + rewrite LX. exact HG.
  - intros ix iy Hix Hiy. cbv zeta. set (g := grid_point x0 y0 x1 y1 nx ny).
    assert (Kr : kind_at diagonal (ix, iy) = rising_kind <-> rising diagonal ix iy = true).
    { unfold kind_at, rising. rewrite <- (Nat.negb_even (ix + iy)). destruct diagonal; cbn [local_at fst snd]; try destruct (Nat.even (ix + iy)); split; (reflexivity || discriminate). }
    assert (Kf : kind_at diagonal (ix, iy) = falling_kind <-> falling diagonal ix iy = true).
    { unfold kind_at, falling. rewrite <- (Nat.negb_even (ix + iy)). destruct diagonal; cbn [local_at fst snd]; try destruct (Nat.even (ix + iy)); split; (reflexivity || discriminate). }
    assert (At : forall v a c, v < length X -> ((forall j, coordinate X j v = g a c j) <-> lab nx ny v = inl (a, c))).
    { intros v a c Hv. split.
      - intro E. pose proof (E 0) as E0. pose proof (E 1) as E1. rewrite CX in E0, E1 by exact Hv. unfold g, grid_point, corner in E0, E1. cbn [nth] in E0, E1.
        apply lab_at.
        + apply (Rmult_eq_reg_r ab); [|lra]. unfold ab in *. replace (INR a * ((x1 - x0) / INR nx))%R with ((x1 - x0) * INR a / INR nx)%R by (field; lra). lra.
        + apply (Rmult_eq_reg_r cd); [|lra]. unfold cd in *. replace (INR c * ((y1 - y0) / INR ny))%R with ((y1 - y0) * INR c / INR ny)%R by (field; lra). lra.
      - intros E j. rewrite CX by exact Hv. unfold tpos. rewrite E. unfold g, grid_point, corner.
        destruct j as [|[|j]]; cbn [nth lpos]; unfold ab, cd; [field; lra|field; lra|]. destruct j; lra. }
    assert (Jo : forall a c a' c', joined X (tri_grid_cells nx ny (kind_at diagonal)) (g a c) (g a' c') <->
      exists t v w, In t (tri_grid_cells nx ny (kind_at diagonal)) /\ In v t /\ In w t /\ lab nx ny v = inl (a, c) /\ lab nx ny w = inl (a', c')).
    { intros a c a' c'. split; intros (t & v & w & Ht & Hv & Hw & H); exists t, v, w; (split; [exact Ht|]; split; [exact Hv|]; split; [exact Hw|]);
        destruct (g_vertices _ _ _ _ _ HG t Ht) as (_ & Hlt); rewrite <- LX in Hlt.
      - split; apply At; [apply Hlt, Hv|intro j; apply H|apply Hlt, Hw|intro j; apply H].
      - destruct H as (H1 & H2). intro j. split; [apply (proj2 (At v a c (Hlt v Hv)) H1)|apply (proj2 (At w a' c' (Hlt w Hw)) H2)]. }
    rewrite !Jo. rewrite (rising_grid nx ny cross (kind_at diagonal) Hx Hy Hk ix iy Hix Hiy), (falling_grid nx ny cross (kind_at diagonal) Hx Hy Hk ix iy Hix Hiy).
    split; assumption.
Qed.
