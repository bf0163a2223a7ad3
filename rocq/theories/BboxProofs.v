(** Proofs about bounding-box trees. *)
From Verif Require Import Base BaseProofs Bbox BboxSpec.

Section P.
Context {T : Type}.
Variable A : arith T.
Hypothesis Aok : arith_ok A.
Notation le x y := (a_leb A x y = true).
Lemma le_refl x : le x x. Proof. destruct (ao_total A Aok x x); assumption. Qed.
Lemma le_trans x y z : le x y -> le y z -> le x z. Proof. apply (ao_trans A Aok). Qed.
Lemma ltb_le x y : ltb A x y = true -> le x y.
Proof. unfold ltb. intro H. destruct (ao_total A Aok x y) as [E|E]; [exact E|]. rewrite E in H. discriminate. Qed.
Lemma nltb_le x y : ltb A x y = false -> le y x.
Proof. unfold ltb. intro H. now apply Bool.negb_false_iff in H. Qed.

Lemma tmin_l x y : le (tmin A x y) x. Proof. unfold tmin. destruct (ltb A y x) eqn:E; [now apply ltb_le|apply le_refl]. Qed.
Lemma tmin_r x y : le (tmin A x y) y. Proof. unfold tmin. destruct (ltb A y x) eqn:E; [apply le_refl|now apply nltb_le]. Qed.
Lemma tmax_l x y : le x (tmax A x y). Proof. unfold tmax. destruct (ltb A x y) eqn:E; [now apply ltb_le|apply le_refl]. Qed.
Lemma tmax_r x y : le y (tmax A x y). Proof. unfold tmax. destruct (ltb A x y) eqn:E; [apply le_refl|now apply nltb_le]. Qed.

Lemma comp_vmap2 f (a b : vec3 T) i : comp (vmap2 f a b) i = f (comp a i) (comp b i).
Proof. destruct i as [|[|i]]; reflexivity. Qed.

Notation subbox := (subbox A).
Lemma subbox_refl b : subbox b b. Proof. intros i _. split; apply le_refl. Qed.
Lemma subbox_trans a b c : subbox a b -> subbox b c -> subbox a c.
Proof. intros H1 H2 i Hi. destruct (H1 i Hi), (H2 i Hi). split; eapply le_trans; eauto. Qed.

Lemma bbox_of_sub b0 (l : list (leaf_of T)) : subbox b0 (bbox_of_bboxes A b0 l) /\ forall lf, In lf l -> subbox (fst lf) (bbox_of_bboxes A b0 l).
Proof.
  revert b0. induction l as [|x l IH]; intro b0; [split; [apply subbox_refl|intros lf []]|].
  unfold bbox_of_bboxes. cbn [fold_left]. fold (bbox_of_bboxes A (mkBox (vmap2 (tmin A) (blo (fst x)) (blo b0)) (vmap2 (tmax A) (bhi (fst x)) (bhi b0))) l).
  set (b1 := mkBox _ _). destruct (IH b1) as (H0 & H). split.
  - apply (subbox_trans _ b1); [|exact H0]. intros i Hi. unfold b1. cbn [blo bhi]. rewrite !comp_vmap2. split; [apply tmin_r|apply tmax_r].
  - intros lf [->|Hin]; [|now apply H]. apply (subbox_trans _ b1); [|exact H0]. intros i Hi. unfold b1. cbn [blo bhi]. rewrite !comp_vmap2. split; [apply tmin_l|apply tmax_l].
Qed.

Lemma below3 (Q : nat -> Prop) : (forall i, i < 3 -> Q i) <-> Q 0 /\ Q 1 /\ Q 2.
Proof. split; [intro H; repeat split; apply H; lia|]. intros (H0 & H1 & H2) [|[|[|i]]] Hi; try assumption; lia. Qed.
Lemma point_in_spec b x : point_in_bbox A b x = true <-> in_box A b x.
Proof.
  unfold point_in_bbox, in_box. rewrite below3. cbn [forallb]. rewrite !Bool.andb_true_iff. fold (tol A b 0) (tol A b 1) (tol A b 2). tauto.
Qed.
Lemma bbox_in_spec a b : bbox_in_bbox A a b = true <-> overlap A a b.
Proof.
  unfold bbox_in_bbox, overlap. rewrite below3. cbn [forallb]. rewrite !Bool.andb_true_iff. fold (tol A b 0) (tol A b 1) (tol A b 2). tauto.
Qed.
Lemma tol_mono a b i : i < 3 -> subbox a b -> le (tol A a i) (tol A b i).
Proof. intros Hi H. destruct (H i Hi). unfold tol. apply (ao_rtol A Aok). now apply (ao_sub A Aok). Qed.
Lemma lower_mono a b i : i < 3 -> subbox a b -> le (a_sub A (comp (blo b) i) (tol A b i)) (a_sub A (comp (blo a) i) (tol A a i)).
Proof. intros Hi H. apply (ao_sub A Aok); [apply (H i Hi)|now apply tol_mono]. Qed.
Lemma upper_mono a b i : i < 3 -> subbox a b -> le (a_add A (comp (bhi a) i) (tol A a i)) (a_add A (comp (bhi b) i) (tol A b i)).
Proof. intros Hi H. apply (ao_add A Aok); [apply (H i Hi)|now apply tol_mono]. Qed.
Lemma in_box_mono a b x : subbox a b -> in_box A a x -> in_box A b x.
Proof.
  intros H Hx i Hi. destruct (Hx i Hi) as (X & Y). split; eapply le_trans; eauto using lower_mono, upper_mono.
Qed.
Lemma overlap_mono a a' b b' : subbox a a' -> subbox b b' -> overlap A a b -> overlap A a' b'.
Proof.
  intros Ha Hb H i Hi. destruct (H i Hi) as (X & Y), (Ha i Hi) as (Z & W). split.
  - eapply le_trans; [apply (lower_mono b b' i Hi Hb)|]. eapply le_trans; eauto.
  - eapply le_trans; [exact Z|]. eapply le_trans; [exact Y|apply (upper_mono b b' i Hi Hb)].
Qed.

(** ** Trees *)
Inductive tr := Lf (e : nat) (b : box T) | Nd (l r : tr) (b : box T).
Definition tbox t := match t with Lf _ b => b | Nd _ _ b => b end.
Fixpoint leaves t : list (leaf_of T) := match t with Lf e b => [(b, e)] | Nd l r _ => leaves l ++ leaves r end.
Fixpoint size t := match t with Lf _ _ => 1 | Nd l r _ => S (size l + size r) end.
Fixpoint rep (nodes : list (node_of T)) (i : nat) (t : tr) : Prop :=
  match t with
  | Lf e b => nth_error nodes i = Some ((e, e), b)
  | Nd l r b => exists c0 c1, nth_error nodes i = Some ((c0, c1), b) /\ c0 <> c1 /\ rep nodes c0 l /\ rep nodes c1 r
  end.
Fixpoint good t : Prop :=
  match t with
  | Lf _ _ => True
  | Nd l r b => (forall lf, In lf (leaves l ++ leaves r) -> subbox (fst lf) b) /\ good l /\ good r
  end.
Lemma good_sub t : good t -> forall lf, In lf (leaves t) -> subbox (fst lf) (tbox t).
Proof. destruct t as [e b|l r b]; cbn; [intros _ lf [<-|[]]; apply subbox_refl|]. intros (H & _). exact H. Qed.
Lemma size_pos t : 1 <= size t. Proof. destruct t; cbn; lia. Qed.
Lemma size_leaves t : S (size t) = 2 * length (leaves t).
Proof. induction t as [|l IHl r IHr b]; cbn [size leaves length]; [reflexivity|]. rewrite app_length. lia. Qed.
Lemma rep_app nodes more i t : rep nodes i t -> rep (nodes ++ more) i t.
Proof.
  revert i. induction t as [e b|l IHl r IHr b]; intros i H; cbn in *.
  - rewrite nth_error_app1; [exact H|]. apply nth_error_Some. congruence.
  - destruct H as (c0 & c1 & E & N & H0 & H1). exists c0, c1. rewrite nth_error_app1 by (apply nth_error_Some; congruence). auto.
Qed.

(** What both builders give. *)
Definition built (nodes nodes' : list (node_of T)) (i : nat) (t : tr) : Prop :=
  (exists new, nodes' = nodes ++ new /\ length new = size t /\ exists b e, nth_error new 0 = Some ((e, e), b) /\ In (b, e) (leaves t)) /\ S i = length nodes' /\ rep nodes' i t.
Lemma built_leaf nodes b e : built nodes (nodes ++ [((e, e), b)]) (length nodes) (Lf e b).
Proof.
  split; [|split].
  - exists [((e, e), b)]. do 2 (split; [reflexivity|]). exists b, e. split; [reflexivity|now left].
  - rewrite app_length. cbn. lia.
  - cbn. now rewrite nth_error_app2, Nat.sub_diag by lia.
Qed.
Lemma built_node n0 n1 n2 c0 c1 t0 t1 b : built n0 n1 c0 t0 -> built n1 n2 c1 t1 -> built n0 (n2 ++ [((c0, c1), b)]) (length n2) (Nd t0 t1 b).
Proof.
  intros ((w0 & E0 & L0 & b0 & e0 & F0 & I0) & I1 & R0) ((w1 & E1 & L1 & _) & I2 & R1). split; [|split].
  - exists (w0 ++ w1 ++ [((c0, c1), b)]). split; [subst; now rewrite <- !app_assoc|]. split; [rewrite !app_length; cbn; lia|]. exists b0, e0.
    split; [rewrite nth_error_app1 by (apply nth_error_Some; congruence); exact F0|]. cbn. apply in_or_app. now left.
  - rewrite app_length. cbn. lia.
  - cbn. exists c0, c1. rewrite nth_error_app2, Nat.sub_diag by lia. split; [reflexivity|]. split; [|split].
    + pose proof (size_pos t1). subst n2. rewrite app_length in I2. lia.
    + apply rep_app. subst n2. now apply rep_app.
    + now apply rep_app.
Qed.

Section Build.
Variable nth_leaf : nat -> list (leaf_of T) -> list (leaf_of T).
Hypothesis Hnth : forall a l, Permutation (nth_leaf a l) l.
Lemma half_split {X} (l : list X) : 2 <= length l -> length (firstn (length l / 2) l) < length l /\ length (skipn (length l / 2) l) < length l /\
  1 <= length (firstn (length l / 2) l) /\ 1 <= length (skipn (length l / 2) l).
Proof.
  intro H. rewrite skipn_length, firstn_length. pose proof (Nat.div_mod (length l) 2 ltac:(lia)). pose proof (Nat.mod_upper_bound (length l) 2 ltac:(lia)). lia.
Qed.
Lemma build_ok fuel l nodes : 1 <= length l <= fuel -> exists i nodes' t, build A nth_leaf fuel l nodes = Some (i, nodes') /\ built nodes nodes' i t /\ good t /\ Permutation (leaves t) l.
Proof.
  revert l nodes. induction fuel as [|f IH]; intros l nodes Hl; [lia|]. destruct l as [|(b0, e0) [|x l]]; [cbn in Hl; lia| |].
  - cbn. do 3 eexists. split; [reflexivity|]. split; [apply built_leaf|]. split; [exact I|apply Permutation_refl].
  - cbn [build]. set (L := (b0, e0) :: x :: l) in *. set (b := bbox_of_bboxes A b0 L). set (L' := nth_leaf (longest A b) L). pose proof (Hnth (longest A b) L) as HP. fold L' in HP.
    assert (EL : length L' = length L) by (now apply Permutation_length). assert (H : 2 <= length L') by (rewrite EL; cbn; lia). assert (Hll : 1 <= length L' <= S f) by (rewrite EL; exact Hl). destruct (half_split L' H) as (H1 & H2 & H3 & H4).
    destruct (IH (firstn (length L' / 2) L') nodes ltac:(lia)) as (c0 & n1 & t0 & -> & B0 & G0 & P0). cbn [obind].
    destruct (IH (skipn (length L' / 2) L') n1 ltac:(lia)) as (c1 & n2 & t1 & -> & B1 & G1 & P1). cbn [obind].
    assert (HPl : Permutation (leaves t0 ++ leaves t1) L). { rewrite P0, P1, firstn_skipn. exact HP. }
    exists (length n2), (n2 ++ [((c0, c1), b)]), (Nd t0 t1 b). split; [reflexivity|]. split; [exact (built_node nodes n1 n2 c0 c1 t0 t1 b B0 B1)|]. split; [|exact HPl].
    cbn. split; [|auto]. intros lf Hin. apply (proj2 (bbox_of_sub b0 L)). exact (Permutation_in _ HPl Hin).
Qed.
Lemma build_tree_ok l : l <> [] -> exists nodes t, build_tree A nth_leaf l = Some nodes /\ built [] nodes (length nodes - 1) t /\ good t /\ Permutation (leaves t) l.
Proof.
  intro H. unfold build_tree. destruct l as [|x l]; [contradiction|]. destruct (build_ok (length (x :: l)) (x :: l) [] ltac:(cbn; lia)) as (i & nodes & t & -> & B & G & P).
  cbn [obind]. exists nodes, t. split; [reflexivity|]. split; [|auto]. destruct B as (X & E & R). assert (length nodes - 1 = i) as -> by lia. split; auto.
Qed.
End Build.

Lemma built_nil nodes t : built [] nodes (length nodes - 1) t -> rep nodes (length nodes - 1) t /\ length nodes = size t /\ nodes <> [].
Proof.
  intros ((new & E & L & _) & _ & R). cbn in E. subst nodes. split; [exact R|]. split; [exact L|]. intros ->. pose proof (size_pos t). cbn in L. lia.
Qed.

(** ** Points *)
Section Point.
Variable nodes : list (node_of T).
Variable p : vec3 T.
Notation pin b := (point_in_bbox A b p).
Fixpoint coll t : list nat :=
  match t with
  | Lf e b => if pin b then [e] else []
  | Nd l r _ => (if pin (tbox l) then coll l else []) ++ (if pin (tbox r) then coll r else [])
  end.
Definition resume f (stack : list nat) ents := match stack with [] => Some ents | n :: s => point_loop A f nodes p n s ents end.
Definition open t := match t with Lf _ b => pin b = true | Nd _ _ _ => True end.
Lemma rep_box i t : rep nodes i t -> exists c, nth_error nodes i = Some (c, tbox t).
Proof. destruct t; cbn; [eauto|]. intros (c0 & c1 & E & _). eauto. Qed.
Lemma loop_ok t : forall i stack ents, rep nodes i t -> open t -> exists k, k <= size t /\ forall f, point_loop A (k + f) nodes p i stack ents = resume f stack (ents ++ coll t).
Proof.
  induction t as [e b|l IHl r IHr b]; intros i stack ents R O; cbn [rep open] in R, O.
  - exists 1. split; [cbn; lia|]. intro f. cbn [plus point_loop]. rewrite R. cbn [obind]. unfold is_leaf. cbn [fst snd]. rewrite Nat.eqb_refl, O. cbn [andb obind coll]. rewrite O. destruct stack; reflexivity.
  - destruct R as (c0 & c1 & E & N & R0 & R1). destruct (rep_box _ _ R0) as (d0 & E0), (rep_box _ _ R1) as (d1 & E1).
    assert (EL : is_leaf (c0, c1) = false) by (unfold is_leaf; now apply Nat.eqb_neq). cbn [coll size].
    assert (St : forall f, point_loop A (S f) nodes p i stack ents =
       (if pin (tbox l) && pin (tbox r) then point_loop A f nodes p c0 (c1 :: stack) ents else if pin (tbox l) then point_loop A f nodes p c0 stack ents
        else if pin (tbox r) then point_loop A f nodes p c1 stack ents else resume f stack ents)).
    { intro f. cbn [point_loop]. rewrite E. cbn [obind]. rewrite EL. cbn [andb fst snd]. rewrite E0. cbn [obind]. rewrite E1. cbn [obind].
      destruct (pin (tbox l)), (pin (tbox r)); cbn [andb]; try reflexivity; destruct stack; reflexivity. }
    assert (Ol : pin (tbox l) = true -> open l) by (destruct l; cbn; auto). assert (Or : pin (tbox r) = true -> open r) by (destruct r; cbn; auto).
    destruct (pin (tbox l)) eqn:Pl, (pin (tbox r)) eqn:Pr; cbn [andb] in St.
    + destruct (IHl c0 (c1 :: stack) ents R0 (Ol eq_refl)) as (k0 & K0 & H0). destruct (IHr c1 stack (ents ++ coll l) R1 (Or eq_refl)) as (k1 & K1 & H1).
      exists (S (k0 + k1)). split; [lia|]. intro f. change (S (k0 + k1) + f) with (S (k0 + k1 + f)). rewrite St, <- Nat.add_assoc, H0. cbn [resume]. rewrite H1. now rewrite app_assoc.
    + destruct (IHl c0 stack ents R0 (Ol eq_refl)) as (k0 & K0 & H0). exists (S k0). split; [lia|]. intro f. change (S k0 + f) with (S (k0 + f)). rewrite St, H0. now rewrite app_nil_r.
    + destruct (IHr c1 stack ents R1 (Or eq_refl)) as (k1 & K1 & H1). exists (S k1). split; [lia|]. intro f. change (S k1 + f) with (S (k1 + f)). rewrite St, H1. reflexivity.
    + exists 1. split; [lia|]. intro f. change (1 + f) with (S f). rewrite St. now rewrite app_nil_r.
Qed.
Lemma coll_ok t : good t -> coll t = map snd (filter (fun lf => pin (fst lf)) (leaves t)).
Proof.
  induction t as [e b|l IHl r IHr b]; intro G; cbn [coll leaves].
  - cbn [filter fst]. destruct (pin b); reflexivity.
  - destruct G as (_ & Gl & Gr). rewrite filter_app, map_app.
    assert (H : forall t, good t -> coll t = map snd (filter (fun lf => pin (fst lf)) (leaves t)) -> (if pin (tbox t) then coll t else []) = map snd (filter (fun lf => pin (fst lf)) (leaves t))).
    { intros t Gt Et. destruct (pin (tbox t)) eqn:Ep; [exact Et|]. rewrite filter_none; [reflexivity|]. intros lf Hin. destruct (pin (fst lf)) eqn:Q; [|reflexivity].
      apply point_in_spec in Q. apply (in_box_mono _ (tbox t)) in Q; [|now apply good_sub]. apply point_in_spec in Q. congruence. }
    f_equal; apply H; auto.
Qed.
Lemma select_ok (Q : leaf_of T -> Prop) q l l' es : (forall x, q x = true <-> Q x) -> Permutation l l' -> es = map snd (filter q l) -> selects Q snd l' es.
Proof.
  intros Hq Hp ->. exists (filter q l). split; [apply Permutation_refl|]. split.
  - exists (filter (fun x => negb (q x)) l). split.
    + rewrite <- Hp. clear. induction l as [|x l IH]; [constructor|]. cbn [filter]. destruct (q x); cbn [negb app]; [now constructor|]. apply Permutation_cons_app. exact IH.
    + apply Forall_forall. intros x H. apply filter_In in H as (_ & H). intro HQ. apply Hq in HQ. rewrite HQ in H. discriminate.
  - apply Forall_forall. intros x H. apply Hq. now apply filter_In in H.
Qed.
Lemma point_ok t ents : rep nodes (length nodes - 1) t -> length nodes = size t -> good t -> open t ->
  exists es, point_loop A (length nodes) nodes p (length nodes - 1) [] ents = Some (ents ++ es) /\ es = map snd (filter (fun lf => pin (fst lf)) (leaves t)).
Proof.
  intros R L G O. destruct (loop_ok t (length nodes - 1) [] ents R O) as (k & K & H). exists (coll t). split; [|now apply coll_ok].
  replace (length nodes) with (k + (length nodes - k)) at 1 by lia. rewrite H. reflexivity.
Qed.
(** A single leaf that does not contain the point. *)
Lemma point_single e b ents : nodes = [((e, e), b)] -> pin b = false ->
  point_loop A (length nodes) nodes p (length nodes - 1) [] ents = match e with 0 => Some ents | S _ => None end.
Proof.
  intros -> Hp. cbn [length Nat.sub point_loop nth_error obind]. unfold is_leaf. cbn [fst snd]. rewrite Nat.eqb_refl, Hp. cbn [andb].
  destruct e as [|e]; cbn [nth_error obind]; [now rewrite Hp|]. destruct e; reflexivity.
Qed.
End Point.

Lemma points_ok nodes l pts :
  nodes <> [] -> (forall p ents, In p pts -> exists es, point_loop A (length nodes) nodes p (length nodes - 1) [] ents = Some (ents ++ es) /\ selects (fun lf : leaf_of T => in_box A (fst lf) p) snd l es) ->
  exists ents offs, collisions_points A nodes pts = Some (ents, offs) /\ length offs = S (length pts) /\
    forall i p, nth_error pts i = Some p -> exists es, slice_at ents offs i = Some es /\ selects (fun lf : leaf_of T => in_box A (fst lf) p) snd l es.
Proof.
  intros Hn H.
  enough (G : exists ess, length ess = length pts /\ (forall i p, nth_error pts i = Some p -> exists es, nth_error ess i = Some es /\ selects (fun lf : leaf_of T => in_box A (fst lf) p) snd l es) /\
     collisions_points A nodes pts = Some (concat ess, psums (map (@length _) ess))).
  { destruct G as (ess & E1 & E2 & E3). exists (concat ess), (psums (map (@length _) ess)). split; [exact E3|]. split; [rewrite psums_length, map_length; lia|].
    intros i p Hi. destruct (E2 i p Hi) as (es & Ee & Hs). exists es. split; [|exact Hs]. now apply slice_at_concat. }
  unfold collisions_points. destruct nodes as [|nd0 nodes]; [contradiction|]. set (N := nd0 :: nodes) in *. clearbody N. clear Hn.
  assert (G : forall acc offs, exists ess, length ess = length pts /\ (forall i p, nth_error pts i = Some p -> exists es, nth_error ess i = Some es /\ selects (fun lf : leaf_of T => in_box A (fst lf) p) snd l es) /\
     ofold (fun '(ents, offs) p => ents' <- point_loop A (length N) N p (length N - 1) [] ents ;; Some (ents', offs ++ [length ents'])) pts (acc, offs) = Some (acc ++ concat ess, offs ++ tl (psums_from (length acc) (map (@length _) ess)))).
  { induction pts as [|p pts IH]; intros acc offs.
    - exists []. split; [reflexivity|]. split; [intros [|i] p; discriminate|]. cbn. now rewrite !app_nil_r.
    - destruct (H p acc ltac:(now left)) as (es & E & Hs). cbn [ofold]. rewrite E. cbn [obind].
      destruct (IH (fun p ents Hin => H p ents (or_intror Hin)) (acc ++ es) (offs ++ [length (acc ++ es)])) as (ess & E1 & E2 & ->).
      exists (es :: ess). split; [cbn; lia|]. split; [intros [|i] q Hq; [injection Hq as <-; exists es; auto|now apply E2]|].
      cbn [concat map psums_from tl]. rewrite <- app_assoc, app_length. f_equal. f_equal. rewrite <- app_assoc. f_equal. destruct ess; reflexivity. }
  destruct (G [] [0]) as (ess & E1 & E2 & E3). exists ess. split; [exact E1|]. split; [exact E2|]. rewrite E3. cbn [app length]. f_equal. f_equal. unfold psums. destruct ess; reflexivity.
Qed.
End P.
