From Coq Require Import Sorting.Sorted.
From Verif Require Import Base Algo BaseProofs AlgoProofs Tags TagsProofs MatrixCSR MatrixProofs Assemble AsmVector FormData FormSpec.
Open Scope nat_scope.

Lemma index_in_nth x l i : index_in x l = Some i -> nth_error l i = Some x.
Proof.
  revert i. induction l as [|y l IH]; intros i; cbn [index_in]; [discriminate|].
  destruct (Nat.eqb_spec x y) as [->|N]; [now intros [= <-]|].
  destruct (index_in x l) as [j|]; cbn [obind]; [|discriminate]. intros [= <-]. cbn. now apply IH.
Qed.
Lemma index_in_ex x l : In x l -> exists i, index_in x l = Some i.
Proof.
  induction l as [|y l IH]; [intros []|]. intros H. cbn [index_in].
  destruct (Nat.eqb_spec x y) as [->|N]; [now exists 0|]. destruct H as [->|H]; [congruence|].
  destruct (IH H) as [i ->]. now exists (S i).
Qed.
Lemma pair_of_ok M e c : etab_ok M -> In c (cells_of M e) -> exists p, pair_of M e c = Some p /\ fst p = c /\ is_local M e p.
Proof.
  intros HM H. destruct (eo_row M HM e c H) as (row & E & Hi). destruct (index_in_ex _ _ Hi) as [i Ei].
  exists (c, i). unfold pair_of. rewrite E. cbn [obind]. rewrite Ei. split; [reflexivity|]. split; [reflexivity|].
  exists row. split; [exact E|]. now apply index_in_nth.
Qed.
Lemma cells_nth M e : etab_ok M -> e < et_all M -> nth_error (et_cells M) e = Some (cells_of M e).
Proof. intros HM H. unfold cells_of. apply nth_error_nth'. now rewrite (eo_len M HM). Qed.

Lemma upd_nthd' {A} (l l' : list A) i j v d : upd l i v = Some l' -> nth j l' d = if i =? j then v else nth j l d.
Proof.
  intros H. rewrite <- !(nth_default_eq). unfold nth_default. rewrite (upd_nth _ _ _ j _ H). now destruct (i =? j).
Qed.
(** * The loops *)
Definition two (M : etab) (f : nat) : bool := length (cells_of M f) =? 2.
Lemma interior_loop_ok M marker fs acc : etab_ok M -> length marker = et_all M ->
  (forall f, In f fs -> f < et_all M) -> (forall f, In f fs -> two M f = false -> nth f marker true = false) ->
  exists l, interior_loop M marker fs acc = Some (acc ++ l) /\ Forall2 (interior_of M) (filter (two M) fs) l.
Proof.
  intros HM Hm. revert acc. induction fs as [|f fs IH]; intros acc Hf Ht.
  { exists []. split; [now rewrite app_nil_r|constructor]. }
  unfold interior_loop. cbn [ofold filter]. rewrite (cells_nth M f HM (Hf f (or_introl eq_refl))). cbn [obind].
  change (length (cells_of M f) =? 2) with (two M f).
  destruct (two M f) eqn:E2.
  - unfold two in E2. apply Nat.eqb_eq in E2. destruct (cells_of M f) as [|a [|b [|? ?]]] eqn:Ec; try discriminate E2.
    destruct (pair_of_ok M f a HM) as (pa & Ea & Fa & La); [rewrite Ec; now left|].
    destruct (pair_of_ok M f b HM) as (pb & Eb & Fb & Lb); [rewrite Ec; right; now left|].
    cbn [facet_pairs]. rewrite Ea, Eb. cbn [obind].
    destruct (IH (acc ++ [(pa, pb)])) as (l & E & F); [intros g Hg; apply Hf; now right|intros g Hg; apply Ht; now right|].
    unfold interior_loop in E. rewrite E. exists ((pa, pb) :: l). split; [now rewrite <- app_assoc|].
    constructor; [|exact F]. split; [cbn; rewrite Fa, Fb; exact Ec|]. split; [exact La|exact Lb].
  - assert (Hl : f < length marker) by (rewrite Hm; apply Hf; now left).
    rewrite (nth_error_nth' marker true Hl), (Ht f (or_introl eq_refl) E2). cbn [obind].
    apply IH; [intros g Hg; apply Hf; now right|intros g Hg; apply Ht; now right].
Qed.
Lemma interior_loop_none M marker fs acc f : etab_ok M -> length marker = et_all M ->
  (forall f, In f fs -> f < et_all M) -> In f fs -> two M f = false -> nth f marker false = true -> interior_loop M marker fs acc = None.
Proof.
  intros HM Hm. revert acc. induction fs as [|g fs IH]; intros acc Hf Hin H2 Ht; [destruct Hin|].
  unfold interior_loop. cbn [ofold]. rewrite (cells_nth M g HM (Hf g (or_introl eq_refl))). cbn [obind].
  change (length (cells_of M g) =? 2) with (two M g).
  assert (Hg : g < length marker) by (rewrite Hm; apply Hf; now left).
  destruct (Nat.eq_dec g f) as [->|N].
  - rewrite H2. rewrite (nth_error_nth' marker false Hg), Ht. reflexivity.
  - destruct Hin as [->|Hin]; [congruence|].
    assert (IH' : forall acc, interior_loop M marker fs acc = None) by (intros a; apply IH; [intros h Hh; apply Hf; now right|exact Hin|exact H2|exact Ht]).
    destruct (two M g) eqn:E2.
    + destruct (facet_pairs M g (cells_of M g)); [|reflexivity]. cbn [obind]. apply IH'.
    + rewrite (nth_error_nth' marker false Hg). cbn [obind]. destruct (nth g marker false); [reflexivity|]. cbn [obind]. apply IH'.
Qed.
Lemma ip_marker_ok M ip : (forall f, In f ip -> f < et_all M) ->
  exists m, ip_marker M ip = Some m /\ length m = et_all M /\ forall f, f < et_all M -> nth f m false = mem f ip.
Proof.
  intros H. unfold ip_marker.
  assert (G : forall ip m, length m = et_all M -> (forall f, In f ip -> f < et_all M) ->
     exists m', ofold (fun m f => upd m f true) ip m = Some m' /\ length m' = et_all M /\ forall f, f < et_all M -> nth f m' false = (mem f ip || nth f m false)%bool).
  { clear. induction ip as [|g ip IH]; intros m Hl H. { exists m. split; [reflexivity|]. split; [exact Hl|]. intros; reflexivity. }
    destruct (upd_some m g true) as [m1 E1]; [rewrite Hl; apply H; now left|].
    cbn [ofold]. rewrite E1. cbn [obind]. pose proof (upd_length _ _ _ _ E1) as L1.
    destruct (IH m1) as (m' & E & L & V); [congruence|intros f Hf; apply H; now right|].
    exists m'. split; [exact E|]. split; [exact L|]. intros f Hf. rewrite (V f Hf).
    unfold mem. cbn [existsb]. rewrite (upd_nthd' _ _ _ f _ false E1). rewrite (Nat.eqb_sym f g). destruct (Nat.eqb_spec g f) as [->|N]; cbn [orb]; [now rewrite orb_true_r|reflexivity]. }
  destruct (G ip (repeat false (et_all M))) as (m & E & L & V); [apply repeat_length|exact H|].
  exists m. split; [exact E|]. split; [exact L|]. intros f Hf. rewrite (V f Hf), nth_repeat. apply orb_false_r.
Qed.
Lemma entity_loop_ok M es acc : etab_ok M -> (forall e, In e es -> e < et_all M) -> (forall e, In e es -> cells_of M e <> []) ->
  exists l, entity_loop M es acc = Some (acc ++ l) /\ Forall2 (entity_of M) es l.
Proof.
  intros HM. revert acc. induction es as [|e es IH]; intros acc He Hc.
  { exists []. split; [now rewrite app_nil_r|constructor]. }
  unfold entity_loop. cbn [ofold]. rewrite (cells_nth M e HM (He e (or_introl eq_refl))). cbn [obind].
  destruct (cells_of M e) as [|c cs] eqn:Ec; [now destruct (Hc e (or_introl eq_refl))|]. cbn [entity_pair].
  destruct (pair_of_ok M e c HM) as (p & Ep & Fp & Lp); [rewrite Ec; now left|]. rewrite Ep. cbn [obind].
  destruct (IH (acc ++ [p])) as (l & E & F); [intros g Hg; apply He; now right|intros g Hg; apply Hc; now right|].
  unfold entity_loop in E. rewrite E. exists (p :: l). split; [now rewrite <- app_assoc|].
  constructor; [|exact F]. split; [rewrite Fp, Ec; now left|exact Lp].
Qed.

(** * Exterior facets *)
Lemma set_difference_filter a b : StronglySorted lt a -> StronglySorted lt b -> set_difference a b = filter (fun x => negb (mem x b)) a.
Proof.
  intros Ha. revert b. induction Ha as [|x a Ha IH Hx]; intros b Hb; [reflexivity|].
  induction Hb as [|y b Hb IHb Hy].
  - cbn. f_equal. clear. induction a; cbn; congruence.
  - change (set_difference (x :: a) (y :: b)) with (if x <? y then x :: set_difference a (y :: b) else if y <? x then set_difference (x :: a) b else set_difference a b).
    destruct (Nat.ltb_spec x y) as [L|L].
    + rewrite (IH (y :: b)) by now constructor. cbn [filter].
      replace (mem x (y :: b)) with false; [reflexivity|]. symmetry. apply not_true_iff_false. rewrite mem_iff. intros [->|Hi]; [lia|].
      rewrite Forall_forall in Hy. specialize (Hy x Hi). lia.
    + destruct (Nat.ltb_spec y x) as [L2|L2].
      * rewrite IHb. apply filter_ext_in. intros z Hz. f_equal. unfold mem. cbn [existsb].
        destruct (Nat.eqb_spec z y) as [->|]; [|reflexivity]. exfalso. destruct Hz as [->|Hz]; [lia|].
        rewrite Forall_forall in Hx. specialize (Hx y Hz). lia.
      * assert (y = x) as -> by lia. rewrite (IH b Hb). cbn [filter]. unfold mem at 2. cbn [existsb]. rewrite Nat.eqb_refl. cbn [orb negb].
        apply filter_ext_in. intros z Hz. f_equal. unfold mem. cbn [existsb].
        destruct (Nat.eqb_spec z x) as [->|]; [|reflexivity]. rewrite Forall_forall in Hx. specialize (Hx x Hz). lia.
Qed.
Lemma seq_sorted n k : StronglySorted lt (seq k n).
Proof. revert k. induction n as [|n IH]; intros k; cbn [seq]; constructor; [apply IH|]. apply Forall_forall. intros x H. apply in_seq in H. lia. Qed.
Lemma filter_sorted p l : StronglySorted lt l -> StronglySorted lt (filter p l).
Proof.
  induction 1 as [|x l H IH Hx]; cbn; [constructor|]. destruct (p x); [|exact IH]. constructor; [exact IH|].
  apply Forall_forall. intros y Hy. apply filter_In in Hy as [Hy _]. rewrite Forall_forall in Hx. now apply Hx.
Qed.
Lemma sorted_nodup l : StronglySorted lt l -> NoDup l.
Proof. induction 1 as [|x l H IH Hx]; constructor; [|exact IH]. intros Hi. rewrite Forall_forall in Hx. specialize (Hx x Hi). lia. Qed.
Definition one (M : etab) (f : nat) : bool := length (cells_of M f) =? 1.
Lemma exterior_ok F ip : etab_ok F -> StronglySorted lt ip ->
  exterior_facet_indices F ip = Some (filter (fun x => negb (mem x ip)) (filter (one F) (seq 0 (et_owned F)))).
Proof.
  intros HF Hip. unfold exterior_facet_indices.
  assert (E : forall fs acc, (forall f, In f fs -> f < et_all F) ->
      ofold (fun l f => cs <- nth_error (et_cells F) f ;; Some (if length cs =? 1 then l ++ [f] else l)) fs acc = Some (acc ++ filter (one F) fs)).
  { induction fs as [|f fs IH]; intros acc H; [cbn; now rewrite app_nil_r|].
    cbn [ofold filter]. rewrite (cells_nth F f HF (H f (or_introl eq_refl))). cbn [obind]. change (length (cells_of F f) =? 1) with (one F f).
    rewrite IH by (intros g Hg; apply H; now right). destruct (one F f); [now rewrite <- app_assoc|reflexivity]. }
  rewrite (E (seq 0 (et_owned F)) []). 2:{ intros f H. apply in_seq in H. pose proof (eo_owned F HF). lia. }
  cbn [obind app]. f_equal. apply set_difference_filter; [|exact Hip]. apply filter_sorted, seq_sorted.
Qed.
Lemma exterior_in M f : In f (filter (fun x => negb (mem x (ms_interprocess M))) (filter (one (ms_facets M)) (seq 0 (et_owned (ms_facets M))))) <-> owned_exterior M f.
Proof.
  rewrite !filter_In, in_seq, negb_true_iff, <- not_true_iff_false, mem_iff. unfold one. rewrite Nat.eqb_eq. unfold owned_exterior. split.
  - intros [[H1 H2] H3]. split; [lia|]. now split.
  - intros (H1 & H2 & H3). split; [|exact H3]. split; [lia|exact H2].
Qed.

(** * Default entities *)
Lemma default_interior M : fmesh_ok M ->
  ((forall f, ~ split_facet M f) -> exists l, covers (owned_interior M) (interior_of (ms_facets M)) l /\
     forall acc, (m <- ip_marker (ms_facets M) (ms_interprocess M) ;; interior_loop (ms_facets M) m (seq 0 (et_owned (ms_facets M))) acc) = Some (acc ++ l)) /\
  ((exists f, split_facet M f) -> forall acc, (m <- ip_marker (ms_facets M) (ms_interprocess M) ;; interior_loop (ms_facets M) m (seq 0 (et_owned (ms_facets M))) acc) = None).
Proof.
  intros HM. pose proof (mo_facets M HM) as HF. destruct (ip_marker_ok (ms_facets M) (ms_interprocess M) (mo_ip M HM)) as (m & E & L & V).
  assert (Hb : forall f, In f (seq 0 (et_owned (ms_facets M))) -> f < et_all (ms_facets M)) by (intros f H; apply in_seq in H; pose proof (eo_owned _ HF); lia).
  rewrite E. cbn [obind]. split.
  - intros Hs.
    assert (Ht : forall f, In f (seq 0 (et_owned (ms_facets M))) -> two (ms_facets M) f = false -> nth f m true = false).
    { intros f Hf H2. assert (Hl : f < length m) by (rewrite L; now apply Hb). rewrite (nth_indep m true false Hl), (V f (Hb f Hf)).
      apply not_true_iff_false. rewrite mem_iff. intros Hi. apply (Hs f). unfold two in H2. apply Nat.eqb_neq in H2. apply in_seq in Hf. repeat split; [lia|exact H2|exact Hi]. }
    destruct (interior_loop_ok _ m _ [] HF L Hb Ht) as (l & E0 & F0).
    exists l. split.
    + exists (filter (two (ms_facets M)) (seq 0 (et_owned (ms_facets M)))). split; [apply NoDup_filter, seq_NoDup|]. split; [|exact F0].
      intros f. rewrite filter_In, in_seq. unfold two, owned_interior. rewrite Nat.eqb_eq. split; intros [? ?]; (split; [lia|assumption]).
    + intros acc. destruct (interior_loop_ok _ m _ acc HF L Hb Ht) as (l' & E1 & F1). rewrite E1. do 2 f_equal.
      (* the data are a function of the facet *)
      cbn [app] in E0.
      assert (G : forall fs acc, interior_loop (ms_facets M) m fs acc = (x <- interior_loop (ms_facets M) m fs [] ;; Some (acc ++ x))).
      { clear. induction fs as [|f fs IH]; intros acc; [cbn; now rewrite app_nil_r|]. unfold interior_loop in *. cbn [ofold].
        destruct (nth_error (et_cells (ms_facets M)) f) as [cs|]; [|reflexivity]. cbn [obind]. destruct (length cs =? 2).
        - destruct (facet_pairs (ms_facets M) f cs) as [p|]; [|reflexivity]. cbn [obind app]. rewrite IH. rewrite (IH [p]). destruct (ofold _ fs []); [|reflexivity]. cbn [obind]. now rewrite <- app_assoc.
        - destruct (nth_error m f) as [[|]|]; cbn [obind]; [reflexivity| |reflexivity]. apply IH. }
      rewrite G, E0 in E1. cbn [obind] in E1. injection E1 as E1. now apply app_inv_head in E1.
  - intros (f & Hf & H2 & Hi) acc. apply (interior_loop_none _ m _ acc f HF L Hb); [apply in_seq; lia|now apply Nat.eqb_neq|].
    rewrite V by (pose proof (eo_owned _ HF); lia). now apply mem_iff.
Qed.
Lemma entity_loop_app M es acc : entity_loop M es acc = (x <- entity_loop M es [] ;; Some (acc ++ x)).
Proof.
  revert acc. induction es as [|e es IH]; intros acc; [cbn; now rewrite app_nil_r|]. unfold entity_loop in *. cbn [ofold].
  destruct (nth_error (et_cells M) e) as [cs|]; [|reflexivity]. cbn [obind]. destruct (entity_pair M e cs) as [p|]; [|reflexivity].
  cbn [obind app]. rewrite IH. rewrite (IH [p]). destruct (ofold _ es []); [|reflexivity]. cbn [obind]. now rewrite <- app_assoc.
Qed.
Lemma ext_tab_ok M t : fmesh_ok M -> etab_ok (ext_tab M t).
Proof. intros HM. destruct t; [apply (mo_facets M HM)|apply (mo_vertices M HM)|apply (mo_ridges M HM)]. Qed.
Lemma default_exterior M t : fmesh_ok M ->
  exists l, covers (owned_entity M t) (entity_of (ext_tab M t)) l /\
    forall acc, (es <- default_entities M t ;; entity_loop (ext_tab M t) es acc) = Some (acc ++ l).
Proof.
  intros HM. pose proof (ext_tab_ok M t HM) as HT.
  assert (HE : exists es, default_entities M t = Some es /\ NoDup es /\ (forall e, In e es <-> owned_entity M t e) /\
             (forall e, In e es -> e < et_all (ext_tab M t) /\ cells_of (ext_tab M t) e <> [])).
  { destruct t.
    - exists (filter (fun x => negb (mem x (ms_interprocess M))) (filter (one (ms_facets M)) (seq 0 (et_owned (ms_facets M))))).
      split; [apply exterior_ok; [apply (mo_facets M HM)|apply (mo_ip_sorted M HM)]|]. split; [apply NoDup_filter, NoDup_filter, seq_NoDup|]. split; [apply exterior_in|].
      intros e H. apply exterior_in in H as (H & H1 & _). pose proof (eo_owned _ HT). split; [cbn in *; lia|]. intros HC. cbn in HC. rewrite HC in H1. discriminate.
    - eexists. split; [reflexivity|]. split; [apply seq_NoDup|]. split; [intros e; rewrite in_seq; cbn; lia|].
      intros e H. apply in_seq in H. pose proof (eo_owned _ HT). split; [lia|]. apply (mo_ent M HM); [discriminate|lia].
    - eexists. split; [reflexivity|]. split; [apply seq_NoDup|]. split; [intros e; rewrite in_seq; cbn; lia|].
      intros e H. apply in_seq in H. pose proof (eo_owned _ HT). split; [lia|]. apply (mo_ent M HM); [discriminate|lia]. }
  destruct HE as (es & E & N & I & B). rewrite E. cbn [obind].
  destruct (entity_loop_ok (ext_tab M t) es [] HT) as (l & El & Fl); [intros e H; apply (B e H)|intros e H; apply (B e H)|].
  exists l. split; [exists es; auto|]. intros acc. rewrite entity_loop_app, El. reflexivity.
Qed.

(** * The loop over the integrals *)
Lemma lookup_id_ok {E} (sd : list (Z * E)) id es : sd_ok sd -> (lookup_id sd id = Some es <-> In (id, es) sd).
Proof.
  unfold sd_ok, lookup_id. induction sd as [|[k e] sd IH]; cbn [map]; intros H; [split; [discriminate|intros []]|].
  inversion H as [|? ? H1 H2]; subst. cbn [prefix_len fst]. destruct (Z.ltb_spec k id) as [L|L].
  - cbn [nth_error]. rewrite (IH H1). split; [now right|]. intros [[= -> ->]|Hi]; [lia|exact Hi].
  - cbn [nth_error]. destruct (Z.eqb_spec k id) as [->|N].
    + split; [intros [= ->]; now left|]. intros [[= ->]|Hi]; [reflexivity|].
      rewrite Forall_forall in H2. specialize (H2 id). cbn in H2. exfalso. apply (Z.lt_irrefl id). apply H2. apply in_map_iff. now exists (id, es).
    + split; [discriminate|]. intros [[= -> ->]|Hi]; [congruence|]. rewrite Forall_forall in H2.
      assert (k < id)%Z by (apply H2, in_map_iff; now exists (id, es)). lia.
Qed.

Section Attach.
Context {K E : Type}.
Variables (kernel : nat -> nat -> K) (ids : list Z) (default : nat -> list E -> option (list E)) (sd : option (list (Z * list E))).
Variable g : nat -> list E -> list E.
Local Notation step := (fun (fi : nat) => fun '(acc, igs) '(i, id) =>
           if (id =? -1)%Z then acc <- default fi acc ;; Some (acc, igs ++ [((i, fi), (kernel fi i, acc))])
           else match sd with
                | Some sd => match lookup_id sd id with Some es => Some (acc, igs ++ [((i, fi), (kernel fi i, es))]) | None => Some (acc, igs) end
                | None => Some (acc, igs)
                end).
Fixpoint iter (n : nat) (fi : nat) (a : list E) : list E := match n with 0 => a | S n => g fi (iter n fi a) end.
Fixpoint before (fi : nat) : list E := match fi with 0 => [] | S fi => iter (defaults ids (length ids)) fi (before fi) end.
Definition after (fi i : nat) : list E := iter (defaults ids (S i)) fi (before fi).
Definition data_at (fi i : nat) (id : Z) : option (K * list E) :=
  if (id =? -1)%Z then Some (kernel fi i, after fi i)
  else match sd with Some sd => option_map (fun es => (kernel fi i, es)) (lookup_id sd id) | None => None end.
Definition has_data (id : Z) : bool := (id =? -1)%Z || match sd with Some sd => match lookup_id sd id with Some _ => true | None => false end | None => false end.

Lemma get_app {X} (l : list ((nat * nat) * X)) i k e :
  get_integral (l ++ [e]) i k = match get_integral l i k with Some x => Some x | None => if (fst (fst e) =? i) && (snd (fst e) =? k) then Some (snd e) else None end.
Proof. unfold get_integral. induction l as [|x l IH]; cbn [app find].
  - now destruct ((fst (fst e) =? i) && (snd (fst e) =? k))%bool.
  - destruct ((fst (fst x) =? i) && (snd (fst x) =? k))%bool; [reflexivity|exact IH].
Qed.
Lemma num_app {X} (l : list ((nat * nat) * X)) k e : num_integrals (l ++ [e]) k = num_integrals l k + (if snd (fst e) =? k then 1 else 0).
Proof. unfold num_integrals. rewrite countb_app. cbn [countb]. destruct (snd (fst e) =? k); lia. Qed.

Definition state_ok (fi n : nat) (st : list E * list ((nat * nat) * (K * list E))) : Prop :=
  fst st = iter (defaults ids n) fi (before fi) /\
  (forall i k, get_integral (snd st) i k = if (k <? fi) || ((k =? fi) && (i <? n)) then id <- nth_error ids i ;; data_at k i id else None) /\
  (forall k, num_integrals (snd st) k = if k <? fi then countb has_data ids else if k =? fi then countb has_data (firstn n ids) else 0).

Lemma firstn_S_nth {A} (l : list A) n x : nth_error l n = Some x -> firstn (S n) l = firstn n l ++ [x].
Proof. revert n. induction l as [|y l IH]; intros [|n] H; try discriminate; cbn in *; [now injection H as ->|]. f_equal. now apply IH. Qed.
Lemma countb1 {A} (p : A -> bool) x : countb p [x] = if p x then 1 else 0.
Proof. cbn [countb]. destruct (p x); lia. Qed.

Variable NF : nat.
Hypothesis Hg : forall fi acc, fi < NF -> default fi acc = Some (g fi acc).
Lemma step_ok fi n id st : fi < NF -> nth_error ids n = Some id -> state_ok fi n st ->
  exists st', step fi st (n, id) = Some st' /\ state_ok fi (S n) st'.
Proof.
  destruct st as [acc igs]. intros HN Hn (Ha & Hget & Hnum). cbn [fst snd] in *.
  assert (HD : defaults ids (S n) = defaults ids n + if (id =? -1)%Z then 1 else 0).
  { unfold defaults. rewrite (firstn_S_nth _ _ _ Hn), countb_app, countb1. reflexivity. }
  assert (HC : countb has_data (firstn (S n) ids) = countb has_data (firstn n ids) + if has_data id then 1 else 0).
  { now rewrite (firstn_S_nth _ _ _ Hn), countb_app, countb1. }
  assert (Hnew : forall i k, ((k <? fi) || ((k =? fi) && (i <? S n)))%bool = ((k <? fi) || ((k =? fi) && (i <? n)))%bool \/ (i = n /\ k = fi)).
  { intros i k. destruct (Nat.eqb_spec k fi) as [->|]; [|now left]. destruct (Nat.eq_dec i n) as [->|]; [now right|]. left. f_equal. cbn [andb]. apply Bool.eq_iff_eq_true. rewrite !Nat.ltb_lt. lia. }
  assert (Hold : get_integral igs n fi = None).
  { rewrite Hget. rewrite !Nat.ltb_irrefl, andb_false_r. reflexivity. }
  assert (HT : forall k i, data_at fi n id = None -> (if (k <? fi) || ((k =? fi) && (i <? S n)) then id0 <- nth_error ids i ;; data_at k i id0 else None) =
     (if (k <? fi) || ((k =? fi) && (i <? n)) then id0 <- nth_error ids i ;; data_at k i id0 else None)).
  { intros k i HX. destruct (Hnew i k) as [->|[-> ->]]; [reflexivity|]. rewrite Hn. cbn [obind]. rewrite HX, Nat.eqb_refl, !Nat.ltb_irrefl. now destruct (_ || _). }
  assert (HS : forall x k i, data_at fi n id = Some x -> get_integral (igs ++ [((n, fi), x)]) i k =
     (if (k <? fi) || ((k =? fi) && (i <? S n)) then id0 <- nth_error ids i ;; data_at k i id0 else None)).
  { intros x k i HX. rewrite get_app. cbn [fst snd].
    destruct (Nat.eqb_spec n i) as [<-|Ni]; [destruct (Nat.eqb_spec fi k) as [<-|Nk]|]; cbn [andb].
    - rewrite Hold, Hn, Nat.eqb_refl. cbn [obind andb]. rewrite HX. replace (n <? S n) with true by (symmetry; apply Nat.ltb_lt; lia). now rewrite orb_true_r.
    - destruct (Hnew n k) as [->|[_ ->]]; [|congruence]. rewrite Hget. match goal with |- match ?x with _ => _ end = _ => now destruct x end.
    - destruct (Hnew i k) as [->|[-> _]]; [|congruence]. rewrite Hget. match goal with |- match ?x with _ => _ end = _ => now destruct x end. }
  assert (HNS : forall x, has_data id = true -> forall k, num_integrals (igs ++ [((n, fi), x)]) k =
      (if k <? fi then countb has_data ids else if k =? fi then countb has_data (firstn (S n) ids) else 0)).
  { intros x HX k. rewrite num_app, Hnum, HC, HX. cbn [fst snd]. destruct (Nat.ltb_spec k fi) as [L|L].
    - destruct (Nat.eqb_spec fi k); [lia|]. apply Nat.add_0_r.
    - destruct (Nat.eqb_spec fi k) as [->|N]; [now rewrite Nat.eqb_refl|]. destruct (Nat.eqb_spec k fi); [congruence|reflexivity]. }
  assert (HNN : has_data id = false -> forall k, num_integrals igs k =
      (if k <? fi then countb has_data ids else if k =? fi then countb has_data (firstn (S n) ids) else 0)).
  { intros HX k. rewrite Hnum, HC, HX, Nat.add_0_r. reflexivity. }
  destruct (Z.eqb_spec id (-1)) as [->|Nid].
  - rewrite (Hg fi acc HN). cbn [obind]. eexists. split; [reflexivity|]. cbn [Z.eqb] in HD.
    assert (Eacc : g fi acc = after fi n) by (unfold after; rewrite HD, Nat.add_1_r; cbn [iter]; now rewrite <- Ha).
    split; [cbn [fst]; rewrite Eacc; reflexivity|]. split; cbn [snd].
    + intros i k. apply HS. unfold data_at. cbn [Z.eqb]. rewrite Eacc. reflexivity.
    + apply HNS. reflexivity.
  - assert (HA : acc = iter (defaults ids (S n)) fi (before fi)) by now rewrite HD, Nat.add_0_r.
    assert (HDA : data_at fi n id = match sd with Some sd => option_map (fun es => (kernel fi n, es)) (lookup_id sd id) | None => None end)
      by (unfold data_at; now rewrite (proj2 (Z.eqb_neq _ _) Nid)).
    assert (HHD : has_data id = match sd with Some sd => match lookup_id sd id with Some _ => true | None => false end | None => false end)
      by (unfold has_data; now rewrite (proj2 (Z.eqb_neq _ _) Nid)).
    destruct sd as [l|] eqn:Esd; [destruct (lookup_id l id) as [es|]|]; cbn [option_map] in HDA; (eexists; split; [reflexivity|]; split; [exact HA|]; cbn [snd]).
    + split; [intros i k; now apply HS|now apply HNS].
    + split; [intros i k; rewrite Hget; symmetry; now apply HT|now apply HNN].
    + split; [intros i k; rewrite Hget; symmetry; now apply HT|now apply HNN].
Qed.
Lemma steps_ok fi st : fi < NF -> state_ok fi 0 st -> exists st', ofold (step fi) (enum ids) st = Some st' /\ state_ok fi (length ids) st'.
Proof.
  intros HN H0.
  assert (G : forall n, n <= length ids -> exists st', ofold (step fi) (firstn n (enum ids)) st = Some st' /\ state_ok fi n st').
  { induction n as [|n IH]; intros Hn. { exists st. split; [reflexivity|exact H0]. }
    destruct IH as (st' & Eo & HS); [lia|].
    destruct (nth_error_lt ids n) as [id Hid]; [lia|].
    assert (He : nth_error (enum ids) n = Some (n, id)).
    { destruct (nth_error_lt (enum ids) n) as [[j a] Ej]; [now rewrite enum_len|]. destruct (enum_at _ _ _ _ Ej) as [-> Ea]. congruence. }
    rewrite (firstn_S_nth _ _ _ He), ofold_app, Eo. cbn [obind ofold].
    destruct (step_ok fi n id st' HN Hid HS) as (st2 & E2 & HS2). rewrite E2. exists st2. split; [reflexivity|exact HS2]. }
  destruct (G (length ids) (le_n _)) as (st' & Eo & HS). exists st'. split; [|exact HS].
  rewrite firstn_all2 in Eo by now rewrite enum_len. exact Eo.
Qed.
Lemma defaults_ge n : length ids <= n -> defaults ids n = defaults ids (length ids).
Proof. intros H. unfold defaults. now rewrite !firstn_all2. Qed.
Lemma next_form fi st : state_ok fi (length ids) st -> state_ok (S fi) 0 st.
Proof.
  intros (Ha & Hget & Hnum). split; [exact Ha|]. split.
  - intros i k. rewrite Hget. rewrite andb_false_r, orb_false_r.
    destruct (Nat.ltb_spec k fi) as [L|L]; [replace (k <? S fi) with true by (symmetry; apply Nat.ltb_lt; lia); reflexivity|].
    cbn [orb]. destruct (Nat.eqb_spec k fi) as [->|N]; cbn [andb].
    + replace (fi <? S fi) with true by (symmetry; apply Nat.ltb_lt; lia). destruct (Nat.ltb_spec i (length ids)) as [Li|Li]; [reflexivity|].
      rewrite (proj2 (nth_error_None ids i)) by exact Li. reflexivity.
    + replace (k <? S fi) with false by (symmetry; apply Nat.ltb_ge; lia). reflexivity.
  - intros k. rewrite Hnum. rewrite firstn_all.
    destruct (Nat.ltb_spec k fi) as [L|L]; [replace (k <? S fi) with true by (symmetry; apply Nat.ltb_lt; lia); reflexivity|].
    destruct (Nat.eqb_spec k fi) as [->|N].
    + replace (fi <? S fi) with true by (symmetry; apply Nat.ltb_lt; lia). reflexivity.
    + replace (k <? S fi) with false by (symmetry; apply Nat.ltb_ge; lia). now destruct (k =? S fi).
Qed.
Lemma attach_ok nforms : nforms <= NF -> exists igs, attach kernel ids nforms default sd = Some igs /\
  (forall i k, get_integral igs i k = if k <? nforms then id <- nth_error ids i ;; data_at k i id else None) /\
  (forall k, num_integrals igs k = if k <? nforms then countb has_data ids else 0).
Proof.
  intros HF. unfold attach.
  assert (G : exists st, ofold (fun '(acc, igs) fi => ofold (step fi) (enum ids) (acc, igs)) (seq 0 nforms) ([], []) = Some st /\ state_ok nforms 0 st).
  { induction nforms as [|n IH].
    - exists ([], []). split; [reflexivity|]. split; [reflexivity|]. split; [intros i k; cbn; now rewrite andb_false_r|]. intros k. cbn. now destruct k.
    - destruct IH as ([acc igs] & Eo & HS); [lia|]. rewrite seq_S, ofold_app, Eo. cbn [obind ofold plus].
      destruct (steps_ok n (acc, igs) ltac:(lia) HS) as (st & Es & HSt). rewrite Es. exists st. split; [reflexivity|]. now apply next_form. }
  destruct G as ([acc igs] & Eo & _ & Hget & Hnum). rewrite Eo. cbn [obind snd] in *. exists igs. split; [reflexivity|]. split.
  - intros i k. rewrite Hget. now rewrite andb_false_r, orb_false_r.
  - intros k. rewrite Hnum. destruct (k <? nforms); [reflexivity|]. now destruct (k =? nforms).
Qed.
End Attach.

Lemma iter_append {E} (d : list E) n fi a : iter (fun _ acc => acc ++ d) n fi a = a ++ concat (repeat d n).
Proof.
  induction n as [|n IH]; cbn [iter repeat concat]; [now rewrite app_nil_r|]. rewrite IH, <- app_assoc. f_equal.
  clear. induction n as [|n IH]; cbn; [now rewrite app_nil_r|]. now rewrite <- app_assoc, IH.
Qed.
Lemma repeat_plus {A} (x : A) n m : repeat x (n + m) = repeat x n ++ repeat x m.
Proof. induction n; cbn; congruence. Qed.
Lemma before_append {E} ids (d : list E) fi : before ids (fun _ acc => acc ++ d) fi = concat (repeat d (fi * defaults ids (length ids))).
Proof.
  induction fi as [|fi IH]; [reflexivity|]. cbn [before]. rewrite iter_append, IH, <- concat_app, <- repeat_plus. do 2 f_equal. lia.
Qed.
Lemma after_append {E} ids (d : list E) fi i : after ids (fun _ acc => acc ++ d) fi i = concat (repeat d (fi * defaults ids (length ids) + defaults ids (S i))).
Proof. unfold after. now rewrite iter_append, before_append, <- concat_app, <- repeat_plus. Qed.
Lemma defaults_pos ids i : nth_error ids i = Some (-1)%Z -> 0 < defaults ids (S i).
Proof. intros H. unfold defaults. rewrite (firstn_S_nth _ _ _ H), countb_app, countb1. cbn. lia. Qed.
Lemma after_over {E} ids (d : nat -> list E) fi i : nth_error ids i = Some (-1)%Z -> after ids (fun fi _ => d fi) fi i = d fi.
Proof. intros H. unfold after. pose proof (defaults_pos ids i H). destruct (defaults ids (S i)); [lia|]. reflexivity. Qed.

Lemma countb_le {A} (p : A -> bool) l : countb p l <= length l.
Proof. induction l as [|x l IH]; cbn [countb length]; [lia|]. destruct (p x); lia. Qed.
Lemma countb_all {A} (p : A -> bool) l : (forall x, In x l -> p x = true) -> countb p l = length l.
Proof. induction l as [|x l IH]; intros H; [reflexivity|]. cbn [countb length]. rewrite (H x (or_introl eq_refl)), IH; [lia|]. intros y Hy. apply H. now right. Qed.
(** The first missing one is below the count if a later one is there. *)
Lemma first_missing {A} (p : A -> bool) l i j x y : i < j -> nth_error l i = Some x -> p x = false -> nth_error l j = Some y -> p y = true ->
  exists i0 z, i0 < countb p l /\ nth_error l i0 = Some z /\ p z = false.
Proof.
  revert i j. induction l as [|a l IH]; intros i j Hij Hx Px Hy Py; [destruct i; discriminate|].
  destruct (p a) eqn:Pa.
  - destruct i as [|i]; [cbn in Hx; congruence|]. destruct j as [|j]; [lia|]. destruct (IH i j) as (i0 & z & H1 & H2 & H3); [lia|exact Hx|exact Px|exact Hy|exact Py|].
    exists (S i0), z. cbn [countb]. rewrite Pa. split; [lia|]. now split.
  - exists 0, a. split; [|now split]. cbn [countb]. rewrite Pa. destruct j as [|j]; [lia|]. cbn in Hy. apply nth_error_In in Hy.
    clear - Hy Py. induction l as [|b l IH]; [destruct Hy|]. cbn [countb]. destruct Hy as [->|Hy]; [rewrite Py; lia|]. specialize (IH Hy). destruct (p b); lia.
Qed.
Lemma has_data_iff {E} (sd : option (list (Z * list E))) id : (forall l, sd = Some l -> sd_ok l) -> has_data sd id = true <-> id = (-1)%Z \/ exists es, data_of sd id es.
Proof.
  intros HS. unfold has_data. rewrite orb_true_iff, Z.eqb_eq. apply or_iff_compat_l. unfold data_of. destruct sd as [l|].
  - destruct (lookup_id l id) as [es|] eqn:EL.
    + split; [|reflexivity]. intros _. exists es, l. split; [reflexivity|]. now apply (lookup_id_ok l id es (HS l eq_refl)).
    + split; [discriminate|]. intros (es & l' & [= <-] & H). apply (lookup_id_ok l id es (HS l eq_refl)) in H. congruence.
  - split; [discriminate|]. intros (es & l' & [=] & _).
Qed.
Lemma attached_ok {K E} (kernel : nat -> nat -> K) ids nforms default (sd : option (list (Z * list E))) g (D : nat -> nat -> list E -> Prop) :
  (forall l, sd = Some l -> sd_ok l) -> (forall fi acc, fi < nforms -> default fi acc = Some (g fi acc)) ->
  (forall fi i, fi < nforms -> nth_error ids i = Some (-1)%Z -> D fi i (after ids g fi i)) ->
  exists igs, attach kernel ids nforms default sd = Some igs /\ attached kernel ids nforms sd D igs.
Proof.
  intros HS Hg HD. destruct (attach_ok kernel ids default sd g nforms Hg nforms (le_n _)) as (igs & EA & Hget & Hnum).
  exists igs. split; [exact EA|]. split; [|split; [|split]].
  - intros fi i id Hfi Hi. pose proof (Hget i fi) as G. rewrite (proj2 (Nat.ltb_lt _ _) Hfi), Hi in G. cbn [obind] in G. unfold data_at in G. split.
    + intros ->. cbn [Z.eqb] in G. eexists. split; [exact G|]. now apply HD.
    + intros N k es. rewrite (proj2 (Z.eqb_neq _ _) N) in G. rewrite G. unfold data_of. destruct sd as [l|].
      * pose proof (lookup_id_ok l id) as LK. destruct (lookup_id l id) as [es'|] eqn:EL; cbn [option_map].
        -- split.
           ++ intros [= <- <-]. split; [reflexivity|]. exists l. split; [reflexivity|]. apply (LK es' (HS l eq_refl)). reflexivity.
           ++ intros (-> & l' & [= <-] & Hin). apply (LK es (HS l eq_refl)) in Hin. injection Hin as ->. reflexivity.
        -- split; [discriminate|]. intros (_ & l' & [= <-] & Hin). apply (LK es (HS l eq_refl)) in Hin. discriminate.
      * split; [discriminate|]. intros (_ & l' & [=] & _).
  - intros fi i [H|H]; rewrite Hget.
    + now rewrite (proj2 (Nat.ltb_ge _ _) H).
    + rewrite (proj2 (nth_error_None ids i) H). now destruct (fi <? nforms).
  - intros HA fi Hfi. rewrite Hnum, (proj2 (Nat.ltb_lt _ _) Hfi). apply countb_all. intros id Hid. apply has_data_iff; [exact HS|now apply HA].
  - intros fi i j id id' Hfi Hij Hi Hn Hno Hj Hyes.
    destruct (first_missing (has_data sd) ids i j id id' Hij Hi) as (i0 & z & H1 & H2 & H3); [|exact Hj|now apply has_data_iff|].
    { apply not_true_iff_false. rewrite (has_data_iff sd id HS). intros [?|(es & ?)]; [contradiction|]. now apply (Hno es). }
    exists i0. rewrite Hnum, Hget, (proj2 (Nat.ltb_lt _ _) Hfi). split; [exact H1|]. rewrite H2. cbn [obind].
    unfold has_data in H3. apply orb_false_iff in H3 as [H3 H4]. unfold data_at. rewrite H3. destruct sd as [l|]; [|reflexivity]. now destruct (lookup_id l z).
Qed.

Lemma cells_attached {K} (kernel : nat -> nat -> K) M ids nforms sd :
  nforms <= length (ms_cells M) -> (forall l, sd = Some l -> sd_ok l) ->
  exists igs, attach_cells kernel M ids nforms sd = Some igs /\ attached kernel ids nforms sd (fun fi _ => covers (owned_cell M fi) eq) igs.
Proof.
  intros HF HS. apply (attached_ok kernel ids nforms _ sd (fun fi _ => seq 0 (nth fi (ms_cells M) 0)) _ HS).
  - intros fi acc Hfi. rewrite (nth_error_nth' (ms_cells M) 0) by lia. reflexivity.
  - intros fi i Hfi Hi. rewrite after_over by exact Hi. exists (seq 0 (nth fi (ms_cells M) 0)). split; [apply seq_NoDup|]. split.
    + intros e. rewrite in_seq. unfold owned_cell. rewrite (nth_error_nth' (ms_cells M) 0) by lia. split; [intros H; eexists; split; [reflexivity|lia]|intros (n & [= <-] & H); lia].
    + induction (seq 0 (nth fi (ms_cells M) 0)); constructor; auto.
Qed.
Lemma interior_attached {K} (kernel : nat -> nat -> K) M ids nforms sd :
  fmesh_ok M -> (forall l, sd = Some l -> sd_ok l) -> (forall f, ~ split_facet M f) ->
  exists d igs, covers (owned_interior M) (interior_of (ms_facets M)) d /\
    attach_interior kernel M ids nforms sd = Some igs /\ attached kernel ids nforms sd (copies ids d) igs.
Proof.
  intros HM HS Hs. destruct (default_interior M HM) as [H _]. destruct (H Hs) as (d & Hd & Ha). exists d.
  destruct (attached_ok kernel ids nforms (fun _ acc => m <- ip_marker (ms_facets M) (ms_interprocess M) ;; interior_loop (ms_facets M) m (seq 0 (et_owned (ms_facets M))) acc)
              sd (fun _ acc => acc ++ d) (copies ids d) HS) as (igs & E & A).
  - intros fi acc _. apply Ha.
  - intros fi i _ _. apply after_append.
  - exists igs. split; [exact Hd|]. split; [exact E|exact A].
Qed.
Lemma interior_split {K} (kernel : nat -> nat -> K) M ids nforms sd :
  fmesh_ok M -> (exists f, split_facet M f) -> In (-1)%Z ids -> 0 < nforms -> attach_interior kernel M ids nforms sd = None.
Proof.
  intros HM Hs Hin Hn. destruct (default_interior M HM) as [_ H]. specialize (H Hs). unfold attach_interior, attach.
  set (default := fun (_ : nat) acc => m <- ip_marker (ms_facets M) (ms_interprocess M) ;; interior_loop (ms_facets M) m (seq 0 (et_owned (ms_facets M))) acc) in *.
  destruct nforms as [|n]; [lia|]. cbn [seq ofold].
  assert (G : forall l st, In (-1)%Z (map snd l) -> ofold (fun '(acc, igs) '(i, id) =>
           if (id =? -1)%Z then acc <- default 0 acc ;; Some (acc, igs ++ [((i, 0), (kernel 0 i, acc))])
           else match sd with
                | Some sd => match lookup_id sd id with Some es => Some (acc, igs ++ [((i, 0), (kernel 0 i, es))]) | None => Some (acc, igs) end
                | None => Some (acc, igs)
                end) l st = None).
  { induction l as [|[i id] l IH]; intros [acc igs] Hl; [destruct Hl|]. cbn [ofold]. destruct (Z.eqb_spec id (-1)) as [->|N].
    - unfold default. rewrite H. reflexivity.
    - destruct Hl as [Hl|Hl]; [cbn in Hl; congruence|]. destruct sd as [sd'|]; [destruct (lookup_id sd' id)|]; cbn [obind]; now apply IH. }
  rewrite G; [reflexivity|]. replace (map snd (enum ids)) with ids; [exact Hin|]. unfold enum. clear.
  assert (E : forall k, map snd (combine (seq k (length ids)) ids) = ids) by (induction ids as [|x l IH]; intros k; cbn; [reflexivity|now rewrite IH]). now rewrite E.
Qed.
Lemma exterior_attached {K} (kernel : nat -> nat -> K) M t ids nforms sd :
  fmesh_ok M -> (forall l, sd = Some l -> sd_ok l) ->
  exists d igs, covers (owned_entity M t) (entity_of (ext_tab M t)) d /\
    attach_exterior kernel M t ids nforms sd = Some igs /\ attached kernel ids nforms sd (copies ids d) igs.
Proof.
  intros HM HS. destruct (default_exterior M t HM) as (d & Hd & Ha). exists d.
  destruct (attached_ok kernel ids nforms (fun _ acc => es <- default_entities M t ;; entity_loop (ext_tab M t) es acc)
              sd (fun _ acc => acc ++ d) (copies ids d) HS) as (igs & E & A).
  - intros fi acc _. apply Ha.
  - intros fi i _ _. apply after_append.
  - exists igs. split; [exact Hd|]. split; [exact E|exact A].
Qed.
(** * compute_integration_domains *)
Lemma owned_part_filter n es : StronglySorted lt es -> owned_part n es = filter (fun e => e <? n) es.
Proof.
  unfold owned_part, lower_bound, lower_bound_by. induction 1 as [|x es H IH Hx]; [reflexivity|]. cbn [prefix_len filter].
  destruct (Nat.ltb_spec x n) as [L|L]; [cbn [firstn]; now rewrite IH|]. cbn [firstn]. symmetry.
  assert (G : forall y, In y es -> (y <? n) = false) by (intros y Hy; rewrite Forall_forall in Hx; specialize (Hx y Hy); apply Nat.ltb_ge; lia).
  clear - G. induction es as [|y es IH]; [reflexivity|]. cbn [filter]. rewrite (G y (or_introl eq_refl)). apply IH. intros z Hz. apply G. now right.
Qed.
Lemma domains_cell_ok n es : StronglySorted lt es -> covers (fun c => In c es /\ c < n) eq (domains_cell n es).
Proof.
  intros H. unfold domains_cell. rewrite (owned_part_filter n es H). exists (filter (fun e => e <? n) es). split; [apply NoDup_filter; now apply sorted_nodup|]. split.
  - intros e. rewrite filter_In, Nat.ltb_lt. tauto.
  - induction (filter (fun e => e <? n) es); constructor; auto.
Qed.
Lemma domains_interior_ok M es : fmesh_ok M -> StronglySorted lt es -> (forall f, In f es -> f < et_all (ms_facets M)) ->
  ((forall f, In f es -> ~ split_facet M f) -> exists l, domains_interior M es = Some l /\ covers (fun f => In f es /\ owned_interior M f) (interior_of (ms_facets M)) l) /\
  ((exists f, In f es /\ split_facet M f) -> domains_interior M es = None).
Proof.
  intros HM Hs Hb. pose proof (mo_facets M HM) as HF. destruct (ip_marker_ok (ms_facets M) (ms_interprocess M) (mo_ip M HM)) as (m & E & L & V).
  unfold domains_interior. rewrite E. cbn [obind]. rewrite (owned_part_filter _ es Hs). set (fs := filter (fun e => e <? et_owned (ms_facets M)) es).
  assert (Hfs : forall f, In f fs <-> In f es /\ f < et_owned (ms_facets M)) by (intros f; unfold fs; now rewrite filter_In, Nat.ltb_lt).
  assert (Hfa : forall f, In f fs -> f < et_all (ms_facets M)) by (intros f Hf; apply Hb; now apply Hfs).
  split.
  - intros Hn. destruct (interior_loop_ok (ms_facets M) m fs [] HF L Hfa) as (l & El & Fl).
    + intros f Hf H2. assert (Hl : f < length m) by (rewrite L; now apply Hfa). rewrite (nth_indep m true false Hl), (V f (Hfa f Hf)).
      apply not_true_iff_false. rewrite mem_iff. intros Hi. apply Hfs in Hf as [Hf Ho]. apply (Hn f Hf). unfold two in H2. apply Nat.eqb_neq in H2. now split.
    + exists l. split; [exact El|]. exists (filter (two (ms_facets M)) fs). split; [apply NoDup_filter, NoDup_filter; now apply sorted_nodup|]. split; [|exact Fl].
      intros f. rewrite filter_In, Hfs. unfold two, owned_interior. rewrite Nat.eqb_eq. tauto.
  - intros (f & Hf & Ho & H2 & Hi). apply (interior_loop_none _ m fs [] f HF L Hfa); [apply Hfs; now split|now apply Nat.eqb_neq|].
    rewrite V by (now apply Hb). now apply mem_iff.
Qed.
Lemma domains_exterior_ok M t es : fmesh_ok M -> StronglySorted lt es -> (forall e, In e es -> e < et_all (ext_tab M t) /\ cells_of (ext_tab M t) e <> []) ->
  exists l, domains_exterior M t es = Some l /\ covers (fun e => In e es /\ e < et_owned (ext_tab M t)) (entity_of (ext_tab M t)) l.
Proof.
  intros HM Hs Hb. unfold domains_exterior. rewrite (owned_part_filter _ es Hs). set (fs := filter (fun e => e <? et_owned (ext_tab M t)) es).
  assert (Hfs : forall f, In f fs <-> In f es /\ f < et_owned (ext_tab M t)) by (intros f; unfold fs; now rewrite filter_In, Nat.ltb_lt).
  destruct (entity_loop_ok (ext_tab M t) fs [] (ext_tab_ok M t HM)) as (l & El & Fl); [intros e He; apply Hb; now apply Hfs|intros e He; apply Hb; now apply Hfs|].
  exists l. split; [exact El|]. exists fs. split; [apply NoDup_filter; now apply sorted_nodup|]. now split.
Qed.
Lemma py_exterior_ok M es : fmesh_ok M ->
  exists l, py_exterior M es = Some l /\ covers (fun f => In f es /\ owned_exterior M f) (entity_of (ms_facets M)) l.
Proof.
  intros HM. unfold py_exterior. rewrite (exterior_ok _ _ (mo_facets M HM) (mo_ip_sorted M HM)). cbn [obind].
  set (ext := filter _ (filter _ _)).
  assert (HX : forall f, In f ext <-> owned_exterior M f) by apply exterior_in.
  assert (HI : forall f, In f (intersect1d es ext) <-> In f es /\ owned_exterior M f).
  { intros f. unfold intersect1d. now rewrite sort_uniq_in, filter_In, mem_iff, HX. }
  destruct (domains_exterior_ok M ExteriorFacet (intersect1d es ext) HM) as (l & El & es' & N' & I' & F').
  - apply sort_uniq_sorted.
  - intros e He. apply HI in He as (_ & Ho & H1 & _). pose proof (eo_owned _ (mo_facets M HM)). cbn. split; [lia|]. intros HC. rewrite HC in H1. discriminate.
  - exists l. split; [exact El|]. exists es'. split; [exact N'|]. split; [|exact F']. intros f. rewrite I', HI. cbn [ext_tab]. unfold owned_exterior. tauto.
Qed.

(** * Arguments on another mesh *)
Lemma em_apply_ok m inverse es : NoDup m -> (inverse = false -> forall e, In e es -> e < length m) ->
  exists cs, em_apply m inverse es = Some cs /\ Forall2 (same_cell m inverse) es cs.
Proof.
  intros Hm Hb. destruct (em_all (length m) m m) as (_ & _ & HF & HI); [unfold em_make; cbn [obind]; now rewrite Nat.eqb_refl|exact Hm|].
  unfold em_apply. destruct inverse.
  - exists (em_inverse m es). split; [reflexivity|]. specialize (HI es). clear - HI. induction HI as [|p o ps os H _ IH]; [constructor|]. constructor; [|exact IH].
    cbn. destruct o; [tauto|exact H].
  - destruct (HF es) as (ps & E1 & _ & F); [apply Forall_forall; now apply Hb|]. rewrite E1. cbn [obind]. eexists. split; [reflexivity|].
    clear - F. induction F as [|e p es ps H _ IH]; cbn [map]; [constructor|]. constructor; [|exact IH]. exists p. now split.
Qed.
Lemma arg_facets_ok codim c_to_f m inverse pairs es : codim <= 1 -> NoDup m -> Forall2 (entity_at codim c_to_f) pairs es ->
  (inverse = false -> forall e, In e es -> e < length m) ->
  exists cs, arg_facets codim c_to_f m inverse pairs = Some cs /\ Forall2 (same_cell m inverse) es cs.
Proof.
  intros Hc Hm HE Hb. unfold arg_facets.
  assert (E : (match codim with 0 => Some (map fst pairs) | 1 => omap (fun '(c, lf) => row <- nth_error c_to_f c ;; nth_error row lf) pairs | _ => None end) = Some es).
  { destruct codim as [|[|codim]]; [| |lia].
    - f_equal. induction HE as [|p e ps es H _ IH]; [reflexivity|]. cbn [map]. rewrite IH; [now rewrite H|]. intros Hi x Hx. apply Hb; [exact Hi|now right].
    - clear Hb. induction HE as [|p e ps es H _ IH]; [reflexivity|]. cbn [omap]. destruct p as [c lf]. destruct H as (row & E1 & E2). cbn [fst snd] in *. rewrite E1. cbn [obind]. rewrite E2. cbn [obind]. rewrite IH. reflexivity. }
  rewrite E. cbn [obind]. now apply em_apply_ok.
Qed.

Lemma attached_weaken {K E} (kernel : nat -> nat -> K) ids nforms (sd : option (list (Z * list E))) (D D' : nat -> nat -> list E -> Prop) igs :
  (forall fi i l, fi < nforms -> nth_error ids i = Some (-1)%Z -> D fi i l -> D' fi i l) -> attached kernel ids nforms sd D igs -> attached kernel ids nforms sd D' igs.
Proof.
  intros H (A & B). split; [|exact B]. intros fi i id Hfi Hi. destruct (A fi i id Hfi Hi) as [A1 A2]. split; [|exact A2].
  intros E0. destruct (A1 E0) as (l & G & HD). exists l. split; [exact G|]. apply H; [exact Hfi|congruence|exact HD].
Qed.
Lemma countb_firstn {A} (p : A -> bool) l n : countb p (firstn n l) <= countb p l.
Proof. rewrite <- (firstn_skipn n l) at 2. rewrite countb_app. lia. Qed.
Lemma copies_once {E} ids (d : list E) i l : nth_error ids i = Some (-1)%Z -> defaults ids (length ids) <= 1 -> copies ids d 0 i l -> l = d.
Proof.
  intros Hi H1 ->. pose proof (defaults_pos ids i Hi) as H0. pose proof (countb_firstn (fun id => (id =? -1)%Z) ids (S i)) as H2.
  unfold defaults in *. rewrite firstn_all in H1. cbn [mult plus]. replace (countb _ (firstn (S i) ids)) with 1 by lia. cbn. apply app_nil_r.
Qed.
Lemma interior_once {K} (kernel : nat -> nat -> K) M ids sd :
  fmesh_ok M -> (forall l, sd = Some l -> sd_ok l) -> (forall f, ~ split_facet M f) -> defaults ids (length ids) <= 1 ->
  exists igs, attach_interior kernel M ids 1 sd = Some igs /\ attached kernel ids 1 sd (fun _ _ => covers (owned_interior M) (interior_of (ms_facets M))) igs.
Proof.
  intros HM HS Hs H1. destruct (interior_attached kernel M ids 1 sd HM HS Hs) as (d & igs & Hd & E & A). exists igs. split; [exact E|].
  refine (attached_weaken kernel ids 1 sd _ _ igs _ A). intros fi i l Hfi Hi Hc. assert (fi = 0) as -> by lia. now rewrite (copies_once ids d i l Hi H1 Hc).
Qed.
Lemma exterior_once {K} (kernel : nat -> nat -> K) M t ids sd :
  fmesh_ok M -> (forall l, sd = Some l -> sd_ok l) -> defaults ids (length ids) <= 1 ->
  exists igs, attach_exterior kernel M t ids 1 sd = Some igs /\ attached kernel ids 1 sd (fun _ _ => covers (owned_entity M t) (entity_of (ext_tab M t))) igs.
Proof.
  intros HM HS H1. destruct (exterior_attached kernel M t ids 1 sd HM HS) as (d & igs & Hd & E & A). exists igs. split; [exact E|].
  refine (attached_weaken kernel ids 1 sd _ _ igs _ A). intros fi i l Hfi Hi Hc. assert (fi = 0) as -> by lia. now rewrite (copies_once ids d i l Hi H1 Hc).
Qed.
