From Coq Require Import NArith.
From Verif Require Import Base BaseProofs Algo AlgoProofs TransProofs Ranges CellTypes Orient OrientSpec OrientProofs Sort SortSpec SortProofs TagsProofs MatMulComm Entities EntitiesSpec.
Open Scope nat_scope.

(** ** The entity list *)

Lemma nth_error_skipn {A} n (l : list A) i : nth_error (skipn n l) i = nth_error l (n + i).
Proof. revert l; induction n as [|n IH]; intros [|x l]; cbn; auto. destruct i; reflexivity. Qed.

Section Fill.
Context {R : Type}.
(** One cell writes its [ne] rows. *)
Variables (ne off n : nat) (row : nat -> nat -> R).
Variable step : list R -> nat -> option (list R).
Hypothesis Hstep : forall rows c, c < n -> off + n * ne <= length rows ->
  exists rows', step rows c = Some rows' /\ length rows' = length rows /\
    forall p, nth_error rows' p = if (off + c * ne <=? p) && (p <? off + c * ne + ne) then Some (row c (p - (off + c * ne))) else nth_error rows p.

Lemma fill_cells cells rows : NoDup cells -> (forall c, In c cells <-> c < n) -> off + n * ne <= length rows ->
  exists rows', ofold step cells rows = Some rows' /\ length rows' = length rows /\
    forall p, nth_error rows' p = if (off <=? p) && (p <? off + n * ne) then Some (row ((p - off) / ne) ((p - off) mod ne)) else nth_error rows p.
Proof.
  intros ND Hin Hl.
  destruct (ofold_prefix_ind step (fun pre rs => length rs = length rows /\
    forall p, nth_error rs p = if (off <=? p) && (p <? off + n * ne) && existsb (Nat.eqb ((p - off) / ne)) pre then Some (row ((p - off) / ne) ((p - off) mod ne)) else nth_error rows p) cells rows)
    as (rows' & E & L & Hp).
  - split; [reflexivity|]. intros p. cbn [existsb]. now rewrite andb_false_r.
  - intros pre c q rs Ecells [L Hp].
    assert (c < n) as Hc by (apply Hin; rewrite Ecells; apply in_elt).
    destruct (Hstep rs c Hc ltac:(lia)) as (rs' & E & L' & Hp'). exists rs'. split; [exact E|]. split; [congruence|].
    intros p. rewrite Hp', Hp, existsb_app. cbn [existsb]. rewrite orb_false_r.
    assert (c * ne + ne <= n * ne) as Hb by (replace (c * ne + ne) with (S c * ne) by lia; apply Nat.mul_le_mono_r; lia).
    destruct (Nat.leb_spec (off + c * ne) p) as [H1|H1]; cbn [andb].
    + destruct (Nat.ltb_spec p (off + c * ne + ne)) as [H2|H2].
      * assert ((p - off) / ne = c) as Hd by (symmetry; apply Nat.div_unique with (r := p - off - c * ne); lia).
        assert ((p - off) mod ne = p - (off + c * ne)) as Hm by (symmetry; apply Nat.mod_unique with (q := c); lia).
        destruct (Nat.leb_spec off p); [|lia]. destruct (Nat.ltb_spec p (off + n * ne)); [|lia]. cbn [andb].
        rewrite Hd, Nat.eqb_refl, orb_true_r. now rewrite Hm.
      * destruct (Nat.eqb_spec ((p - off) / ne) c) as [Hd|Hd]; [|now rewrite orb_false_r].
        destruct (Nat.leb_spec off p); [|reflexivity]. destruct (Nat.ltb_spec p (off + n * ne)); [|reflexivity]. cbn [andb].
        destruct (Nat.eq_dec ne 0) as [->|Nz]; [lia|].
        pose proof (Nat.div_mod (p - off) ne Nz). pose proof (Nat.mod_upper_bound (p - off) ne Nz). rewrite Hd in *. nia.
    + destruct (Nat.eqb_spec ((p - off) / ne) c) as [Hd|Hd]; [|now rewrite orb_false_r].
      destruct (Nat.leb_spec off p); [|reflexivity]. destruct (Nat.ltb_spec p (off + n * ne)); [|reflexivity]. cbn [andb].
      destruct (Nat.eq_dec ne 0) as [->|Nz]; [lia|].
      pose proof (Nat.div_mod (p - off) ne Nz). rewrite Hd in *. nia.
  - exists rows'. split; [exact E|]. split; [exact L|]. intros p. rewrite Hp.
    destruct (Nat.leb_spec off p) as [H1|H1]; [|reflexivity]. destruct (Nat.ltb_spec p (off + n * ne)) as [H2|H2]; [|reflexivity]. cbn [andb].
    assert (existsb (Nat.eqb ((p - off) / ne)) cells = true) as ->; [|reflexivity].
    apply existsb_exists. exists ((p - off) / ne). split; [|apply Nat.eqb_refl]. apply Hin.
    destruct (Nat.eq_dec ne 0) as [->|Nz]; [lia|]. apply Nat.div_lt_upper_bound; nia.
Qed.
End Fill.

Lemma fill_cell_ok l2g type evs ents cells off (row : nat -> nat -> list nat * list nat) :
  (forall c vs j e, nth_error cells c = Some vs -> nth_error ents j = Some e ->
     exists ev, nth_error evs e = Some ev /\ build_entity l2g type ev vs = Some (row c j)) ->
  forall rows c, c < length cells -> off + length cells * length ents <= length rows ->
  exists rows', fill_cell l2g type evs ents cells off rows c = Some rows' /\ length rows' = length rows /\
    forall p, nth_error rows' p = if (off + c * length ents <=? p) && (p <? off + c * length ents + length ents) then Some (row c (p - (off + c * length ents))) else nth_error rows p.
Proof.
  intros Hb rows c Hc Hl. unfold fill_cell. destruct (nth_error cells c) as [vs|] eqn:Ec; [|apply nth_error_None in Ec; lia]. cbn [obind].
  assert (c * length ents + length ents <= length cells * length ents) as Hbd
    by (replace (c * length ents + length ents) with (S c * length ents) by lia; apply Nat.mul_le_mono_r; lia).
  match goal with |- exists r, ofold ?f _ _ = _ /\ _ => set (F := f) end. set (ne := length ents) in *.
  destruct (enum_ind F (fun j rs => length rs = length rows /\
     forall p, nth_error rs p = if (off + c * ne <=? p) && (p <? off + c * ne + j) then Some (row c (p - (off + c * ne))) else nth_error rows p) ents rows)
     as (rows' & E & L & Hp).
  - split; [reflexivity|]. intros p. destruct (Nat.leb_spec (off + c * ne) p); [|reflexivity]. destruct (Nat.ltb_spec p (off + c * ne + 0)); [lia|reflexivity].
  - intros j e rs Hj [L Hp]. destruct (Hb c vs j e Ec Hj) as (ev & Ev & Bv). unfold F. cbn [fst snd]. rewrite Ev. cbn [obind]. rewrite Bv. cbn [obind].
    assert (j < ne) as Hjl by (apply ne_lt in Hj; exact Hj).
    destruct (upd_some rs (off + c * ne + j) (row c j)) as (rs' & E'); [lia|]. rewrite E'. exists rs'. split; [reflexivity|].
    split; [now rewrite (upd_length _ _ _ _ E')|]. intros p. rewrite (upd_nth _ _ _ p _ E'), Hp.
    destruct (Nat.eqb_spec (off + c * ne + j) p) as [<-|N].
    + destruct (Nat.leb_spec (off + c * ne) (off + c * ne + j)); [|lia]. destruct (Nat.ltb_spec (off + c * ne + j) (off + c * ne + S j)); [|lia]. cbn [andb].
      do 2 f_equal. lia.
    + destruct (Nat.leb_spec (off + c * ne) p); [|reflexivity].
      destruct (Nat.ltb_spec p (off + c * ne + j)), (Nat.ltb_spec p (off + c * ne + S j)); try reflexivity; lia.
  - exists rows'. auto.
Qed.

(** Shapes of the sub-entities *)
Lemma shape_all etype dim t e :
  (etype = Interval /\ dim = 1) \/ (etype = Triangle /\ dim = 2) \/ (etype = Quadrilateral /\ dim = 2) ->
  dim < cell_dim t -> In e (filter (fun e => cell_eqb (cell_entity_type t dim e) etype) (seq 0 (length (nth dim (topology t) [])))) ->
  nth_error (nth dim (topology t) []) e = Some (sub_vertices t dim e) /\ length (sub_vertices t dim e) = num_cell_vertices etype /\
  StronglySorted lt (sub_vertices t dim e) /\ Forall (fun k => k < num_cell_vertices t) (sub_vertices t dim e).
Proof.
  intros Hty D He. destruct Hty as [[-> ->]|[[-> ->]|[-> ->]]]; destruct t; vm_compute in D; try (exfalso; lia); vm_compute in He;
    repeat (destruct He as [<-|He]; [split; [reflexivity|split; [reflexivity|split; vm_compute; repeat constructor]]|]); contradiction.
Qed.

(** Occurrences before orientation: cell type, owned, cell vertices, sub-entity *)
Section Rows.
Variables (l2g : nat -> option Z) (etype : cell_type) (dim : nat).
Definition raw := (cell_type * bool * list nat * nat)%type.
Definition raw_ents (t : cell_type) : list nat := filter (fun e => cell_eqb (cell_entity_type t dim e) etype) (seq 0 (length (nth dim (topology t) []))).
Definition raw_list (cl : cell_list) : list raw :=
  concat (map (fun cv => map (fun e => (cl_type cl, fst cv <? cl_owned cl, snd cv, e)) (raw_ents (cl_type cl))) (combine (seq 0 (length (cl_cells cl))) (cl_cells cl))).
Definition raw_all (lists : list cell_list) : list raw := concat (map raw_list lists).
Definition raw_verts (r : raw) : list nat := let '(t, o, vs, e) := r in map (fun k => nth k vs 0) (sub_vertices t dim e).
Definition raw_row (r : raw) : list nat * list nat :=
  let '(t, o, vs, e) := r in match build_entity l2g etype (sub_vertices t dim e) vs with Some x => x | None => ([], []) end.

Lemma instances_raw lists : instances etype dim lists = map (fun r => (raw_verts r, snd (fst (fst r)))) (raw_all lists).
Proof.
  unfold instances, raw_all. rewrite concat_map, map_map. f_equal. apply map_ext. intros cl. unfold list_instances, raw_list.
  rewrite concat_map, map_map. f_equal. apply map_ext. intros [c vs]. unfold cell_entities. rewrite !map_map. reflexivity.
Qed.

Lemma raw_list_length cl : length (raw_list cl) = length (cl_cells cl) * length (raw_ents (cl_type cl)).
Proof.
  unfold raw_list. rewrite (rows_length _ (length (raw_ents (cl_type cl)))) by (intros; apply map_length).
  now rewrite combine_length, seq_length, Nat.min_id.
Qed.
Lemma raw_list_nth cl c vs j e : nth_error (cl_cells cl) c = Some vs -> nth_error (raw_ents (cl_type cl)) j = Some e ->
  nth_error (raw_list cl) (c * length (raw_ents (cl_type cl)) + j) = Some (cl_type cl, c <? cl_owned cl, vs, e).
Proof using Type.
  clear l2g.
  intros Hc Hj. unfold raw_list. erewrite rows_nth with (x := (c, vs)).
  - cbn [fst snd]. rewrite nth_error_map, Hj. reflexivity.
  - intros; apply map_length.
  - rewrite combine_nth_error, Hc. assert (c < length (cl_cells cl)) by (now apply ne_lt in Hc).
    rewrite (nth_error_nth' _ 0) by (rewrite seq_length; lia). now rewrite seq_nth.
  - now apply ne_lt in Hj.
Qed.

Hypothesis Hty : (etype = Interval /\ dim = 1) \/ (etype = Triangle /\ dim = 2) \/ (etype = Quadrilateral /\ dim = 2).

Lemma ent_shape t e : dim < cell_dim t -> In e (raw_ents t) ->
  nth_error (nth dim (topology t) []) e = Some (sub_vertices t dim e) /\ length (sub_vertices t dim e) = num_cell_vertices etype /\
  StronglySorted lt (sub_vertices t dim e) /\ Forall (fun k => k < num_cell_vertices t) (sub_vertices t dim e).
Proof. exact (shape_all etype dim t e Hty). Qed.
Lemma type_entities_ok t : dim < cell_dim t -> type_entities etype dim t = Some (raw_ents t) /\ get_entity_vertices t dim = Some (nth dim (topology t) []).
Proof.
  intros D. unfold type_entities, cell_num_entities, get_entity_vertices, raw_ents.
  assert (dim < length (topology t)) as Hl by (destruct Hty as [[_ ->]|[[_ ->]|[_ ->]]]; destruct t; vm_compute in D |- *; lia).
  rewrite (nth_error_nth' _ [] Hl). split; reflexivity.
Qed.

(** Vertices of a sub-entity of a valid cell *)
Lemma sub_ok vs n ev g : length vs = n -> Forall (fun k => k < n) ev -> StronglySorted lt ev -> omap l2g vs = Some g -> NoDup g ->
  omap (nth_error vs) ev = Some (map (fun k => nth k vs 0) ev) /\ exists h, omap l2g (map (fun k => nth k vs 0) ev) = Some h /\ NoDup h.
Proof.
  clear Hty. intros Hn Hev Hs Eg ND. rewrite Forall_forall in Hev.
  assert (omap (nth_error vs) ev = Some (map (fun k => nth k vs 0) ev)) as El.
  { clear Hs. induction ev as [|k ev IH]; [reflexivity|]. cbn [omap map]. rewrite (nth_error_nth' vs 0) by (rewrite Hn; apply Hev; now left). cbn [obind].
    rewrite IH; [reflexivity|]. intros x Hx. apply Hev. now right. }
  split; [exact El|]. exists (map (fun k => nth k g 0%Z) ev). pose proof (omap_len _ _ _ Eg) as Lg. split.
  - clear El Hs. induction ev as [|k ev IH]; [reflexivity|]. cbn [omap map].
    assert (k < n) as Hk by (apply Hev; now left).
    pose proof (omap_nth _ _ _ k Eg) as Hi. rewrite (nth_error_nth' vs 0) in Hi by lia. cbn [obind] in Hi.
    rewrite (nth_error_nth' g 0%Z) in Hi by lia.
    assert (l2g (nth k vs 0) = Some (nth k g 0%Z)) as -> by congruence. cbn [obind]. rewrite IH; [reflexivity|]. intros x Hx. apply Hev. now right.
  - clear El. induction Hs as [|k ev Hs IH Hk]; [constructor|]. cbn [map]. constructor.
    + intros Hin. apply in_map_iff in Hin as (k' & E & Hin). rewrite Forall_forall in Hk. specialize (Hk _ Hin).
      assert (k' = k); [|lia]. apply (proj1 (NoDup_nth g 0%Z) ND); [rewrite Lg, Hn; apply Hev; now right|rewrite Lg, Hn; apply Hev; now left|exact E].
    + apply IH. intros x Hx. apply Hev. now right.
Qed.

(** The row of an occurrence *)
Lemma raw_row_ok cl c vs e : lists_ok l2g dim cl -> nth_error (cl_cells cl) c = Some vs -> In e (raw_ents (cl_type cl)) -> forall o,
  let r := (cl_type cl, o, vs, e) in
  build_entity l2g etype (sub_vertices (cl_type cl) dim e) vs = Some (raw_row r) /\
  snd (raw_row r) = isort Nat.leb (raw_verts r) /\ Permutation (raw_verts r) (fst (raw_row r)) /\ length (raw_verts r) = num_cell_vertices etype /\
  Forall (fun v => (Z.of_nat v < 2 ^ 31)%Z) (raw_verts r).
Proof.
  intros (D & _ & Hcs) Hc He o r. rewrite Forall_forall in Hcs. destruct (Hcs vs (nth_error_In _ _ Hc)) as (Lv & Bv & g & Eg & ND).
  destruct (ent_shape _ e D He) as (_ & Le & Se & Fe).
  destruct (sub_ok _ _ _ _ Lv Fe Se Eg ND) as (El & h & Eh & NDh).
  assert (exists el key, build_entity l2g etype (sub_vertices (cl_type cl) dim e) vs = Some (el, key) /\
            key = isort Nat.leb (raw_verts r) /\ Permutation (raw_verts r) el) as (el & key & Eb & Ek & Hp).
  { destruct Hty as [[Ee _]|[[Ee _]|[Ee _]]].
    - destruct (simplex_spec l2g etype _ _ _ _ (or_introl Ee) Le El Eh NDh) as (el & key & Eb & Hp & _ & Ek). exists el, key. auto.
    - destruct (simplex_spec l2g etype _ _ _ _ (or_intror Ee) Le El Eh NDh) as (el & key & Eb & Hp & _ & Ek). exists el, key. auto.
    - rewrite Ee in Le. destruct (quad_spec l2g _ _ _ _ Le El Eh NDh) as (e0 & e1 & e2 & e3 & key & Eb & [Hp _] & _ & Ek).
      rewrite Ee. exists [e0; e1; e2; e3], key. split; [exact Eb|]. split; [|exact Hp]. rewrite Ek. apply sort_eq_perm. now symmetry. }
  unfold r, raw_row. rewrite Eb. cbn [fst snd]. split; [reflexivity|]. split; [exact Ek|]. split; [exact Hp|]. split.
  - unfold raw_verts. now rewrite map_length.
  - unfold raw_verts. apply Forall_forall. intros v Hv. apply in_map_iff in Hv as (k & <- & Hk). rewrite Forall_forall in Fe, Bv. apply Bv, nth_In. specialize (Fe k Hk). lia.
Qed.

Variables (threads : nat) (sched : list nat -> list nat).
Hypothesis Ht : 0 < threads.
Hypothesis Hsched : forall l, Permutation (sched l) l.

Lemma fill_list cl done rest : lists_ok l2g dim cl -> length (raw_list cl) <= length rest ->
  ofold (fill_cell l2g etype (nth dim (topology (cl_type cl)) []) (raw_ents (cl_type cl)) (cl_cells cl) (length done))
        (sched (thread_cells (length (cl_cells cl)) threads)) (done ++ rest)
  = Some (done ++ map raw_row (raw_list cl) ++ skipn (length (raw_list cl)) rest).
Proof.
  intros OK Hl. set (es := raw_ents (cl_type cl)). set (R := fun c j => nth (c * length es + j) (map raw_row (raw_list cl)) ([], [])).
  assert (forall c vs j e, nth_error (cl_cells cl) c = Some vs -> nth_error es j = Some e ->
     exists ev, nth_error (nth dim (topology (cl_type cl)) []) e = Some ev /\ build_entity l2g etype ev vs = Some (R c j)) as HR.
  { intros c vs j e Hc Hj. pose proof (nth_error_In _ _ Hj) as He. destruct (ent_shape _ e (proj1 OK) He) as (Ee & _). exists (sub_vertices (cl_type cl) dim e). split; [exact Ee|].
    destruct (raw_row_ok cl c vs e OK Hc He (c <? cl_owned cl)) as (Eb & _). rewrite Eb. f_equal. unfold R.
    rewrite (nth_error_nth _ _ _ (map_nth_error raw_row _ _ (raw_list_nth cl c vs j e Hc Hj))). reflexivity. }
  pose proof (raw_list_length cl) as Lr. fold es in Lr.
  destruct (fill_cells (length es) (length done) (length (cl_cells cl)) R
    (fill_cell l2g etype (nth dim (topology (cl_type cl)) []) es (cl_cells cl) (length done))
    (fill_cell_ok l2g etype _ es (cl_cells cl) (length done) R HR)
    (sched (thread_cells (length (cl_cells cl)) threads)) (done ++ rest)
    (sched_NoDup _ _ Ht Hsched _) (sched_cells _ _ Ht Hsched _)) as (rows' & E & L & Hp).
  { rewrite app_length. lia. }
  rewrite E. f_equal. apply nth_error_ext. intros p. rewrite Hp.
  destruct (Nat.leb_spec (length done) p) as [H1|H1]; cbn [andb].
  - rewrite (nth_error_app2 done) by lia. rewrite (nth_error_app2 done) by lia. destruct (Nat.ltb_spec p (length done + length (cl_cells cl) * length es)) as [H2|H2].
    + rewrite nth_error_app1 by (rewrite map_length; lia). rewrite (nth_error_nth' _ ([], [])) by (rewrite map_length; lia). f_equal. unfold R. f_equal.
      destruct (Nat.eq_dec (length es) 0) as [Ez|Nz]; [lia|]. pose proof (Nat.div_mod (p - length done) (length es) Nz). lia.
    + rewrite (nth_error_app2 (map _ _)) by (rewrite map_length; lia). rewrite map_length, nth_error_skipn. f_equal. lia.
  - now rewrite !nth_error_app1 by lia.
Qed.

Lemma omap_ents lists : Forall (lists_ok l2g dim) lists ->
  omap (fun cl => type_entities etype dim (cl_type cl)) lists = Some (map (fun cl => raw_ents (cl_type cl)) lists).
Proof.
  intros H. induction H as [|cl lists OK _ IH]; [reflexivity|]. cbn [omap map]. rewrite (proj1 (type_entities_ok _ (proj1 OK))). cbn [obind]. now rewrite IH.
Qed.

Lemma build_rows_ok lists : Forall (lists_ok l2g dim) lists ->
  build_rows l2g etype dim lists threads sched =
    Some (map raw_row (raw_all lists), map (fun cl => raw_ents (cl_type cl)) lists, psums (map (fun cl => length (raw_list cl)) lists)).
Proof.
  intros OK. unfold build_rows. rewrite omap_ents by exact OK. cbn [obind].
  assert (map (fun ce : cell_list * list nat => length (cl_cells (fst ce)) * length (snd ce)) (combine lists (map (fun cl => raw_ents (cl_type cl)) lists))
          = map (fun cl => length (raw_list cl)) lists) as ->.
  { clear OK. induction lists as [|cl t IH]; [reflexivity|]. cbn [map combine fst snd]. rewrite IH. f_equal. symmetry. apply raw_list_length. }
  set (lens := map (fun cl => length (raw_list cl)) lists). assert (length lens = length lists) as Ll by apply map_length.
  rewrite psums_nth by lia. cbn [obind]. rewrite <- Ll, firstn_all, Ll.
  match goal with |- obind (ofold ?f _ _) _ = _ => set (F := f) end.
  destruct (enum_ind F (fun k rows => rows = map raw_row (concat (map raw_list (firstn k lists))) ++ repeat ([], []) (lsum (skipn k lens))) lists (repeat ([], []) (lsum lens))) as (rows & E & Hr).
  - cbn [firstn map concat app skipn]. reflexivity.
  - intros k cl rows Hk ->. unfold F. cbn [fst snd]. rewrite nth_error_map, Hk. cbn [option_map obind].
    assert (k < length lists) as Hkl by (now apply ne_lt in Hk). rewrite psums_nth by lia. cbn [obind].
    assert (lists_ok l2g dim cl) as OKc by (rewrite Forall_forall in OK; apply OK; now apply nth_error_In in Hk).
    rewrite (proj2 (type_entities_ok _ (proj1 OKc))). cbn [obind].
    assert (lsum (firstn k lens) = length (map raw_row (concat (map raw_list (firstn k lists))))) as ->.
    { rewrite map_length. unfold lens. rewrite firstn_map. clear. induction (firstn k lists) as [|x t IH]; [reflexivity|]. cbn [map concat]. rewrite lsum_cons, app_length. lia. }
    assert (lsum (skipn k lens) = length (raw_list cl) + lsum (skipn (S k) lens)) as Hs.
    { assert (nth_error lens k = Some (length (raw_list cl))) as Hn by (unfold lens; now rewrite nth_error_map, Hk).
      clear - Hn. revert k Hn. generalize (length (raw_list cl)) as v. induction lens as [|x t IH]; intros v [|k] Hn; try discriminate.
      - injection Hn as ->. cbn [skipn]. now rewrite lsum_cons.
      - cbn [skipn]. now apply IH. }
    rewrite fill_list by (try exact OKc; rewrite repeat_length; lia).
    eexists. split; [reflexivity|]. rewrite Hs, repeat_app. rewrite skipn_app, skipn_all2 by (rewrite repeat_length; lia).
    rewrite repeat_length, Nat.sub_diag. cbn [app skipn].
    rewrite (MatMulComm.firstn_S_nth _ _ _ Hk), map_app, concat_app, map_app. cbn [map concat]. rewrite app_nil_r, <- app_assoc. reflexivity.
  - rewrite E. cbn [obind]. rewrite Hr, firstn_all. rewrite skipn_all2 by lia. cbn [lsum fold_right repeat]. now rewrite app_nil_r.
Qed.
End Rows.
