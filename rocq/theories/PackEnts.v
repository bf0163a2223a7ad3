(** Proofs about packing over entities given by the caller, and about constants. *)
From Verif Require Import Base BaseProofs Algo AlgoProofs BucketProofs MatrixCSR MatrixProofs Assemble AssembleSpec AsmVector AsmMatrix FormData FormSpec FormProofs Pack PackSpec PackProofs PackForm.
Open Scope nat_scope.

Section Aux.
Lemma F2_in_r {A B} (R : A -> B -> Prop) u v b : Forall2 R u v -> In b v -> exists a, In a u /\ R a b.
Proof. intro H. induction H as [|x y l m Hr _ IH]; intros Hin; [destruct Hin|]. destruct Hin as [<-|Hin]; [exists x; split; [now left|exact Hr]|]. destruct (IH Hin) as (a & Ha & K). exists a. split; [now right|exact K]. Qed.
Lemma F2_nth {A B} (R : A -> B -> Prop) l m i a : Forall2 R l m -> nth_error l i = Some a -> exists b, nth_error m i = Some b /\ R a b.
Proof. intro H. revert i. induction H as [|x y l m Hr _ IH]; intros [|i] E; try discriminate; cbn [nth_error] in *; [injection E as <-; eauto|now apply IH]. Qed.
Lemma skip2 {A} a b (l : list A) : skipn a (skipn b l) = skipn (b + a) l.
Proof. revert l. induction b as [|b IH]; intro l; [reflexivity|]. destruct l as [|x l]; [now rewrite !skipn_nil|]. cbn [skipn Nat.add]. apply IH. Qed.
Lemma F2_len {A B} (R : A -> B -> Prop) l m : Forall2 R l m -> length l = length m.
Proof. induction 1; cbn [length]; auto. Qed.
End Aux.

Section Ents.
Context {T : Type}.
Variable zero : T.

Lemma ents_len e : length (ents_list e) = num_ents e.
Proof. destruct e; cbn [ents_list num_ents]; apply map_length. Qed.
Lemma cells_found codim m c_to_e e : map_ok codim m c_to_e e ->
  exists cs, coefficient_cells codim m c_to_e e = Some cs /\ Forall2 (on_cell codim m (match c_to_e with Some c => c | None => [] end)) (ents_list e) cs.
Proof.
  destruct m as [|[[em inverse]|]]; cbn [map_ok]; [intros _| |intros []].
  - eexists. split; [reflexivity|]. unfold on_cell. destruct e as [l|l]; cbn [ents_list].
    + induction l as [|x l IH]; cbn [map]; constructor; [reflexivity|exact IH].
    + induction l as [|x l IH]; cbn [map]; constructor; [reflexivity|exact IH].
  - intros (Hn & H). unfold coefficient_cells, on_cell. cbn [obind]. destruct (codim =? 0).
    + assert (G : forall l, map fst (ents_list e) = l -> exists cs, em_apply em inverse l = Some cs /\ Forall2 (fun p x => same_cell em inverse (fst p) x) (ents_list e) cs).
      { intros l El. destruct (em_apply_ok em inverse l Hn) as (cs & E & F).
        - intros Hi x Hx. rewrite <- El in Hx. apply in_map_iff in Hx as (p & <- & Hp). now apply H.
        - exists cs. split; [exact E|]. rewrite <- El in F. clear -F. revert cs F. induction (ents_list e) as [|p l IH]; intros cs F; cbn [map] in F; inversion F; subst; constructor; auto. }
      destruct e as [l|l]; apply G; cbn [ents_list]; rewrite map_map; [apply map_id|reflexivity].
    + destruct H as (-> & (l & ->) & conn & -> & H). cbn [negb obind ents_list] in *.
      assert (G : exists es, omap (fun '(c, k) => row <- nth_error conn c ;; nth_error row k) l = Some es /\
        Forall2 (fun p f => exists k row, snd p = Some k /\ nth_error conn (fst p) = Some row /\ nth_error row k = Some f) (map (fun p => (fst p, Some (snd p))) l) es).
      { clear Hn. induction l as [|[c k] l IH]; cbn [map] in *; [exists []; split; [reflexivity|constructor]|].
        destruct (H _ (or_introl eq_refl)) as (k' & row & f & Ek & Er & Ef). cbn [fst snd] in *. injection Ek as <-. destruct IH as (es & E & F); [intros p Hp; apply H; now right|].
        exists (f :: es). cbn [omap]. rewrite Er. cbn [obind]. rewrite Ef. cbn [obind]. rewrite E. split; [reflexivity|]. constructor; [|exact F]. cbn [fst snd]. eauto. }
      destruct G as (es & E & F). rewrite E. cbn [obind]. destruct (em_apply_ok em true es Hn) as (cs & E2 & F2); [discriminate|]. exists cs. split; [exact E2|].
      clear -F F2. revert cs F2. induction F as [|p f ps fs (k & row & A & B & C) _ IH]; intros cs F2; inversion F2; subst; constructor; [|now apply IH]. exists k, row, f. auto.
Qed.

(** The slots of a row *)
Lemma slot_at st num (jobs : list (@job T)) (dims : list nat) c :
  (forall j, In j jobs -> job_ok st num j) -> num * st <= length c ->
  (forall k j, nth_error jobs k = Some j -> nth_error dims k = Some (fn_dim (jb_u j)) /\ jb_off j = lsum (firstn k dims)) ->
  exists c', run st jobs c = Some c' /\ length c' = length c /\ skipn (num * st) c' = skipn (num * st) c /\
    forall e k j, e < num -> nth_error jobs k = Some j ->
      firstn (fn_dim (jb_u j)) (skipn (e * st + jb_off j) c') = slot_values zero (jb_u j) (nth e (jb_cells j) None) (firstn (fn_dim (jb_u j)) (skipn (e * st + jb_off j) c)).
Proof.
  intros Hj HL Hd. destruct (run_ok zero st num jobs c Hj HL) as (c' & E & L & N). exists c'. split; [exact E|]. split; [exact L|]. split.
  - apply (nth_ext _ _ zero zero); [rewrite !skipn_length; lia|]. intros i Hi. rewrite !nth_skipn. rewrite (N (num * st + i) zero).
    + destruct (existsb _ jobs) eqn:Ex; [|reflexivity]. exfalso. apply existsb_exists in Ex as (j & Hin & Hh). destruct (Hj j Hin) as (_ & (Lc & _) & Ho). unfold hit in Hh.
      assert (num <= (num * st + i) / st \/ st = 0) as [G|G].
      { destruct (Nat.eq_dec st 0) as [Z|Z]; [now right|left]. apply Nat.div_le_lower_bound; [exact Z|lia]. }
      * rewrite nth_overflow in Hh by lia. discriminate.
      * destruct (nth _ _ None); [|discriminate]. apply andb_prop in Hh as (A & B). apply Nat.ltb_lt in B. rewrite G in *. lia.
    + intros j Hin Hh. destruct (Hj j Hin) as (_ & (Lc & _) & Ho). unfold hit in Hh.
      assert (num <= (num * st + i) / st \/ st = 0) as [G|G].
      { destruct (Nat.eq_dec st 0) as [Z|Z]; [now right|left]. apply Nat.div_le_lower_bound; [exact Z|lia]. }
      * rewrite nth_overflow in Hh by lia. discriminate.
      * destruct (nth _ _ None); [|discriminate]. apply andb_prop in Hh as (A & B). apply Nat.ltb_lt in B. rewrite G in *. lia.
  - intros e k j He Ek. pose proof (nth_error_In _ _ Ek) as Hin. destruct (Hj j Hin) as (Hu & (Lc & Hc) & Ho). destruct (Hd k j Ek) as (Ed & Eo).
    assert (Le : e * st + st <= num * st) by nia.
    assert (Lo : length (slot_values zero (jb_u j) (nth e (jb_cells j) None) (firstn (fn_dim (jb_u j)) (skipn (e * st + jb_off j) c))) = fn_dim (jb_u j)).
    { unfold slot_values. destruct (nth e (jb_cells j) None) as [x|] eqn:Ex; [|rewrite firstn_length, skipn_length; lia].
      destruct (nth_error_lt (cd_rows (fn_dm (jb_u j))) x) as (row & Er); [apply Hc; rewrite <- Ex; apply nth_In; lia|]. eapply cell_values_length; eauto. }
    apply (nth_ext _ _ zero zero); [rewrite Lo, firstn_length, skipn_length; lia|]. rewrite firstn_length, skipn_length. intros i Hi.
    assert (Hi' : i < fn_dim (jb_u j)) by lia. rewrite nth_firstn, nth_skipn by exact Hi'.
    assert (N0 : st <> 0) by lia. set (p := e * st + jb_off j + i).
    assert (Ep : p / st = e) by (unfold p; symmetry; apply (Nat.div_unique _ _ _ (jb_off j + i)); lia).
    assert (Em : p mod st = jb_off j + i) by (unfold p; symmetry; apply (Nat.mod_unique _ _ e); lia).
    set (v := nth i (slot_values zero (jb_u j) (nth e (jb_cells j) None) (firstn (fn_dim (jb_u j)) (skipn (e * st + jb_off j) c))) zero).
    assert (Hone : forall j', In j' jobs -> hit st j' p = true -> j' = j).
    { intros j' Hin' Hh. apply In_nth_error in Hin' as (k' & Ek'). destruct (Hd k' j' Ek') as (Ed' & Eo'). unfold hit in Hh. destruct (nth (p / st) (jb_cells j') None); [|discriminate]. apply andb_prop in Hh as (A1 & A2). apply Nat.leb_le in A1. apply Nat.ltb_lt in A2. rewrite Em, Eo, Eo' in *.
      destruct (lt_eq_lt_dec k k') as [[Lt| ->]|Lt].
      - pose proof (off_disjoint _ _ _ _ Lt Ed). lia.
      - congruence.
      - pose proof (off_disjoint _ _ _ _ Lt Ed'). lia. }
    rewrite (N p v).
    + destruct (existsb (fun j0 => hit st j0 p) jobs) eqn:Ex; [reflexivity|]. unfold v, slot_values. destruct (nth e (jb_cells j) None) as [x|] eqn:En.
      * exfalso. assert (Hh : existsb (fun j0 => hit st j0 p) jobs = true); [|congruence]. apply existsb_exists. exists j. split; [exact Hin|]. unfold hit. rewrite Ep, Em, En. apply andb_true_intro. split; [apply Nat.leb_le; lia|apply Nat.ltb_lt; lia].
      * rewrite nth_firstn, nth_skipn by exact Hi'. reflexivity.
    + intros j' Hin' Hh. pose proof (Hone j' Hin' Hh). subst j'. unfold hit in Hh. rewrite Ep in Hh. unfold val, v, slot_values. rewrite Ep, Em. destruct (nth e (jb_cells j) None) as [x|]; [|discriminate Hh]. f_equal. lia.
Qed.

Lemma entities_unfold (coeffs : list (func T * cmesh)) c_to_e e offsets c : offsets <> [] -> pack_entities coeffs c_to_e e offsets c =
  let cstride := last offsets 0 in
  if length c <? num_ents e * cstride then None else
  ofold (fun c '(k, (u, m)) =>
    cells <- coefficient_cells (fn_codim u) m (c_to_e (fn_codim u)) e ;;
    off <- nth_error offsets k ;; pack_coefficient_entity c cstride u cells off) (enum coeffs) c.
Proof. destruct offsets; [congruence|reflexivity]. Qed.
Lemma entities_packed (coeffs : list (func T * cmesh)) c_to_e e c :
  let dims := map (fun um => fn_dim (fst um)) coeffs in
  let st := lsum dims in
  (forall u m, In (u, m) coeffs -> func_ok u /\ map_ok (fn_codim u) m (c_to_e (fn_codim u)) e /\
     forall p x, In p (ents_list e) -> on_cell (fn_codim u) m (conn_of c_to_e (fn_codim u)) p (Some x) -> x < length (cd_rows (fn_dm u))) ->
  num_ents e * st <= length c ->
  exists c', pack_entities coeffs c_to_e e (psums dims) c = Some c' /\ length c' = length c /\ skipn (num_ents e * st) c' = skipn (num_ents e * st) c /\
    forall i k u m p, nth_error (ents_list e) i = Some p -> nth_error coeffs k = Some (u, m) -> exists x, on_cell (fn_codim u) m (conn_of c_to_e (fn_codim u)) p x /\
      firstn (fn_dim u) (skipn (i * st + lsum (firstn k dims)) c') = slot_values zero u x (firstn (fn_dim u) (skipn (i * st + lsum (firstn k dims)) c)).
Proof.
  intros dims st H HL.
  set (cells := fun um : func T * cmesh => match coefficient_cells (fn_codim (fst um)) (snd um) (c_to_e (fn_codim (fst um))) e with Some cs => cs | None => [] end).
  assert (Hcells : forall u m, In (u, m) coeffs -> coefficient_cells (fn_codim u) m (c_to_e (fn_codim u)) e = Some (cells (u, m)) /\ Forall2 (on_cell (fn_codim u) m (conn_of c_to_e (fn_codim u))) (ents_list e) (cells (u, m))).
  { intros u m Hin. destruct (H u m Hin) as (_ & Hm & _). destruct (cells_found _ _ _ _ Hm) as (cs & E & F). unfold cells. cbn [fst snd]. rewrite E. auto. }
  set (jobs := map (fun ku => mkJob (fst (snd ku)) (cells (snd ku)) (lsum (firstn (fst ku) dims))) (enum coeffs)).
  assert (Ej : forall k, nth_error jobs k = option_map (fun um => mkJob (fst um) (cells um) (lsum (firstn k dims))) (nth_error coeffs k)).
  { intro k. unfold jobs. rewrite nth_error_map, nth_error_enum. destruct (nth_error coeffs k); reflexivity. }
  assert (Hd : forall k j, nth_error jobs k = Some j -> nth_error dims k = Some (fn_dim (jb_u j)) /\ jb_off j = lsum (firstn k dims)).
  { intros k j E. rewrite Ej in E. destruct (nth_error coeffs k) as [um|] eqn:Ek; [|discriminate]. injection E as <-. unfold dims at 1. rewrite nth_error_map, Ek. split; reflexivity. }
  assert (Hok : forall j, In j jobs -> job_ok st (num_ents e) j).
  { intros j Hin. apply In_nth_error in Hin as (k & Ek). destruct (Hd k j Ek) as (Ed & Eo). rewrite Ej in Ek. destruct (nth_error coeffs k) as [[u m]|] eqn:Ec; [|discriminate]. injection Ek as <-. cbn [jb_u jb_off jb_cells fst] in *.
    pose proof (nth_error_In _ _ Ec) as Hin. destruct (H u m Hin) as (Hu & _ & Hr). destruct (Hcells u m Hin) as (_ & F). split; [exact Hu|]. split.
    - split; cbn [jb_cells]; [rewrite <- ents_len; symmetry; eapply F2_len; eauto|]. intros x Hx. cbn [jb_u] in *. destruct (F2_in_r _ _ _ _ F Hx) as (p & Hp & O). eapply Hr; eauto.
    - cbn [jb_off jb_u]. unfold st. rewrite <- (lsum_firstn_S _ _ _ Ed). apply lsum_firstn_le. }
  destruct (slot_at st (num_ents e) jobs dims c Hok HL Hd) as (c' & E & L & S1 & S2). exists c'. split; [|split; [exact L|split; [exact S1|]]].
  - assert (El : last (psums dims) 0 = st) by (unfold st; clear; induction dims as [|d m _] using rev_ind; [reflexivity|]; rewrite psums_snoc, last_last, lsum_app, lsum_cons, lsum_nil; lia).
    assert (Ne : psums dims <> []) by (intro Z; pose proof (psums_length dims); rewrite Z in *; discriminate).
    rewrite (entities_unfold _ _ _ _ _ Ne). cbv zeta.
    rewrite El. replace (length c <? num_ents e * st) with false by (symmetry; apply Nat.ltb_ge; exact HL).
    rewrite <- E. unfold run, jobs. rewrite ofold_map. apply ofold_ext. intros a [k [u m]] Hin. apply in_enum_nth in Hin. pose proof (nth_error_In _ _ Hin) as Hin'. destruct (Hcells u m Hin') as (Ec & _). rewrite Ec. cbn [obind]. rewrite psums_nth.
    + reflexivity.
    + unfold dims. rewrite map_length. apply Nat.lt_le_incl. eapply nth_error_bound; eauto.
  - intros i k u m p Ei Ek. pose proof (nth_error_In _ _ Ek) as Hin. destruct (Hcells u m Hin) as (_ & F). pose proof (nth_error_bound _ _ _ Ei) as Hb. rewrite ents_len in Hb.
    assert (Ejk : nth_error jobs k = Some (mkJob u (cells (u, m)) (lsum (firstn k dims)))) by (rewrite Ej, Ek; reflexivity).
    exists (nth i (cells (u, m)) None). split; [|exact (S2 i k _ Hb Ejk)].
    destruct (F2_nth _ _ _ _ _ F Ei) as (x & Ex & O). rewrite (nth_error_nth _ _ _ Ex). exact O.
Qed.

Lemma too_small coeffs c_to_e e offsets c : length c < num_ents e * last offsets 0 -> pack_entities (T:=T) coeffs c_to_e e offsets c = None.
Proof. intro H. unfold pack_entities. destruct offsets; [reflexivity|]. now rewrite (proj2 (Nat.ltb_lt _ _) H). Qed.

(** ** Constants *)
Lemma copy_loop (value v : list T) off s : off + s + length value <= length v ->
  ofold (fun v '(i, x) => upd v (off + i) x) (combine (seq s (length value)) value) v = Some (firstn (off + s) v ++ value ++ skipn (off + s + length value) v).
Proof.
  revert v s. induction value as [|x l IH]; intros v s H; cbn [length seq combine ofold app].
  - f_equal. rewrite Nat.add_0_r. symmetry. apply firstn_skipn.
  - cbn [length] in H. rewrite upd_put by lia. cbn [obind]. rewrite IH; [|rewrite put_at_length; cbn [length]; lia]. f_equal. unfold put_at. cbn [length app].
    assert (Lf : length (firstn (off + s) v) = off + s) by (rewrite firstn_length; lia).
    rewrite firstn_app, Lf. replace (off + S s - (off + s)) with 1 by lia. rewrite (firstn_all2 (firstn (off + s) v)) by lia. cbn [firstn]. rewrite <- app_assoc. cbn [app]. do 3 f_equal.
    rewrite skipn_app, Lf, skipn_all2 by (rewrite Lf; lia). replace (off + S s + length l - (off + s)) with (S (length l)) by lia. cbn [skipn app]. rewrite skip2. f_equal. lia.
Qed.
Lemma sum_lengths (l : list (list T)) a : fold_left (fun s v => s + length v) l a = a + length (concat l).
Proof. revert a. induction l as [|v l IH]; intro a; cbn [fold_left concat]; [cbn; lia|]. rewrite IH, app_length. lia. Qed.
Lemma constants_packed (l : list (list T)) : pack_constants zero l = Some (concat l).
Proof.
  unfold pack_constants. rewrite sum_lengths. cbn [Nat.add].
  assert (G : forall l done, ofold (fun '(v, offset) value => v <- ofold (fun v '(i, x) => upd v (offset + i) x) (enum value) v ;; Some (v, offset + length value)) l (done ++ repeat zero (length (concat l)), length done) = Some (done ++ concat l, length (done ++ concat l))).
  { induction l0 as [|v l0 IH]; intro d; cbn [ofold concat]; [rewrite !app_nil_r; reflexivity|]. unfold enum at 1. pose proof (copy_loop v (d ++ repeat zero (length (v ++ concat l0))) (length d) 0) as C. rewrite Nat.add_0_r in C. rewrite C by (rewrite ?app_length, ?repeat_length, ?app_length; lia). cbn [obind].
    rewrite firstn_app, Nat.sub_diag, firstn_all. cbn [firstn]. rewrite app_nil_r, skipn_app, skipn_all2 by lia. cbn [app].
    replace (length d + length v - length d) with (length v) by lia. rewrite app_length, repeat_app, skipn_app, skipn_all2 by (rewrite repeat_length; lia). rewrite repeat_length, Nat.sub_diag. cbn [skipn app].
    rewrite app_assoc. rewrite <- app_length. rewrite IH. now rewrite <- app_assoc. }
  specialize (G l []). cbn [app length] in G. rewrite G. reflexivity.
Qed.
End Ents.
