(** Proofs about the packing of coefficients. *)
From Verif Require Import Base BaseProofs Algo AlgoProofs BucketProofs MatrixCSR MatrixProofs Assemble AssembleSpec AsmMatrix Pack PackSpec.
Open Scope nat_scope.

Section Writes.
Context {T : Type}.
Variable zero : T.
Lemma nth_skipn n (l : list T) i : nth i (skipn n l) zero = nth (n + i) l zero.
Proof. revert l. induction n as [|n IH]; intros [|x l]; cbn [skipn nth Nat.add]; [reflexivity|reflexivity|now destruct i|apply IH]. Qed.
Lemma nth_firstn n (l : list T) i : i < n -> nth i (firstn n l) zero = nth i l zero.
Proof. revert l i. induction n as [|n IH]; intros [|x l] [|i] H; cbn [firstn nth]; try lia; try reflexivity. apply IH. lia. Qed.
Definition put_at (q : nat) (s c : list T) : list T := firstn q c ++ s ++ skipn (q + length s) c.
Lemma put_at_length q s c : q + length s <= length c -> length (put_at q s c) = length c.
Proof. intro H. unfold put_at. rewrite !app_length, firstn_length, skipn_length. lia. Qed.
Lemma put_at_nth q s c p : q + length s <= length c -> nth p (put_at q s c) zero = if (q <=? p) && (p <? q + length s) then nth (p - q) s zero else nth p c zero.
Proof.
  intro H. unfold put_at. assert (Lf : length (firstn q c) = q) by (rewrite firstn_length; lia).
  destruct (Nat.leb_spec q p) as [Hq|Hq]; cbn [andb].
  - rewrite app_nth2 by lia. rewrite Lf. destruct (Nat.ltb_spec p (q + length s)) as [Hp|Hp].
    + apply app_nth1. lia.
    + rewrite app_nth2 by lia. rewrite nth_skipn. f_equal. lia.
  - rewrite app_nth1 by lia. apply nth_firstn. exact Hq.
Qed.
Lemma put_at_full s c : length s = length c -> put_at 0 s c = s.
Proof. intro H. unfold put_at. cbn [firstn app]. rewrite skipn_all2 by lia. apply app_nil_r. Qed.
Lemma put_at_nil q c : put_at q [] c = c.
Proof. unfold put_at. cbn [length app]. rewrite Nat.add_0_r. apply firstn_skipn. Qed.
Lemma put_at_app q s s' c : q + length s + length s' <= length c -> put_at (q + length s) s' (put_at q s c) = put_at q (s ++ s') c.
Proof.
  intro H. apply (nth_ext _ _ zero zero).
  - rewrite put_at_length, !put_at_length; rewrite ?put_at_length, ?app_length; lia.
  - intros p _. rewrite !put_at_nth, app_length; rewrite ?put_at_length, ?app_length; try lia.
    destruct (Nat.leb_spec (q + length s) p), (Nat.leb_spec q p), (Nat.ltb_spec p (q + length s + length s')), (Nat.ltb_spec p (q + length s)), (Nat.ltb_spec p (q + (length s + length s'))); cbn [andb]; try lia; try reflexivity.
    + rewrite app_nth2 by lia. f_equal. lia.
    + rewrite app_nth1 by lia. reflexivity.
Qed.
Lemma upd_put c q v : q < length c -> upd c q v = Some (put_at q [v] c).
Proof.
  intro H. apply upd_split. exists (firstn q c), (nth q c v), (skipn (q + 1) c). split; [|split].
  - rewrite <- (firstn_skipn q c) at 1. f_equal. rewrite Nat.add_1_r. clear -H. revert q H. induction c as [|y c IH]; intros [|q] H; cbn in H; try lia; [reflexivity|]. cbn [skipn nth]. apply IH. lia.
  - rewrite firstn_length. lia.
  - reflexivity.
Qed.
(** Entries written one after the other. *)
Lemma writes_seq (g : nat -> option T) (h : nat -> T) q n s c : (forall k, k < s + n -> g k = Some (h k)) -> q + s + n <= length c ->
  ofold (fun c k => v <- g k ;; upd c (q + k) v) (seq s n) c = Some (put_at (q + s) (map h (seq s n)) c).
Proof.
  revert s c. induction n as [|n IH]; intros s c Hg Hc; cbn [seq ofold map]; [now rewrite put_at_nil|].
  rewrite (Hg s) by lia. cbn [obind]. rewrite upd_put by lia. cbn [obind].
  rewrite IH; [|intros k Hk; apply Hg; lia|rewrite put_at_length; cbn [length]; lia].
  f_equal. replace (q + S s) with (q + s + length [h s]) by (cbn [length]; lia). rewrite put_at_app; [reflexivity|]. cbn [length]. rewrite map_length, seq_length. lia.
Qed.
(** Blocks written one after the other. *)
Lemma writes_blocks (x : list T) bs dofs s c : (forall d, In d dofs -> bs * d + bs <= length x) -> bs * (s + length dofs) <= length c ->
  ofold (fun c '(i, d) => ofold (fun c k => v <- nth_error x (bs * d + k) ;; upd c (bs * i + k) v) (seq 0 bs) c) (combine (seq s (length dofs)) dofs) c =
  Some (put_at (bs * s) (concat (map (fun d => map (fun k => nth (bs * d + k) x zero) (seq 0 bs)) dofs)) c).
Proof.
  revert s c. induction dofs as [|d dofs IH]; intros s c Hd Hc; cbn [length seq combine ofold map concat]; [now rewrite put_at_nil|]. cbn [length] in Hc.
  assert (Hb : bs * d + bs <= length x) by (apply Hd; now left).
  rewrite (writes_seq _ (fun k => nth (bs * d + k) x zero) (bs * s) bs 0 c); [|intros k Hk; apply nth_error_nth'; lia|nia]. cbn [obind]. rewrite Nat.add_0_r.
  set (blk := map (fun k => nth (bs * d + k) x zero) (seq 0 bs)). assert (Lb : length blk = bs) by (unfold blk; now rewrite map_length, seq_length).
  rewrite IH; [|intros d' Hd'; apply Hd; now right|rewrite put_at_length; nia].
  f_equal. replace (bs * S s) with (bs * s + length blk) by (rewrite Lb; nia). rewrite put_at_app; [reflexivity|].
  rewrite Lb. rewrite (concat_uniform_len _ bs); [rewrite map_length; nia|]. intros l Hl. apply in_map_iff in Hl as (d' & <- & _). now rewrite map_length, seq_length.
Qed.

Lemma cell_values_length (u : func T) cell row : func_ok u -> nth_error (cd_rows (fn_dm u)) cell = Some row -> length (cell_values zero u cell) = fn_dim u.
Proof.
  intros (H & K) E. unfold cell_values. rewrite K, (nth_error_nth _ _ [] E). destruct (H row (nth_error_In _ _ E)) as (<- & _).
  rewrite (concat_uniform_len _ (cd_bs (fn_dm u))); [rewrite map_length; lia|]. intros l Hl. apply in_map_iff in Hl as (d & <- & _). now rewrite map_length, seq_length.
Qed.
Lemma pack_impl_ok (u : func T) cell s : func_ok u -> cell < length (cd_rows (fn_dm u)) -> length s = fn_dim u -> pack_impl u cell s = Some (cell_values zero u cell).
Proof.
  intros Hu Hc Hs. destruct (nth_error_lt _ _ Hc) as (row & E). pose proof Hu as (H & K). destruct (H row (nth_error_In _ _ E)) as (Hw & Hd).
  unfold pack_impl. rewrite E. cbn [obind]. unfold enum. rewrite (writes_blocks (fn_x u) (cd_bs (fn_dm u)) row 0 s Hd) by (cbn [Nat.add]; lia). cbn [obind].
  unfold cell_values. rewrite (nth_error_nth _ _ [] E). rewrite Nat.mul_0_r, put_at_full; [reflexivity|].
  rewrite (concat_uniform_len _ (cd_bs (fn_dm u))); [rewrite map_length; lia|]. intros l Hl. apply in_map_iff in Hl as (d & <- & _). now rewrite map_length, seq_length.
Qed.

(** One coefficient on one side: what it writes at position [p]. *)
Record job := mkJob { jb_u : func T; jb_cells : list (option nat); jb_off : nat }.
Definition hit (st : nat) (j : job) (p : nat) : bool :=
  match nth (p / st) (jb_cells j) None with Some _ => (jb_off j <=? p mod st) && (p mod st <? jb_off j + fn_dim (jb_u j)) | None => false end.
Definition val (st : nat) (j : job) (p : nat) : T :=
  match nth (p / st) (jb_cells j) None with Some c => nth (p mod st - jb_off j) (cell_values zero (jb_u j) c) zero | None => zero end.
Definition job_ok (st num : nat) (j : job) : Prop := func_ok (jb_u j) /\ cells_of (jb_u j) num (jb_cells j) /\ jb_off j + fn_dim (jb_u j) <= st.

Lemma in_span st e off dim p : off + dim <= st -> (e * st + off <=? p) && (p <? e * st + off + dim) = (p / st =? e) && ((off <=? p mod st) && (p mod st <? off + dim)).
Proof.
  intro H. destruct (Nat.eq_dec st 0) as [->|N].
  - assert (off = 0) as -> by lia. assert (dim = 0) as -> by lia. replace (p mod 0 <? 0 + 0) with false by (symmetry; apply Nat.ltb_ge; lia). rewrite !Bool.andb_false_r. destruct (Nat.leb_spec (e * 0 + 0) p), (Nat.ltb_spec p (e * 0 + 0 + 0)); cbn [andb]; lia || reflexivity.
  - pose proof (Nat.div_mod p st N) as E. pose proof (Nat.mod_upper_bound p st N) as B. set (a := p / st) in *. set (b := p mod st) in *. clearbody a b. rewrite E.
    destruct (Nat.eqb_spec a e) as [->|D]; cbn [andb].
    + rewrite (Nat.mul_comm e st). destruct (Nat.leb_spec off b), (Nat.leb_spec (st * e + off) (st * e + b)), (Nat.ltb_spec b (off + dim)), (Nat.ltb_spec (st * e + b) (st * e + off + dim)); cbn [andb]; lia || reflexivity.
    + destruct (Nat.leb_spec (e * st + off) (st * a + b)) as [L1|L1], (Nat.ltb_spec (st * a + b) (e * st + off + dim)) as [L2|L2]; cbn [andb]; try reflexivity. exfalso. apply D.
      assert (e <= a) by (destruct (le_lt_dec e a); [assumption|]; assert (st * (a + 1) <= st * e) by (apply Nat.mul_le_mono_l; lia); nia).
      assert (a <= e) by (destruct (le_lt_dec a e); [assumption|]; assert (st * (e + 1) <= st * a) by (apply Nat.mul_le_mono_l; lia); nia). lia.
Qed.

Lemma entity_ok st (u : func T) cells off c num : job_ok st num (mkJob u cells off) -> num * st <= length c ->
  exists c', pack_coefficient_entity c st u cells off = Some c' /\ length c' = length c /\
    forall p, nth p c' zero = if hit st (mkJob u cells off) p then val st (mkJob u cells off) p else nth p c zero.
Proof.
  intros (Hu & (Hn & Hc) & Ho) HL. cbn [jb_u jb_cells jb_off] in *. unfold pack_coefficient_entity, enum.
  assert (G : forall l s c, s + length l <= num -> (forall x, In (Some x) l -> x < length (cd_rows (fn_dm u))) -> num * st <= length c ->
    exists c', ofold (fun c '(e, cell) => match cell with None => Some c | Some cell => let p := e * st + off in s <- slice c p (p + fn_dim u) ;; s <- pack_impl u cell s ;; Some (firstn p c ++ s ++ skipn (p + fn_dim u) c) end) (combine (seq s (length l)) l) c = Some c' /\
      length c' = length c /\ forall p, nth p c' zero = match (if s <=? p / st then nth (p / st - s) l None else None) with
        | Some x => if (off <=? p mod st) && (p mod st <? off + fn_dim u) then nth (p mod st - off) (cell_values zero u x) zero else nth p c zero | None => nth p c zero end).
  { clear Hc Hn cells c HL. induction l as [|x l IH]; intros s c Hs Hx HL; cbn [length seq combine ofold].
    - exists c. split; [reflexivity|]. split; [reflexivity|]. intro p. destruct (s <=? p / st); [destruct (p / st - s)|]; reflexivity.
    - cbn [length] in Hs. destruct x as [x|].
      + assert (B : s * st + off + fn_dim u <= length c) by (assert ((s + 1) * st <= num * st) by (apply Nat.mul_le_mono_r; lia); nia).
        assert (Es : slice c (s * st + off) (s * st + off + fn_dim u) = Some (firstn (fn_dim u) (skipn (s * st + off) c))).
        { apply slice_some. split; [lia|]. split; [lia|]. f_equal. lia. }
        assert (Hxr : x < length (cd_rows (fn_dm u))) by (apply Hx; now left).
        cbv zeta. rewrite Es. cbn [obind]. rewrite (pack_impl_ok u x _ Hu Hxr) by (rewrite firstn_length, skipn_length; lia). cbn [obind].
        destruct (nth_error_lt _ _ Hxr) as (row & Er). pose proof (cell_values_length u x row Hu Er) as Lv.
        replace (firstn (s * st + off) c ++ cell_values zero u x ++ skipn (s * st + off + fn_dim u) c) with (put_at (s * st + off) (cell_values zero u x) c) by (unfold put_at; now rewrite Lv).
        destruct (IH (S s) (put_at (s * st + off) (cell_values zero u x) c)) as (c' & E' & L' & N'); [lia|intros y Hy; apply Hx; now right|rewrite put_at_length; lia|].
        exists c'. split; [exact E'|]. split; [rewrite L', put_at_length; lia|]. intro p. rewrite N', put_at_nth by lia. rewrite Lv.
        rewrite in_span by exact Ho.
        destruct (Nat.leb_spec s (p / st)) as [L1|L1].
        * destruct (Nat.eqb_spec (p / st) s) as [E|D].
          -- rewrite E, Nat.sub_diag. cbn [nth]. replace (S s <=? s) with false by (symmetry; apply Nat.leb_gt; lia). cbn [andb].
             destruct ((off <=? p mod st) && (p mod st <? off + fn_dim u)) eqn:Ein; [|reflexivity]. apply andb_prop in Ein as (A1 & A2). apply Nat.leb_le in A1. f_equal.
             destruct (Nat.eq_dec st 0) as [->|N]; [apply Nat.ltb_lt in A2; lia|]. pose proof (Nat.div_mod p st N). rewrite E in H. nia.
          -- replace (S s <=? p / st) with true by (symmetry; apply Nat.leb_le; lia). replace (p / st - s) with (S (p / st - S s)) by lia. cbn [nth andb]. reflexivity.
        * replace (S s <=? p / st) with false by (symmetry; apply Nat.leb_gt; lia). replace (p / st =? s) with false by (symmetry; apply Nat.eqb_neq; lia). reflexivity.
      + cbn [obind]. destruct (IH (S s) c) as (c' & E' & L' & N'); [lia|intros y Hy; apply Hx; now right|exact HL|].
        exists c'. split; [exact E'|]. split; [exact L'|]. intro p. rewrite N'. destruct (Nat.leb_spec s (p / st)) as [L1|L1].
        * destruct (Nat.eqb_spec (p / st) s) as [E|D].
          -- rewrite E, Nat.sub_diag. cbn [nth]. replace (S s <=? s) with false by (symmetry; apply Nat.leb_gt; lia). reflexivity.
          -- replace (S s <=? p / st) with true by (symmetry; apply Nat.leb_le; lia). replace (p / st - s) with (S (p / st - S s)) by lia. reflexivity.
        * replace (S s <=? p / st) with false by (symmetry; apply Nat.leb_gt; lia). reflexivity. }
  destruct (G cells 0 c) as (c' & E & L & N); [lia|exact Hc|exact HL|]. exists c'. split; [exact E|]. split; [exact L|]. intro p. rewrite N. unfold hit, val. cbn [jb_cells jb_u jb_off Nat.leb]. rewrite Nat.sub_0_r.
  destruct (nth (p / st) cells None); reflexivity.
Qed.

Definition run (st : nat) (jobs : list job) (c : list T) : option (list T) := ofold (fun c j => pack_coefficient_entity c st (jb_u j) (jb_cells j) (jb_off j)) jobs c.
Lemma run_ok st num jobs c : (forall j, In j jobs -> job_ok st num j) -> num * st <= length c ->
  exists c', run st jobs c = Some c' /\ length c' = length c /\
    forall p v, (forall j, In j jobs -> hit st j p = true -> val st j p = v) -> nth p c' zero = if existsb (fun j => hit st j p) jobs then v else nth p c zero.
Proof.
  revert c. induction jobs as [|j jobs IH]; intros c Hj HL; cbn [run ofold].
  - exists c. split; [reflexivity|]. split; [reflexivity|]. intros p v _. reflexivity.
  - destruct j as [u cells off]. destruct (entity_ok st u cells off c num) as (c1 & E1 & L1 & N1); [apply Hj; now left|exact HL|]. cbn [jb_u jb_cells jb_off]. rewrite E1. cbn [obind].
    destruct (IH c1) as (c2 & E2 & L2 & N2); [intros j H; apply Hj; now right|lia|]. exists c2. split; [exact E2|]. split; [lia|].
    intros p v Hv. rewrite (N2 p v) by (intros j H; apply Hv; now right). cbn [existsb]. rewrite N1.
    destruct (hit st (mkJob u cells off) p) eqn:Eh; cbn [orb]; [|reflexivity]. rewrite (Hv _ (or_introl eq_refl) Eh). destruct (existsb _ jobs); reflexivity.
Qed.

(** * Rows *)

(** A row is a list of fields. *)
Record field := mkField { fd_u : func T; fd_on : bool; fd_cells : list (option nat) }.
Definition fdims (F : list field) : list nat := map (fun f => fn_dim (fd_u f)) F.
Definition fval (e : nat) (f : field) : list T := if fd_on f then side_values zero (fd_u f) (nth e (fd_cells f) None) else repeat zero (fn_dim (fd_u f)).
Definition frow (F : list field) (e : nat) : list T := concat (map (fval e) F).
Definition field_ok (num : nat) (f : field) : Prop := fd_on f = true -> func_ok (fd_u f) /\ cells_of (fd_u f) num (fd_cells f).
Lemma fval_length num f e : field_ok num f -> length (fval e f) = fn_dim (fd_u f).
Proof.
  intro H. unfold fval. destruct (fd_on f) eqn:E; [|apply repeat_length]. destruct (H E) as (Hu & _ & Hc). unfold side_values. destruct (nth e (fd_cells f) None) as [x|] eqn:En; [|apply repeat_length].
  destruct (nth_error_lt _ _ (Hc x ltac:(rewrite <- En; apply nth_In; destruct (le_lt_dec (length (fd_cells f)) e) as [L|L]; [rewrite nth_overflow in En by exact L; discriminate|exact L]))) as (row & Er). eapply cell_values_length; eauto.
Qed.
Lemma frow_lengths num F e : (forall f, In f F -> field_ok num f) -> map (@length T) (map (fval e) F) = fdims F.
Proof. intro H. rewrite map_map. apply map_ext_in. intros f Hf. apply (fval_length num). now apply H. Qed.
Lemma frow_length num F e : (forall f, In f F -> field_ok num f) -> length (frow F e) = lsum (fdims F).
Proof. intro H. unfold frow. rewrite <- lsum_concat_length, (frow_lengths num) by exact H. reflexivity. Qed.

Definition field_job (F : list field) (i : nat) (j : job) : Prop := exists f, nth_error F i = Some f /\ fd_on f = true /\ j = mkJob (fd_u f) (fd_cells f) (lsum (firstn i (fdims F))).
Lemma fields_ok num F jobs : (forall f, In f F -> field_ok num f) ->
  (forall j, In j jobs -> exists i, field_job F i j) -> (forall i f, nth_error F i = Some f -> fd_on f = true -> exists j, In j jobs /\ field_job F i j) ->
  run (lsum (fdims F)) jobs (repeat zero (num * lsum (fdims F))) = Some (concat (map (frow F) (seq 0 num))).
Proof.
  intros HF HJ HC. set (st := lsum (fdims F)).
  assert (Hok : forall j, In j jobs -> job_ok st num j).
  { intros j Hj. destruct (HJ j Hj) as (i & f & Ef & On & ->). destruct (HF f (nth_error_In _ _ Ef) On) as (A & B). split; [exact A|]. split; [exact B|]. cbn [jb_u jb_off].
    assert (Ed : nth_error (fdims F) i = Some (fn_dim (fd_u f))) by (unfold fdims; now rewrite nth_error_map_some, Ef). rewrite <- (lsum_firstn_S _ _ _ Ed). apply lsum_firstn_le. }
  destruct (run_ok st num jobs (repeat zero (num * st)) Hok) as (c' & E & L & N); [rewrite repeat_length; lia|]. rewrite E. f_equal.
  assert (Lr : forall l, In l (map (frow F) (seq 0 num)) -> length l = st) by (intros l Hl; apply in_map_iff in Hl as (e & <- & _); now apply (frow_length num)).
  apply (nth_ext _ _ zero zero); [rewrite L, repeat_length, (concat_uniform_len _ st Lr), map_length, seq_length; reflexivity|].
  rewrite L, repeat_length. intros p Hp. assert (N0 : st <> 0) by (intro Z; rewrite Z in Hp; lia).
  pose proof (Nat.div_mod p st N0) as Dm. pose proof (Nat.mod_upper_bound p st N0) as Bm. set (e := p / st) in *. set (t := p mod st) in *.
  assert (He : e < num) by (apply Nat.div_lt_upper_bound; lia).
  replace p with (e * st + t) at 2 by lia. rewrite (concat_uniform _ st zero Lr) by (rewrite ?map_length, ?seq_length; lia).
  rewrite (nth_indep _ [] (frow F 0)) by (rewrite map_length, seq_length; exact He). rewrite map_nth, seq_nth by exact He. cbn [Nat.add].
  destruct (concat_index (map (fval e) F) t) as (i & l & b & El & Hb & Et); [change (t < length (frow F e)); now rewrite (frow_length num)|].
  rewrite (frow_lengths num) in Et by exact HF. unfold frow. rewrite nth_error_map_some in El. destruct (nth_error F i) as [f|] eqn:Ef; [|discriminate]. cbn [option_map] in El. injection El as <-.
  assert (Er : nth t (concat (map (fval e) F)) zero = nth b (fval e f) zero).
  { apply nth_error_nth. rewrite Et. rewrite <- (frow_lengths num F e HF). rewrite (nth_error_concat _ i (fval e f) b); [|now rewrite nth_error_map_some, Ef|exact Hb]. now apply nth_error_nth'. }
  rewrite Er. assert (Hff : field_ok num f) by (apply HF; eapply nth_error_In; eauto). rewrite (fval_length num) in Hb by exact Hff.
  assert (Ed : nth_error (fdims F) i = Some (fn_dim (fd_u f))) by (unfold fdims; now rewrite nth_error_map_some, Ef).
  assert (Hone : forall j, In j jobs -> hit st j p = true -> field_job F i j).
  { intros j Hj Hh. destruct (HJ j Hj) as (i' & f' & Ef' & On' & ->). unfold hit in Hh. cbn [jb_cells jb_u jb_off] in Hh. fold e t in Hh. destruct (nth e (fd_cells f') None); [|discriminate]. apply andb_prop in Hh as (A1 & A2). apply Nat.leb_le in A1. apply Nat.ltb_lt in A2.
    assert (Ed' : nth_error (fdims F) i' = Some (fn_dim (fd_u f'))) by (unfold fdims; now rewrite nth_error_map_some, Ef').
    destruct (lt_eq_lt_dec i i') as [[Lt| ->]|Lt].
    - pose proof (off_disjoint _ _ _ _ Lt Ed). lia.
    - exists f'. auto.
    - pose proof (off_disjoint _ _ _ _ Lt Ed'). lia. }
  assert (Hval : forall j, In j jobs -> hit st j p = true -> val st j p = nth b (fval e f) zero).
  { intros j Hj Hh. destruct (Hone j Hj Hh) as (f' & Ef' & On' & ->). rewrite Ef in Ef'. injection Ef' as <-. unfold hit in Hh. unfold val. cbn [jb_cells jb_u jb_off] in *. fold e t in Hh |- *. unfold fval. rewrite On'. unfold side_values. destruct (nth e (fd_cells f) None); [|discriminate]. f_equal. lia. }
  rewrite (N p _ Hval). destruct (existsb (fun j => hit st j p) jobs) eqn:Ex; [reflexivity|].
  rewrite nth_repeat. unfold fval. destruct (fd_on f) eqn:On; [|now rewrite nth_repeat]. unfold side_values. destruct (nth e (fd_cells f) None) as [x|] eqn:En; [|now rewrite nth_repeat].
  exfalso. destruct (HC i f Ef On) as (j & Hj & Hfj). destruct Hfj as (f' & Ef' & _ & ->). rewrite Ef in Ef'. injection Ef' as <-.
  assert (Hh : existsb (fun j => hit st j p) jobs = true); [|congruence]. apply existsb_exists. eexists. split; [exact Hj|]. unfold hit. cbn [jb_cells jb_u jb_off]. fold e t. rewrite En. apply andb_true_intro. split; [apply Nat.leb_le; lia|apply Nat.ltb_lt; lia].
Qed.
End Writes.
