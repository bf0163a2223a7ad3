(** Markers, prescribed values and the diagonal. *)
From Coq Require Import Ring.
From Verif Require Import Base BaseProofs StackProofs Algo AlgoProofs MatrixCSR MatrixSpec MatrixProofs DirichletBC BcProofs Assemble AssembleSpec AsmBlocks AsmSums AsmVector AsmMatrix AsmCsr AssembleBC AssembleBcSpec AsmLift.
Open Scope nat_scope.

Lemma last_index_some l d k : last_index l d = Some k -> last_at l d k.
Proof.
  revert k. induction l as [|y l IH]; intros k; cbn [last_index]; [discriminate|]. destruct (last_index l d) as [j|] eqn:E.
  - intros [= <-]. destruct (IH j eq_refl) as (H1 & H2). split; [exact H1|]. intros [|k'] Hk; [lia|]. cbn. apply H2. lia.
  - destruct (Nat.eqb_spec y d) as [->|]; [|discriminate]. intros [= <-]. split; [reflexivity|]. intros [|k'] Hk; [lia|]. cbn. clear -E. revert k'. induction l as [|z l IH]; intros k'; [now destruct k'|]. cbn in E. destruct (last_index l d); [discriminate|]. destruct (Nat.eqb_spec z d); [discriminate|]. destruct k'; cbn; [congruence|now apply IH].
Qed.
Lemma last_index_none l d : last_index l d = None <-> ~ In d l.
Proof.
  induction l as [|y l IH]; cbn [last_index]; [split; [intros _ []|reflexivity]|]. destruct (last_index l d) as [j|].
  - split; [discriminate|]. intro H. exfalso. assert (Hd : ~ In d l) by (intro; apply H; now right). now apply IH in Hd.
  - destruct (Nat.eqb_spec y d) as [->|N]; [split; [discriminate|intro H; exfalso; apply H; now left]|]. split; [|reflexivity]. intros _ [H|H]; [congruence|]. now apply (proj1 IH eq_refl).
Qed.
Lemma mem_false d l : mem d l = false <-> ~ In d l.
Proof. rewrite <- mem_iff. destruct (mem d l); split; congruence. Qed.
Lemma nth_error_ext2 {X} (l : list X) i j (x : X) : nth_error l i = Some x -> i = j -> nth_error l j = Some x.
Proof. intros H <-. exact H. Qed.

Section Markers.
Context {T : Type}.
Lemma marked_mark (b : bc T) m : (forall d, In d (bc_dofs0 b) -> d < length m) -> exists m', mark_dofs b m = Some m' /\ length m' = length m /\ forall d, marked m' d = mem d (bc_dofs0 b) || marked m d.
Proof.
  intro H. destruct (mark_ok b m) as (m' & E & L & V); [now apply Forall_forall|]. exists m'. split; [exact E|]. split; [exact L|]. intro d. unfold marked.
  destruct (Nat.lt_ge_cases d (length m)) as [Hd|Hd].
  - specialize (V d Hd). destruct (mem d (bc_dofs0 b)); cbn [orb]; [now apply nth_error_nth|]. rewrite (nth_error_nth' m false Hd) in V. now apply nth_error_nth.
  - rewrite !nth_overflow by lia. destruct (mem d (bc_dofs0 b)) eqn:Em; [|reflexivity]. apply mem_iff, H in Em. lia.
Qed.
Lemma resize_full m n : length m = n -> resize m n = m.
Proof. intros <-. unfold resize. rewrite firstn_all, Nat.sub_diag. apply app_nil_r. Qed.
Lemma resize_nil n : resize [] n = repeat false n.
Proof. unfold resize. rewrite firstn_nil. cbn. now rewrite Nat.sub_0_r. Qed.
Lemma nth_repeat_false d n : nth d (repeat false n) false = false.
Proof. revert d. induction n as [|n IH]; intros [|d]; cbn; auto. Qed.
Lemma constrained_snoc (bcs : list (bc T)) b d : constrained (bcs ++ [b]) d = mem d (bc_dofs0 b) || constrained bcs d.
Proof. unfold constrained. rewrite existsb_app. cbn. rewrite Bool.orb_false_r. apply Bool.orb_comm. Qed.
Lemma build_markers_ok V dim (bcs : list (sid * bc T)) : (forall b d, In b (on V bcs) -> In d (bc_dofs0 b) -> d < dim) ->
  exists m, build_markers V dim bcs = Some m /\ (m <> [] -> length m = dim) /\ forall d, marked m d = constrained (on V bcs) d.
Proof.
  unfold build_markers. induction bcs as [|[W b] bcs IH] using rev_ind; intro H.
  - exists []. split; [reflexivity|]. split; [intro Hn; now contradiction Hn|]. intro d. now destruct d.
  - assert (Eon : on V (bcs ++ [(W, b)]) = on V bcs ++ (if contains V W then [b] else [])).
    { unfold on. rewrite filter_app, map_app. cbn [filter fst]. now destruct (contains V W). }
    rewrite Eon in H. destruct IH as (m & E & L & M); [intros b' d Hb; apply (H b' d); apply in_app_iff; now left|]. rewrite ofold_app, E. cbn [obind ofold]. rewrite Eon. destruct (contains V W).
    + assert (Hr : length (resize m dim) = dim /\ forall d, marked (resize m dim) d = marked m d).
      { destruct m as [|z m']; [rewrite resize_nil; split; [apply repeat_length|intro d; unfold marked; rewrite nth_repeat_false; now destruct d]|]. rewrite resize_full by (apply L; discriminate). split; [apply L; discriminate|reflexivity]. }
      destruct Hr as (Lr & Mr). destruct (marked_mark b (resize m dim)) as (m' & E' & L' & M'). { intros d Hd. rewrite Lr. apply (H b d); [|exact Hd]. apply in_app_iff. right. now left. }
      rewrite E'. cbn [obind]. exists m'. split; [reflexivity|]. split; [intros _; lia|]. intro d. rewrite M', Mr, M, constrained_snoc. reflexivity.
    + cbn [obind]. exists m. rewrite app_nil_r. auto.
Qed.
End Markers.

Section Values.
Context {T : Type}.
Variables (zero one : T) (add mul sub : T -> T -> T) (opp : T -> T).
Hypothesis Rth : ring_theory zero one add mul sub opp eq.
Add Ring R2 : Rth.
Variable eqb : T -> T -> bool.
Hypothesis eqb_ok : forall x y, eqb x y = true <-> x = y.

Lemma prescribed_snoc (bcs : list (bc T)) b d : prescribed (bcs ++ [b]) d = match last_index (bc_dofs0 b) d with Some k => value_at b k | None => prescribed bcs d end.
Proof. unfold prescribed. rewrite fold_left_app. reflexivity. Qed.
Lemma set_one (b : bc T) x x0 alpha : long0 x0 (length x) -> (forall k d, nth_error (bc_dofs0 b) k = Some d -> d < length x /\ value_at b k <> None) ->
  exists x', bc_set zero mul sub eqb b x x0 alpha = Some x' /\ length x' = length x /\
    forall d, nth_error x' d = match last_index (bc_dofs0 b) d with Some k => g <- value_at b k ;; Some (mul alpha (sub g (at0 zero x0 d))) | None => nth_error x d end.
Proof.
  intros Hx Hb. destruct (set_general zero one add mul sub opp Rth eqb eqb_ok b x x0 alpha) as (x' & E & L & V1 & V2); [destruct x0; exact Hx|intros k d Hk _; apply (Hb k d Hk)|].
  exists x'. split; [exact E|]. split; [exact L|]. intro d. destruct (last_index (bc_dofs0 b) d) as [k|] eqn:El.
  - apply last_index_some in El. destruct (Hb k d (proj1 El)) as (Hd & Hv). destruct (value_at b k) as [g|] eqn:Eg; [|congruence]. cbn [obind]. apply (V2 d k g Hd El Eg).
  - apply V1. now apply last_index_none.
Qed.
Lemma set_bcs_ok (bcs : list (bc T)) x x0 alpha : long0 x0 (length x) -> bcs_ok bcs (length x) ->
  exists x', set_bcs zero mul sub eqb bcs x0 alpha x = Some x' /\ length x' = length x /\
    forall d, nth d x' zero = match prescribed bcs d with Some g => mul alpha (sub g (at0 zero x0 d)) | None => nth d x zero end.
Proof.
  intros Hx. unfold set_bcs. induction bcs as [|b bcs IH] using rev_ind; intro Hb.
  - exists x. repeat split.
  - destruct IH as (y & E & L & V); [intros b' Hb'; apply Hb, in_app_iff; now left|]. rewrite ofold_app, E. cbn [obind ofold].
    destruct (set_one b y x0 alpha) as (z & Ez & Lz & Vz); [now rewrite L|rewrite L; apply Hb, in_app_iff; right; now left|]. rewrite Ez. cbn [obind]. exists z. split; [reflexivity|]. split; [congruence|].
    intro d. rewrite prescribed_snoc. destruct (last_index (bc_dofs0 b) d) as [k|] eqn:El.
    + specialize (Vz d). rewrite El in Vz. apply last_index_some in El. destruct (Hb b ltac:(apply in_app_iff; right; now left) k d (proj1 El)) as (_ & Hv). destruct (value_at b k) as [g|]; [|congruence]. cbn [obind] in Vz. now apply nth_error_nth.
    + rewrite <- V. specialize (Vz d). rewrite El in Vz. destruct (Nat.lt_ge_cases d (length y)) as [Hd|Hd]; [|rewrite !nth_overflow by lia; reflexivity]. rewrite (nth_error_nth' y zero Hd) in Vz. now apply nth_error_nth.
Qed.
Lemma constrained_prescribed (bcs : list (bc T)) n d : bcs_ok bcs n -> constrained bcs d = match prescribed bcs d with Some _ => true | None => false end.
Proof.
  induction bcs as [|b bcs IH] using rev_ind; intro Hb; [reflexivity|]. rewrite constrained_snoc, prescribed_snoc, IH by (intros b' Hb'; apply Hb, in_app_iff; now left).
  destruct (last_index (bc_dofs0 b) d) as [k|] eqn:El.
  - apply last_index_some in El. destruct (Hb b ltac:(apply in_app_iff; right; now left) k d (proj1 El)) as (_ & Hv). destruct (value_at b k); [|congruence]. assert (mem d (bc_dofs0 b) = true) as -> by (apply mem_iff; apply nth_error_In with k; apply El). reflexivity.
  - apply last_index_none in El. apply mem_false in El. now rewrite El.
Qed.
Lemma constrained_lt (bcs : list (bc T)) n d : bcs_ok bcs n -> constrained bcs d = true -> d < n.
Proof. intros Hb H. unfold constrained in H. apply existsb_exists in H as (b & Hi & Hm). apply mem_iff in Hm. apply In_nth_error in Hm as (k & Hk). apply (Hb b Hi k d Hk). Qed.
Lemma bc_arrays_ok crange (bcs : list (bc T)) : bcs_ok bcs crange ->
  exists m v, bc_arrays zero one mul sub eqb crange bcs = Some (m, v) /\ length m = crange /\ length v = crange /\
    (forall d, marked m d = constrained bcs d) /\ forall d, nth d v zero = match prescribed bcs d with Some g => g | None => zero end.
Proof.
  unfold bc_arrays. induction bcs as [|b bcs IH] using rev_ind; intro Hb.
  - exists (repeat false crange), (repeat zero crange). split; [reflexivity|]. split; [apply repeat_length|]. split; [apply repeat_length|]. split; [intro d; apply nth_repeat_false|]. intro d. cbn. clear. revert d. induction crange as [|c IH]; intros [|d]; cbn; auto.
  - destruct IH as (m & v & E & Lm & Lv & M & V); [intros b' Hb'; apply Hb, in_app_iff; now left|]. rewrite ofold_app, E. cbn [obind ofold].
    assert (Hb1 := Hb b ltac:(apply in_app_iff; right; now left)). destruct (marked_mark b m) as (m' & E' & L' & M'). { intros d Hd. apply In_nth_error in Hd as (k & Hk). rewrite Lm. apply (Hb1 k d Hk). }
    rewrite E'. cbn [obind]. destruct (set_one b v None one) as (z & Ez & Lz & Vz); [exact I|rewrite Lv; exact Hb1|]. rewrite Ez. cbn [obind]. exists m', z. split; [reflexivity|]. split; [congruence|]. split; [congruence|]. split.
    + intro d. rewrite M', M, constrained_snoc. reflexivity.
    + intro d. rewrite prescribed_snoc. specialize (Vz d). destruct (last_index (bc_dofs0 b) d) as [k|] eqn:El.
      * apply last_index_some in El. destruct (Hb1 k d (proj1 El)) as (_ & Hv). destruct (value_at b k) as [g|]; [|congruence]. cbn [obind at0] in Vz. rewrite (nth_error_nth _ _ zero Vz). ring.
      * rewrite <- V. destruct (Nat.lt_ge_cases d (length v)) as [Hd|Hd]; [|rewrite !nth_overflow by lia; reflexivity]. rewrite (nth_error_nth' v zero Hd) in Vz. now apply nth_error_nth.
Qed.
End Values.

Section Diag.
Context {T : Type}.
Variables (zero : T) (add : T -> T -> T).
Lemma diag_contribs f diag r I J : contribs zero (mkCall f 1 1 [diag] [r] [r]) I J = if (r =? I) && (r =? J) then [diag] else [].
Proof. unfold contribs, c_height, c_width, c_row, c_col. cbn. rewrite !Nat.mul_1_r, !Nat.add_0_r. destruct ((r =? I) && (r =? J)); reflexivity. Qed.
Lemma set_diagonal_ok rows diag (A : csr T) : csr_ok A -> (forall r, In r rows -> in_pattern A r r) ->
  exists A', set_diagonal (fun A rows cols x => mat_set 1 1 A x rows cols) rows diag A = Some A' /\ csr_ok A' /\ same_pattern A A' /\
    forall I J, dense zero A' I J = if (I =? J) && mem I rows then diag else dense zero A I J.
Proof.
  revert A. induction rows as [|r rows IH]; intros A HA Hr.
  - exists A. split; [reflexivity|]. split; [exact HA|]. split; [now split|]. intros I J. cbn. now rewrite Bool.andb_false_r.
  - unfold set_diagonal. cbn [ofold]. set (c := mkCall false 1 1 [diag] [r] [r]).
    destruct (run_calls_ok zero add [c] A HA) as (A1 & E & F0 & F1 & F2 & F3 & HA1 & HD).
    { intros c0 [<-|[]]. pose proof (Hr r ltac:(now left)) as Hp. split.
      - unfold call_shape. unfold c_height, c_width, c_row. cbn. split; [lia|]. split; [lia|]. split; [reflexivity|]. split; [|right; right; now split]. intros a Ha. assert (a = 0) as -> by lia. cbn. rewrite Nat.mul_1_r, Nat.add_0_r.
        destruct Hp as (l & Hl & _). unfold slice_at in Hl. destruct (nth_error (mt_rp A) (r / mt_bs0 A)); [|discriminate]. cbn [obind] in Hl. destruct (nth_error (mt_rp A) (S (r / mt_bs0 A))) eqn:E; [|discriminate]. now apply nth_error_bound in E.
      - intros a b Ha Hb. unfold c_height, c_width in Ha, Hb. cbn in Ha, Hb. assert (a = 0) as -> by lia. assert (b = 0) as -> by lia. unfold c_row, c_col. cbn. rewrite !Nat.mul_1_r, !Nat.add_0_r. exact Hp. }
    unfold mat_run in E. cbn [ofold] in E. unfold mat_call in E. cbn [c_add c c_bs0 c_bs1 c_x c_rows c_cols] in E. destruct (mat_set 1 1 A [diag] [r] [r]) as [A1'|]; [|discriminate]. cbn [obind] in E |- *. injection E as ->.
    destruct (IH A1 HA1) as (A' & E' & HA' & (G0 & G1 & G2 & G3) & HD'). { intros r' Hr'. unfold in_pattern. rewrite F0, F1, F2, F3. apply Hr. now right. }
    exists A'. split; [exact E'|]. split; [exact HA'|]. split; [unfold same_pattern; rewrite G0, G1, G2, G3; auto|]. intros I J. rewrite HD', HD. cbn [fold_left]. unfold dense_step. cbn [c_add c]. unfold c. rewrite diag_contribs. unfold mem. cbn [existsb]. fold (mem I rows). rewrite (Nat.eqb_sym I r).
    destruct (Nat.eqb_spec I J) as [<-|N]; cbn [andb]; [rewrite Bool.andb_diag|].
    + destruct (r =? I), (mem I rows); reflexivity.
    + destruct (Nat.eqb_spec r I) as [->|]; [|reflexivity]. cbn [andb]. destruct (Nat.eqb_spec I J); [congruence|reflexivity].
Qed.
Lemma set_diagonal_app {St} (f : St -> list nat -> list nat -> list T -> option St) a b diag s : set_diagonal f (a ++ b) diag s = (s' <- set_diagonal f a diag s ;; set_diagonal f b diag s').
Proof. apply ofold_app. Qed.
Lemma set_diagonal_bcs_eq {St} (f : St -> list nat -> list nat -> list T -> option St) V (bcs : list (sid * bc T)) diag s :
  set_diagonal_bcs f V bcs diag s = set_diagonal f (concat (map (fun b => firstn (bc_num_owned b) (bc_dofs0 b)) (on V bcs))) diag s.
Proof.
  unfold set_diagonal_bcs. revert s. induction bcs as [|[W b] bcs IH]; intro s; [reflexivity|]. cbn [ofold]. unfold on. cbn [filter fst]. destruct (contains V W); cbn [map concat snd].
  - rewrite set_diagonal_app. unfold dof_indices. destruct (set_diagonal f (firstn (bc_num_owned b) (bc_dofs0 b)) diag s) as [s'|]; cbn [obind]; [apply IH|reflexivity].
  - cbn [obind]. apply IH.
Qed.
Lemma mem_concat {X} (f : X -> list nat) l d : mem d (concat (map f l)) = existsb (fun b => mem d (f b)) l.
Proof. induction l as [|b l IH]; [reflexivity|]. cbn [map concat existsb]. rewrite <- IH. unfold mem. apply existsb_app. Qed.
Lemma set_diagonal_bcs_ok V (bcs : list (sid * bc T)) diag (A : csr T) : csr_ok A -> (forall d, constrained_owned (on V bcs) d = true -> in_pattern A d d) ->
  exists A', set_diagonal_bcs (fun A rows cols x => mat_set 1 1 A x rows cols) V bcs diag A = Some A' /\ csr_ok A' /\ same_pattern A A' /\
    forall I J, dense zero A' I J = if (I =? J) && constrained_owned (on V bcs) I then diag else dense zero A I J.
Proof.
  intros HA H. rewrite set_diagonal_bcs_eq. destruct (set_diagonal_ok (concat (map (fun b => firstn (bc_num_owned b) (bc_dofs0 b)) (on V bcs))) diag A HA) as (A' & E & HA' & HS & HD).
  - intros r Hr. apply H. unfold constrained_owned. rewrite <- mem_concat. now apply mem_iff.
  - exists A'. do 3 (split; [assumption|]). intros I J. rewrite HD, mem_concat. reflexivity.
Qed.
End Diag.
