(** Loops that write to, or add to, places of an array. *)
From Verif Require Import Base BaseProofs InterpSpec.

Definition wr {T} (ws : list (nat * T)) (arr : list T) : option (list T) := ofold (fun a pv => upd a (fst pv) (snd pv)) ws arr.
Fixpoint lastv {T} (a : nat) (ws : list (nat * T)) : option T :=
  match ws with
  | [] => None
  | pv :: t => match lastv a t with Some v => Some v | None => if fst pv =? a then Some (snd pv) else None end
  end.

Lemma lastv_app {T} a (l1 l2 : list (nat * T)) : lastv a (l1 ++ l2) = match lastv a l2 with Some v => Some v | None => lastv a l1 end.
Proof.
  induction l1 as [|pv t IH]; cbn [app lastv]; [now destruct (lastv a l2)|]. rewrite IH. now destruct (lastv a l2).
Qed.
Lemma lastv_in {T} a (ws : list (nat * T)) v : lastv a ws = Some v -> In (a, v) ws.
Proof.
  induction ws as [|[p x] t IH]; cbn [lastv]; [discriminate|]. destruct (lastv a t) as [w|]; intro H.
  - right. now apply IH.
  - cbn in H. destruct (Nat.eqb_spec p a) as [->|N]; [|discriminate]. injection H as ->. now left.
Qed.
Lemma lastv_none {T} a (ws : list (nat * T)) : lastv a ws = None <-> forall v, ~ In (a, v) ws.
Proof.
  split.
  - induction ws as [|[p x] t IH]; cbn [lastv]; intros H v K; [destruct K|]. destruct (lastv a t); [discriminate|]. cbn in H.
    destruct (Nat.eqb_spec p a) as [->|N]; [discriminate|]. destruct K as [K|K]; [congruence|]. exact (IH eq_refl v K).
  - intro H. destruct (lastv a ws) as [v|] eqn:E; [|reflexivity]. exfalso. exact (H v (lastv_in _ _ _ E)).
Qed.

Lemma wr_spec {T} (ws : list (nat * T)) : forall arr, (forall pv, In pv ws -> fst pv < length arr) ->
  exists arr', wr ws arr = Some arr' /\ length arr' = length arr /\
    forall a, nth_error arr' a = match lastv a ws with Some v => Some v | None => nth_error arr a end.
Proof.
  induction ws as [|[p x] t IH]; intros arr H.
  - exists arr. now cbn.
  - destruct (upd_some arr p x) as (arr1 & E1); [exact (H (p, x) (or_introl eq_refl))|].
    pose proof (upd_length _ _ _ _ E1) as L1.
    destruct (IH arr1) as (arr' & E & L & N). { intros pv Hp. rewrite L1. apply H. now right. }
    exists arr'. unfold wr in *. cbn [ofold fst snd]. rewrite E1. cbn [obind]. split; [exact E|]. split; [now rewrite L|].
    intro a. rewrite N. cbn [lastv fst snd]. destruct (lastv a t); [reflexivity|]. rewrite (upd_nth _ _ _ a _ E1). now destruct (p =? a).
Qed.

Lemma last_block {T} (L : list (list (nat * T))) : forall a v, lastv a (concat L) = Some v ->
  exists o B, nth_error L o = Some B /\ In (a, v) B /\ forall o' B' v', o < o' -> nth_error L o' = Some B' -> ~ In (a, v') B'.
Proof.
  induction L as [|B L IH]; intros a v H; [discriminate|]. cbn [concat] in H. rewrite lastv_app in H. destruct (lastv a (concat L)) as [w|] eqn:E.
  - injection H as ->. destruct (IH _ _ E) as (o & B' & H1 & H2 & H3). exists (S o), B'. split; [exact H1|]. split; [exact H2|].
    intros [|o'] B'' v' Ho Hn; [lia|]. apply (H3 o' B'' v'); [lia|exact Hn].
  - exists 0, B. split; [reflexivity|]. split; [now apply lastv_in|]. intros [|o'] B'' v' Ho Hn K; [lia|]. cbn in Hn.
    apply (proj1 (lastv_none _ _) E v'). apply in_concat. exists B''. split; [eapply nth_error_In; eauto|exact K].
Qed.

Lemma nth_error_enum {A} (l : list A) : forall s i c, nth_error l i = Some c -> nth_error (combine (seq s (length l)) l) i = Some (s + i, c).
Proof.
  induction l as [|x l IH]; intros s [|i] c H; try discriminate; cbn in *; [rewrite Nat.add_0_r; congruence|]. rewrite (IH (S s) i c H). do 2 f_equal. lia.
Qed.

(** Writing the values of the dofs of each cell. *)
Lemma written_cells {T} bs dofmap dim cells (value : nat -> nat -> T) (W : nat -> nat -> list (nat * T)) array :
  dofmap_fits bs dofmap dim (length array) cells ->
  (forall o c pv, nth_error cells o = Some c -> In pv (W o c) -> exists m, m < dim /\ cell_dof bs dofmap c m = Some (fst pv) /\ snd pv = value o m) ->
  (forall o c m a, nth_error cells o = Some c -> m < dim -> cell_dof bs dofmap c m = Some a -> exists v, In (a, v) (W o c)) ->
  exists array', wr (concat (map (fun oc => W (fst oc) (snd oc)) (combine (seq 0 (length cells)) cells))) array = Some array' /\
    written bs dofmap dim cells value array array'.
Proof.
  intros (Hbs & Hd) W1 W2.
  set (L := map (fun oc => W (fst oc) (snd oc)) (combine (seq 0 (length cells)) cells)).
  assert (HL : forall o B, nth_error L o = Some B <-> exists c, nth_error cells o = Some c /\ B = W o c).
  { intros o B. unfold L. rewrite nth_error_map_some. split.
    - intro H. destruct (nth_error (combine _ _) o) as [[o' c]|] eqn:E; [|discriminate]. cbn in H. injection H as <-.
      assert (Ho : o < length cells). { pose proof (nth_error_bound _ _ _ E) as Q. rewrite combine_length, seq_length in Q. lia. }
      destruct (nth_error_lt cells o Ho) as (c' & Hc').
      pose proof (nth_error_enum cells 0 o c' Hc') as E'. cbn [plus] in E'.
      rewrite E' in E. injection E as <- <-. now exists c'.
    - intros (c & Hc & ->).
      now rewrite (nth_error_enum _ 0 _ _ Hc). }
  assert (Hlim : forall c m a, In c cells -> cell_dof bs dofmap c m = Some a -> m < dim /\ a < length array).
  { intros c m a Hc Ha. destruct (Hd c Hc) as (dofs & Hn & Hdim & Hmax). unfold cell_dof in Ha. rewrite Hn in Ha.
    destruct (nth_error dofs (m / bs)) as [d|] eqn:E; [|discriminate]. injection Ha as <-.
    pose proof (nth_error_bound _ _ _ E) as Q. pose proof (Nat.mod_upper_bound m bs ltac:(lia)) as M. pose proof (Nat.div_mod m bs ltac:(lia)) as D.
    specialize (Hmax d (nth_error_In _ _ E)). split; [|lia]. nia. }
  assert (Hin : forall pv, In pv (concat L) -> exists o c, nth_error cells o = Some c /\ In pv (W o c)).
  { intros pv H. apply in_concat in H as (B & HB & K). apply In_nth_error in HB as (o & Ho). apply HL in Ho as (c & Hc & ->). eauto. }
  destruct (wr_spec (concat L) array) as (array' & E & Len & N).
  { intros pv H. destruct (Hin _ H) as (o & c & Hc & K). destruct (W1 _ _ _ Hc K) as (m & _ & Hm & _). eapply Hlim; [eapply nth_error_In; eauto|exact Hm]. }
  exists array'. split; [exact E|]. split; [exact Len|]. split.
  - intros a Ha. rewrite N. destruct (lastv a (concat L)) as [v|] eqn:El; [|reflexivity]. exfalso.
    apply lastv_in in El. destruct (Hin _ El) as (o & c & Hc & K). destruct (W1 _ _ _ Hc K) as (m & _ & Hm & _).
    exact (Ha c m (nth_error_In _ _ Hc) Hm).
  - intros a c m Hc Ha. apply In_nth_error in Hc as (o & Ho).
    destruct (lastv a (concat L)) as [v|] eqn:El.
    + destruct (last_block _ _ _ El) as (o1 & B & HB & HaB & Hlast). apply HL in HB as (c1 & Hc1 & ->).
      destruct (W1 _ _ _ Hc1 HaB) as (m1 & Hm1 & Hd1 & Hv1). exists o1, c1, m1. split; [exact Hc1|]. split; [exact Hm1|]. split; [exact Hd1|].
      split; [rewrite N, El; cbn in Hv1; now rewrite Hv1|].
      intros o' c'' m'' Hlt Hc'' K. assert (Hlt'' : m'' < dim) by (eapply Hlim; [eapply nth_error_In; eauto|exact K]).
      destruct (W2 _ _ _ _ Hc'' Hlt'' K) as (v'' & Hv''). apply (Hlast o' (W o' c'') v''); [exact Hlt|apply HL; eauto|exact Hv''].
    + exfalso. assert (Hlt : m < dim) by (eapply Hlim; [eapply nth_error_In; eauto|exact Ha]).
      destruct (W2 _ _ _ _ Ho Hlt Ha) as (v & Hv). apply (proj1 (lastv_none _ _) El v). apply in_concat. exists (W o c). split; [|exact Hv].
      apply (nth_error_In L o). apply HL. eauto.
Qed.

Lemma wr_app {T} (l1 l2 : list (nat * T)) arr : wr (l1 ++ l2) arr = (a <- wr l1 arr ;; wr l2 a).
Proof. apply ofold_app. Qed.
(** Loops that are writes of a list computed from the item. *)
Lemma ofold_writes {A T} (f : list T -> A -> option (list T)) (w : A -> list (nat * T)) l : forall arr,
  (forall a arr, In a l -> f arr a = wr (w a) arr) -> ofold f l arr = wr (concat (map w l)) arr.
Proof.
  induction l as [|a l IH]; intros arr H; [reflexivity|]. cbn [ofold map concat]. rewrite wr_app, (H a arr (or_introl eq_refl)).
  destruct (wr (w a) arr) as [arr'|]; [|reflexivity]. cbn [obind]. apply IH. intros b arr'' Hb. apply H. now right.
Qed.
Lemma wr_one {T} p (v : T) arr : wr [(p, v)] arr = upd arr p v.
Proof. unfold wr. cbn. now destruct (upd arr p v). Qed.
Lemma concat_singles {A B} (g : A -> B) l : concat (map (fun a => [g a]) l) = map g l.
Proof. induction l as [|a l IH]; cbn; congruence. Qed.

(** Writing all places in order. *)
Lemma wr_all {T} (ws : list (nat * T)) arr : map fst ws = seq 0 (length arr) -> wr ws arr = Some (map snd ws).
Proof.
  assert (G : forall (ws : list (nat * T)) p arr, map fst ws = seq (length p) (length arr) -> wr ws (p ++ arr) = Some (p ++ map snd ws)).
  { clear. induction ws as [|[i v] ws IH]; intros p arr H; destruct arr as [|x arr]; try discriminate; [reflexivity|].
    cbn [map length seq fst] in H. injection H as -> H. change (wr ((length p, v) :: ws) (p ++ x :: arr)) with (a <- upd (p ++ x :: arr) (length p) v ;; wr ws a).
    rewrite upd_app_mid. cbn [obind]. replace (p ++ v :: arr) with ((p ++ [v]) ++ arr) by (now rewrite <- app_assoc). rewrite IH.
    - now rewrite <- app_assoc.
    - rewrite app_length. cbn [length]. now rewrite Nat.add_1_r. }
  intro H. exact (G ws [] arr H).
Qed.

Lemma list_prod_seq n b : 0 < b -> list_prod (seq 0 n) (seq 0 b) = map (fun m => (m / b, m mod b)) (seq 0 (n * b)).
Proof.
  intro Hb. induction n as [|n IH]; [reflexivity|]. rewrite seq_S. cbn [plus].
  assert (A : forall (l1 l2 : list nat) (l3 : list nat), list_prod (l1 ++ l2) l3 = list_prod l1 l3 ++ list_prod l2 l3).
  { clear. induction l1 as [|x l1 IH]; intros; cbn; [reflexivity|]. now rewrite IH, app_assoc. }
  assert (G : forall k s, s + k <= b -> map (fun y => (n, y)) (seq s k) = map (fun m => (m / b, m mod b)) (seq (n * b + s) k)).
  { clear -Hb. induction k as [|k IH]; intros s H; [reflexivity|]. cbn [seq map]. f_equal.
    - rewrite Nat.add_comm, Nat.div_add, Nat.mod_add by lia. rewrite Nat.div_small, Nat.mod_small by lia. reflexivity.
    - rewrite IH by lia. now replace (n * b + S s) with (S (n * b + s)) by lia. }
  rewrite A, IH. replace (S n * b) with (n * b + b) by lia. rewrite seq_app, map_app. f_equal. cbn [plus list_prod]. rewrite app_nil_r.
  rewrite (G b 0) by lia. now rewrite Nat.add_0_r.
Qed.

(** Adding. *)
Definition acc {T} (add : T -> T -> T) (ws : list (nat * T)) (arr : list T) : option (list T) :=
  ofold (fun a pv => modify a (fst pv) (fun s => add s (snd pv))) ws arr.
Definition adds_at {T} (q : nat) (ws : list (nat * T)) : list T := map snd (filter (fun pv => fst pv =? q) ws).
Lemma acc_spec {T} (add : T -> T -> T) (ws : list (nat * T)) : forall arr, (forall pv, In pv ws -> fst pv < length arr) ->
  exists arr', acc add ws arr = Some arr' /\ length arr' = length arr /\
    forall q, nth_error arr' q = option_map (fold_left add (adds_at q ws)) (nth_error arr q).
Proof.
  induction ws as [|[p x] t IH]; intros arr H.
  - exists arr. cbn. split; [reflexivity|]. split; [reflexivity|]. intro q. now destruct (nth_error arr q).
  - destruct (modify_some arr p (fun s => add s x)) as (arr1 & E1); [exact (H (p, x) (or_introl eq_refl))|].
    pose proof (modify_length _ _ _ _ E1) as L1.
    destruct (IH arr1) as (arr' & E & L & N). { intros pv Hp. rewrite L1. apply H. now right. }
    exists arr'. unfold acc in *. cbn [ofold fst snd]. rewrite E1. cbn [obind]. split; [exact E|]. split; [now rewrite L|].
    intro q. rewrite N, (modify_nth _ _ _ q _ E1). unfold adds_at. cbn [filter fst]. destruct (Nat.eqb_spec p q) as [->|Ne]; [|reflexivity].
    cbn [map snd fold_left]. now destruct (nth_error arr q).
Qed.
Lemma acc_app {T} (add : T -> T -> T) (l1 l2 : list (nat * T)) arr : acc add (l1 ++ l2) arr = (a <- acc add l1 arr ;; acc add l2 a).
Proof. apply ofold_app. Qed.
Lemma ofold_accs {A T} (add : T -> T -> T) (f : list T -> A -> option (list T)) (w : A -> list (nat * T)) l : forall arr,
  (forall a arr, In a l -> f arr a = acc add (w a) arr) -> ofold f l arr = acc add (concat (map w l)) arr.
Proof.
  induction l as [|a l IH]; intros arr H; [reflexivity|]. cbn [ofold map concat]. rewrite acc_app, (H a arr (or_introl eq_refl)).
  destruct (acc add (w a) arr) as [arr'|]; [|reflexivity]. cbn [obind]. apply IH. intros b arr'' Hb. apply H. now right.
Qed.
Lemma adds_app {T} q (l1 l2 : list (nat * T)) : adds_at q (l1 ++ l2) = adds_at q l1 ++ adds_at q l2.
Proof. unfold adds_at. now rewrite filter_app, map_app. Qed.
Lemma adds_concat_one {T} q (F : nat -> list (nat * T)) n k0 : k0 < n -> (forall k, k < n -> k <> k0 -> adds_at q (F k) = []) ->
  adds_at q (concat (map F (seq 0 n))) = adds_at q (F k0).
Proof.
  intros Hk H. replace n with (k0 + (1 + (n - S k0))) by lia. rewrite !seq_app, !map_app, !concat_app, !adds_app. cbn [plus seq map concat]. rewrite app_nil_r.
  assert (Z : forall l, (forall k, In k l -> adds_at q (F k) = []) -> adds_at q (concat (map F l)) = []).
  { clear. induction l as [|k l IH]; intro H; [reflexivity|]. cbn [map concat]. rewrite adds_app, (H k (or_introl eq_refl)), IH; [reflexivity|]. intros; apply H; now right. }
  rewrite (Z (seq 0 k0)), (Z (seq _ _)), app_nil_r; [reflexivity| |].
  - intros k K. apply in_seq in K. apply H; lia.
  - intros k K. apply in_seq in K. apply H; lia.
Qed.
