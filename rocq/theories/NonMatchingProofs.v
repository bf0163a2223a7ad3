(** The values found on other processes, and interpolation from another mesh. *)
From Verif Require Import Base BaseProofs BucketProofs Algo AlgoProofs World WorldProofs Interp InterpSpec InterpWrites InterpProofs InterpEval.
From Verif Require Import PointOwner PointOwnerSpec PointOwnerProofs PropPointOwner NonMatching NonMatchingSpec NonMatchingScatter.

Lemma concat_seqs {B} (f : nat -> B) (off c : nat -> nat) : off 0 = 0 -> (forall r, off (S r) = off r + c r) ->
  forall n, concat (map (fun r => map f (seq (off r) (c r))) (seq 0 n)) = map f (seq 0 (off n)).
Proof.
  intros H0 HS n. induction n as [|n IH]; [now rewrite H0|]. rewrite seq_S, map_app, concat_app, IH. cbn [plus map concat]. rewrite app_nil_r, HS, seq_app, map_app. reflexivity.
Qed.
Lemma filter_position {B} (p : B -> bool) l : forall i x, nth_error l i = Some x -> p x = true -> nth_error (filter p l) (countb p (firstn i l)) = Some x.
Proof.
  induction l as [|y l IH]; intros [|i] x H Hp; try discriminate; cbn in *.
  - injection H as ->. now rewrite Hp.
  - specialize (IH i x H Hp). now destruct (p y).
Qed.
Lemma countb_combine {B} q (l : list B) : forall o : list (option nat), length o = length l ->
  forall i, countb (fun xo : B * option nat => match snd xo with Some p => p =? q | None => false end) (firstn i (combine l o)) = countb (owned_by q) (firstn i o).
Proof.
  induction l as [|x l IH]; intros [|y o] H i; try discriminate; [now rewrite !firstn_nil|]. destruct i as [|i]; [reflexivity|]. cbn. rewrite IH by (now injection H). reflexivity.
Qed.
Lemma nth_error_combine' {A B} (l : list A) : forall (m : list B) i x y, nth_error l i = Some x -> nth_error m i = Some y -> nth_error (combine l m) i = Some (x, y).
Proof. induction l as [|a l IH]; intros [|b m] [|i] x y H1 H2; try discriminate; cbn in *; [congruence|eauto]. Qed.
Lemma holds_exists (symmetric : bool) n bs vs width comp : (if symmetric then vs = 1 /\ width = n * n /\ 2 * bs = n * (n + 1) else width = bs * vs) -> comp < width ->
  exists k j, holds symmetric n bs comp k j.
Proof.
  intros H L. destruct symmetric.
  - destruct H as (_ & -> & _). assert (n <> 0) by nia. set (row := comp / n). set (col := comp mod n).
    assert (E : comp = n * row + col) by (apply Nat.div_mod; assumption). assert (Hc : col < n) by now apply Nat.mod_upper_bound. assert (Hr : row < n) by (apply Nat.div_lt_upper_bound; lia).
    assert (Hev : exists t, Nat.max row col * (Nat.max row col + 1) = 2 * t).
    { generalize (Nat.max row col). intro a. destruct (Nat.Even_or_Odd a) as [(b & ->)|(b & ->)]; [exists (b * (2 * b + 1)); lia|exists ((2 * b + 1) * (b + 1)); lia]. }
    destruct Hev as (t & Ht). exists (t + Nat.min row col), 0. split; [reflexivity|]. exists row, col. split; [exact Hr|]. split; [exact Hc|]. split; [exact E|]. lia.
  - subst. assert (bs <> 0) by nia. exists (comp mod bs), (comp / bs). split; [now apply Nat.mod_upper_bound|]. rewrite Nat.mul_comm. now apply Nat.div_mod.
Qed.

Lemma transposed_spec {T} (zero : T) w n values : length values = n * w ->
  transposed T zero w n values = Some (by_component w n (fun i comp => nth (i * w + comp) values zero)).
Proof.
  intro HL. unfold transposed.
  assert (Ew : ofold (fun t ij => let '(i, j) := ij in v <- nth_error values (i * w + j) ;; upd t (j * n + i) v) (list_prod (seq 0 n) (seq 0 w)) (repeat zero (w * n))
    = wr (concat (map (fun ij => [(snd ij * n + fst ij, nth (fst ij * w + snd ij) values zero)]) (list_prod (seq 0 n) (seq 0 w)))) (repeat zero (w * n))).
  { apply ofold_writes. intros [i j] arr Hin. apply in_prod_iff in Hin as (Hi & Hj). apply in_seq in Hi, Hj. cbn [fst snd].
    rewrite (nth_error_nth' values zero) by nia. cbn [obind]. now rewrite wr_one. }
  rewrite Ew, concat_singles. clear Ew. set (ws := map _ _).
  assert (Hws : forall a v, In (a, v) ws <-> exists i j, i < n /\ j < w /\ a = j * n + i /\ v = nth (i * w + j) values zero).
  { intros a v. unfold ws. rewrite in_map_iff. split.
    - intros ([i j] & E & Hin). apply in_prod_iff in Hin as (Hi & Hj). apply in_seq in Hi, Hj. cbn in E. injection E as <- <-. exists i, j. split; [lia|]. split; [lia|]. auto.
    - intros (i & j & Hi & Hj & -> & ->). exists (i, j). split; [reflexivity|]. apply in_prod_iff. split; apply in_seq; lia. }
  destruct (wr_spec ws (repeat zero (w * n))) as (arr & Ea & La & Na).
  { intros [a v] Hin. apply Hws in Hin as (i & j & Hi & Hj & -> & _). cbn [fst]. rewrite repeat_length. nia. }
  rewrite Ea. f_equal. rewrite repeat_length in La. unfold by_component. set (rows := map _ (seq 0 w)).
  assert (Hrows : forall row, In row rows -> length row = n). { intros row Hin. apply in_map_iff in Hin as (comp & <- & _). now rewrite map_length, seq_length. }
  assert (Lc : length (concat rows) = w * n). { rewrite <- lsum_concat_length, (lsum_const _ n); [unfold rows; now rewrite !map_length, seq_length|]. intros x Hx. apply in_map_iff in Hx as (row & <- & Hr). now apply Hrows. }
  apply nth_error_ext. intro a. destruct (Nat.lt_ge_cases a (w * n)) as [L|G].
  2: { rewrite !(proj2 (nth_error_None _ _)); [reflexivity|lia|lia]. }
  assert (n <> 0) by nia. assert (Hdm : a = a / n * n + a mod n) by (rewrite Nat.mul_comm; now apply Nat.div_mod). assert (Hm : a mod n < n) by now apply Nat.mod_upper_bound.
  assert (Hd : a / n < w) by (apply Nat.div_lt_upper_bound; lia).
  generalize dependent (a mod n). generalize dependent (a / n). intros comp Hc i -> Hi.
  rewrite (nth_error_uniform rows n comp i (map (fun i => nth (i * w + comp) values zero) (seq 0 n)) Hrows); [|unfold rows; rewrite nth_error_map_some, nth_error_seq by exact Hc; reflexivity|exact Hi].
  rewrite nth_error_map_some, nth_error_seq by exact Hi. cbn [option_map plus]. rewrite Na.
  rewrite (lastv_fun (comp * n + i) (nth (i * w + comp) values zero) ws); [reflexivity|apply Hws; eauto 8|].
  intros v' Hv. apply Hws in Hv as (i' & j' & Hi' & Hj' & E & ->). destruct (digits_inj _ _ _ _ _ Hi Hi' E) as (<- & <-). reflexivity.
Qed.

Section World.
Variables (P : nat) (nbx : (nat -> list nat) -> nat -> list nat).
Variables (T : Type) (zero : T) (add mul : T -> T -> T) (X : Type).
Variables (zero_x : X) (points : nat -> list X) (box_ranks candidates : nat -> X -> list nat) (dist2 : nat -> nat -> X -> Z) (tol max_val : Z).
Variables (basis : nat -> nat -> X -> list (list T)) (bs0 dim0 vs0 bs_dof0 : nat) (symmetric0 : bool) (n0 : nat) (dofmap0 : nat -> list (list nat)) (v0 : nat -> list T) (ncells0 : nat -> nat).
Variable w : nat.
Hypothesis oracle : nbx_oracle P nbx.
Hypothesis boxes : forall r x, r < P -> In x (points r) -> NoDup (box_ranks r x) /\ forall q, In q (box_ranks r x) -> q < P.
Hypothesis tols : (0 < tol <= max_val)%Z.
Hypothesis cands : forall q x c, q < P -> In c (candidates q x) -> c < ncells0 q.
Hypothesis fits0 : forall q, q < P -> dofmap_fits bs_dof0 (dofmap0 q) (dim0 * bs0) (length (v0 q)) (seq 0 (ncells0 q)).
Hypothesis basis_ok : forall q c x, length (basis q c x) = dim0 /\ forall row, In row (basis q c x) -> length row = vs0.
Hypothesis sizes : if symmetric0 then vs0 = 1 /\ w = n0 * n0 /\ 2 * bs0 = n0 * (n0 + 1) else w = bs0 * vs0.
Hypothesis w_pos : 0 < w.

Local Notation ev := (evaluated P nbx T zero add mul X zero_x points box_ranks candidates dist2 tol max_val basis bs0 dim0 vs0 bs_dof0 symmetric0 dofmap0 v0 w).
Local Notation own := (ownership P nbx X zero_x points box_ranks candidates dist2 tol max_val).
Local Notation pval := (point_value T zero add mul X box_ranks candidates dist2 tol max_val basis bs0 dim0 bs_dof0 symmetric0 n0 dofmap0 v0).

(** What every process has after the exchange. *)
Lemma exchanged :
  exists owners srcs vals, 
  (forall q, q < P -> exists pts cs, own q = Some (owners q, (srcs q, pts, cs)) /\ ev q = Some (vals q) /\ length (owners q) = length (points q)) /\
  forall r, r < P -> exists values, (forall srcs' owners' vals', (forall q, q < P -> srcs' q = srcs q /\ owners' q = owners q /\ vals' q = vals q) -> scatter_values P T zero w srcs' owners' vals' r = Some values) /\ length values = length (points r) * w /\
    forall i x comp, nth_error (points r) i = Some x -> comp < w -> pval r x comp (nth (i * w + comp) values zero).
Proof.
  destruct (C68_owners P nbx X zero_x points box_ranks candidates dist2 tol max_val oracle boxes tols) as (owners & cells & HO & HL & HP & HC).
  set (pf := points_for X P points owners) in *.
  assert (HE : forall q, q < P -> exists u, ev q = Some u /\ length u = length (pf q) * w /\
     forall j r x c comp, nth_error (pf q) j = Some (r, x) -> nth_error (cells q) j = Some (Some c) -> comp < w ->
       exists z, nth_error u (j * w + comp) = Some z /\ cell_value T zero add mul X basis bs0 dim0 bs_dof0 symmetric0 n0 dofmap0 v0 q c x comp z).
  { intros q Hq. unfold evaluated, ownership. rewrite (HO q Hq). cbn [obind].
    destruct (eval_spec T zero add mul bs0 dim0 vs0 symmetric0 n0 w sizes X (basis q) bs_dof0 (dofmap0 q) (v0 q) (map snd (pf q)) (cells q) (repeat zero (length (map snd (pf q)) * w))) as (u & Eu & Lu & Nu).
    - rewrite map_length. symmetry. now apply HL.
    - apply repeat_length.
    - destruct (fits0 q Hq) as (Hb & Hf). split; [exact Hb|]. intros c Hin. apply Hf. apply in_seq. split; [lia|]. cbn [plus]. apply in_concat in Hin as (l & Hl & Hin). apply in_map_iff in Hl as (oc & <- & Hoc). destruct oc as [c'|]; [|destruct Hin]. destruct Hin as [->|[]].
      apply In_nth_error in Hoc as (j & Hj). destruct (nth_error (pf q) j) as [[r x]|] eqn:Ej.
      + destruct (HC q j r x Hq Ej) as (c' & Hc' & G). rewrite Hj in Hc'. injection Hc' as <-. destruct G as (_ & before & after & E & _). apply (cands q x c Hq). rewrite E. apply in_or_app. right. now left.
      + apply nth_error_None in Ej. apply nth_error_bound in Hj. destruct (HL q Hq) as (_ & L). lia.
    - intros c x. apply basis_ok.
    - exists u. split; [exact Eu|]. rewrite repeat_length, map_length in Lu. split; [exact Lu|]. intros j r x c comp Hj Hc Hcomp.
      destruct (holds_exists symmetric0 n0 bs0 vs0 w comp sizes Hcomp) as (k & jj & Hh).
      eexists. split; [apply (Nu j x (Some c)) with (k := k) (j := jj); auto; now rewrite nth_error_map_some, Hj|]. exists k, jj. auto. }
  set (vals := fun q => match ev q with Some u => u | None => [] end).
  exists owners, (fun q => map fst (pf q)), vals. split.
  { intros q Hq. exists (map snd (pf q)), (cells q). split; [exact (HO q Hq)|]. unfold vals. destruct (HE q Hq) as (u & -> & _). split; [reflexivity|]. now apply HL. }
  set (cnt := fun q r => countb (owned_by q) (owners r)). set (off := fun q r => lsum (map (cnt q) (seq 0 r))).
  assert (Hoff : forall q r, off q (S r) = off q r + cnt q r). { intros q r. unfold off. rewrite seq_S, map_app, lsum_app. cbn [plus map]. rewrite lsum_cons, lsum_nil. lia. }
  set (row := fun q j => map (fun a => nth a (vals q) zero) (seq (j * w) w)). set (block := fun q r => map (row q) (seq (off q r) (cnt q r))).
  assert (Hown : forall r q, r < P -> In (Some q) (owners r) -> q < P).
  { intros r q Hr Hin. apply In_nth_error in Hin as (i & Hi). destruct (nth_error_lt (points r) i) as (x & Hx). { apply nth_error_bound in Hi. destruct (HL r Hr) as (L & _). lia. }
    destruct (HP r i x Hr Hx) as [(q' & c & Ho & G)|(Ho & _)]; [|congruence]. rewrite Hi in Ho. injection Ho as <-. destruct G as (G & _). apply (proj2 (boxes r x Hr (nth_error_In _ _ Hx))). exact G. }
  assert (Hcnt : forall q r, r < P -> length (filter (fun xo : X * option nat => match snd xo with Some o => o =? q | None => false end) (combine (points r) (owners r))) = cnt q r).
  { intros q r Hr. rewrite <- countb_filter. destruct (HL r Hr) as (L & _). pose proof (countb_combine q (points r) (owners r) L (length (owners r))) as E.
    rewrite !firstn_all2 in E; [exact E|lia|rewrite combine_length; lia]. }
  assert (Lpf : forall q, length (pf q) = off q P).
  { intro q. unfold pf, points_for. rewrite <- lsum_concat_length, map_map. unfold off. f_equal. apply map_ext_in. intros r Hr. apply in_seq in Hr. rewrite map_length. apply Hcnt. lia. }
  assert (Hsrc : forall q, q < P -> map fst (pf q) = concat (map (fun r => repeat r (countb (owned_by q) (owners r))) (seq 0 P))).
  { intros q Hq. unfold pf, points_for. rewrite concat_map, map_map. f_equal. apply map_ext_in. intros r Hr. apply in_seq in Hr. rewrite map_map. cbn [fst]. rewrite map_const. f_equal. apply Hcnt. lia. }
  assert (Hblock : forall q r, q < P -> r < P -> length (block q r) = countb (owned_by q) (owners r) /\ forall rw, In rw (block q r) -> length rw = w).
  { intros q r Hq Hr. unfold block. rewrite map_length, seq_length. split; [reflexivity|]. intros rw Hin. apply in_map_iff in Hin as (j & <- & _). unfold row. now rewrite map_length, seq_length. }
  assert (Lv : forall q, q < P -> length (vals q) = length (pf q) * w). { intros q Hq. unfold vals. destruct (HE q Hq) as (u & -> & L & _). exact L. }
  assert (Hsend : forall q, q < P -> vals q = concat (map (fun r => concat (block q r)) (seq 0 P))).
  { intros q Hq. rewrite concat_map_concat. unfold block. rewrite (concat_seqs (row q) (off q) (cnt q)) by (first [reflexivity|apply Hoff]). rewrite <- Lpf. unfold row.
    rewrite (concat_seqs (fun a => nth a (vals q) zero) (fun j => j * w) (fun _ => w)) by (first [reflexivity|intro; lia]). rewrite <- Lv by exact Hq. symmetry. apply map_nth_seq. }
  intros r Hr. exists (concat (map (row_of T zero w owners block r) (seq 0 (length (owners r))))). split.
  { intros srcs' owners' vals' Heq. rewrite (scatter_values_spec P T zero w srcs' owners' vals' block w_pos).
    - destruct (Heq r Hr) as (_ & E & _). unfold row_of. now rewrite E.
    - intros r' q Hr' Hin. destruct (Heq r' Hr') as (_ & E & _). rewrite E in Hin. eapply Hown; eauto.
    - intros q Hq. destruct (Heq q Hq) as (-> & _ & _). rewrite (Hsrc q Hq). f_equal. apply map_ext_in. intros r' Hr'. apply in_seq in Hr'. destruct (Heq r') as (_ & -> & _); [lia|reflexivity].
    - intros q r' Hq Hr'. destruct (Heq r' Hr') as (_ & -> & _). now apply Hblock.
    - intros q Hq. destruct (Heq q Hq) as (_ & _ & ->). now apply Hsend.
    - exact Hr. }
  destruct (HL r Hr) as (Lr & _).
  pose proof (row_of_length P T zero w owners block w_pos Hown Hblock r) as Hrl.
  assert (Hrows : forall rw, In rw (map (row_of T zero w owners block r) (seq 0 (length (owners r)))) -> length rw = w).
  { intros rw Hin. apply in_map_iff in Hin as (i & <- & Hi). apply in_seq in Hi. apply Hrl; [exact Hr|lia]. }
  split.
  { rewrite <- lsum_concat_length, (lsum_const _ w); [rewrite !map_length, seq_length; lia|]. intros x Hx. apply in_map_iff in Hx as (rw & <- & Hin). now apply Hrows. }
  intros i x comp Hx Hcomp. assert (Li : i < length (owners r)) by (rewrite Lr; eapply nth_error_bound; eauto).
  assert (N : nth_error (concat (map (row_of T zero w owners block r) (seq 0 (length (owners r))))) (i * w + comp) = nth_error (row_of T zero w owners block r i) comp).
  { apply (nth_error_uniform _ w); [exact Hrows| |exact Hcomp]. rewrite nth_error_map_some, nth_error_seq by exact Li. reflexivity. }
  destruct (nth_error_lt (row_of T zero w owners block r i) comp) as (z & Hz); [rewrite Hrl; auto|]. rewrite Hz in N. rewrite (nth_error_nth _ _ zero N).
  destruct (HP r i x Hr Hx) as [(q & c & Ho & G)|(Ho & G)]; unfold row_of in Hz; rewrite Ho in Hz.
  2: { right. split; [exact G|]. rewrite nth_error_repeat in Hz by exact Hcomp. congruence. }
  assert (Hq : q < P) by (eapply Hown; [exact Hr|eapply nth_error_In; exact Ho]). set (t := countb (owned_by q) (firstn i (owners r))) in *.
  assert (Hpos : nth_error (filter (fun xo : X * option nat => match snd xo with Some o => o =? q | None => false end) (combine (points r) (owners r))) t = Some (x, Some q)).
  { unfold t. rewrite <- (countb_combine q (points r) (owners r) Lr i). apply filter_position; [|cbn; apply Nat.eqb_refl]. now apply nth_error_combine'. }
  assert (Lt : t < cnt q r) by (rewrite <- (Hcnt q r Hr); eapply nth_error_bound; eauto).
  assert (Hpf : nth_error (pf q) (off q r + t) = Some (r, x)).
  { unfold pf, points_for. set (L := map _ (seq 0 P)).
    assert (HLr : nth_error L r = Some (map (fun xo : X * option nat => (r, fst xo)) (filter (fun xo : X * option nat => match snd xo with Some o => o =? q | None => false end) (combine (points r) (owners r))))).
    { unfold L. rewrite nth_error_map_some, nth_error_seq by exact Hr. reflexivity. }
    assert (Eo : off q r = lsum (firstn r (map (@length _) L))).
    { unfold off. f_equal. unfold L. rewrite map_map, firstn_map. replace (firstn r (seq 0 P)) with (seq 0 r).
      - apply map_ext_in. intros r' Hr'. apply in_seq in Hr'. rewrite map_length. symmetry. apply Hcnt. lia.
      - replace P with (r + (P - r)) by lia. rewrite seq_app, firstn_app, seq_length, Nat.sub_diag, firstn_O, app_nil_r, firstn_all2; [reflexivity|rewrite seq_length; lia]. }
    rewrite Eo, (nth_error_concat L r _ t HLr).
    - rewrite nth_error_map_some, Hpos. reflexivity.
    - rewrite map_length, Hcnt; assumption. }
  destruct (HC q (off q r + t) r x Hq Hpf) as (c' & Hc' & G'). left. exists q, c'. split; [exact G'|].
  destruct (HE q Hq) as (u & Eu & _ & Nu). destruct (Nu (off q r + t) r x c' comp Hpf Hc' Hcomp) as (z' & Hz' & V). replace z with z'; [exact V|].
  assert (Eb : nth t (block q r) [] = row q (off q r + t)). { apply nth_error_nth. unfold block. rewrite nth_error_map_some, nth_error_seq by exact Lt. reflexivity. }
  rewrite Eb in Hz. unfold row in Hz. rewrite nth_error_map_some, nth_error_seq in Hz by exact Hcomp. cbn [option_map] in Hz. unfold vals in Hz. rewrite Eu in Hz. rewrite (nth_error_nth _ _ zero Hz') in Hz. congruence.
Qed.

(** Interpolation gets the values of the function of the other mesh at its points. *)
Variables (ebs nsd num_sub dbs : nat) (symmetric : bool) (dofmap : nat -> list (list nat)) (transform : nat -> nat -> list T -> list T) (cells : nat -> list nat).
Lemma nonmatching_values r u : r < P -> exists g,
  (forall i x comp, nth_error (points r) i = Some x -> comp < w -> pval r x comp (g i comp)) /\
  interpolate_nonmatching P nbx T zero add mul X zero_x points box_ranks candidates dist2 tol max_val basis bs0 dim0 vs0 bs_dof0 symmetric0 dofmap0 v0 ebs nsd num_sub w dbs symmetric dofmap transform cells r u
  = interpolate_values T zero add mul ebs nsd 1 num_sub w dbs symmetric true 0 [] (dofmap r) (transform r) (cells r) (by_component w (length (points r)) g) (w, length (points r)) u.
Proof.
  intro Hr. destruct exchanged as (owners & srcs & vals & HO & HS). destruct (HS r Hr) as (values & Es & Lv & Hv). exists (fun i comp => nth (i * w + comp) values zero). split; [exact Hv|].
  unfold interpolate_nonmatching.
  rewrite (omap_map _ (fun q => (owners q, srcs q, vals q))).
  2: { intros q Hq. apply in_seq in Hq. destruct (HO q ltac:(lia)) as (pts & cs & E1 & E2 & _). rewrite E1. cbn [obind]. rewrite E2. reflexivity. }
  cbn [obind]. set (world := map _ _).
  rewrite Es.
  2: { intros q Hq. unfold world. rewrite nth_error_map_some, nth_error_seq by exact Hq. cbn [option_map plus]. auto. }
  cbn [obind]. destruct (HO r Hr) as (pts & cs & E1 & _ & L). rewrite E1. cbn [obind]. rewrite L, transposed_spec by exact Lv. reflexivity.
Qed.
End World.
