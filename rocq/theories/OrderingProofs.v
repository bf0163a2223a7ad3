From Verif Require Import Base BaseProofs Algo AlgoProofs AdjList BucketProofs ScattererProofs Ordering.
Open Scope nat_scope.

Lemma NoDup_app_fst {A} (a b : list A) : NoDup (a ++ b) -> NoDup a.
Proof. induction a as [|x a IH]; cbn; intro H; [constructor|]. inversion H; subst. constructor; [|now apply IH]. intro Hin. apply H2, in_or_app. now left. Qed.

(** Symmetric graphs (in particular all links are nodes). *)
Definition symmetric (g : list (list nat)) : Prop :=
  forall i li j, nth_error g i = Some li -> In j li -> exists lj, nth_error g j = Some lj /\ In i lj.

Section G.
Variable g : list (list nat).
Hypothesis Hsym : symmetric g.
Let n := length g.

Definition closed (C : nat -> Prop) : Prop := forall i ls w, C i -> nth_error g i = Some ls -> In w ls -> C w.

Lemma link_lt i ls w : nth_error g i = Some ls -> In w ls -> w < n.
Proof. intros H Hw. destruct (Hsym i ls w H Hw) as (lj & E & _). exact (nth_error_bound _ _ _ E). Qed.

Lemma visit_ok node ls lab acc : nth_error g node = Some ls -> length lab = n ->
  exists lab' new, visit g node (lab, acc) = Some (lab', acc ++ new) /\ length lab' = n /\ NoDup new /\
    (forall w, In w new <-> In w ls /\ nth_error lab w = Some false) /\
    (forall w, nth_error lab' w = Some true <-> nth_error lab w = Some true \/ In w new).
Proof.
  intros E Hl. unfold visit. rewrite E. cbn [obind].
  assert (HF : forall w, In w ls -> w < n) by (intros w; exact (link_lt node ls w E)). clear E.
  revert lab acc Hl. induction ls as [|x ls IH]; intros lab acc Hl.
  - exists lab, []. cbn [ofold]. rewrite app_nil_r. split; [reflexivity|]. split; [exact Hl|]. split; [constructor|]. split; [intro w; cbn; tauto|intro w; cbn; tauto].
  - cbn [ofold]. destruct (nth_error_lt lab x) as (b & Eb); [rewrite Hl; apply HF; now left|]. rewrite Eb. cbn [obind]. destruct b.
    + destruct (IH (fun w H => HF w (or_intror H)) lab acc Hl) as (lab' & new & Er & Hl' & HN & H1 & H2). cbn [obind]. rewrite Er. exists lab', new. split; [reflexivity|]. split; [exact Hl'|]. split; [exact HN|]. split; [|exact H2].
      intro w. rewrite H1. cbn [In]. split; [tauto|]. intros ([->|Hw] & Hf); [congruence|tauto].
    + destruct (upd_some lab x true) as (lab1 & E1); [exact (nth_error_bound _ _ _ Eb)|]. rewrite E1. cbn [obind].
      destruct (IH (fun w H => HF w (or_intror H)) lab1 (acc ++ [x])) as (lab' & new & Er & Hl' & HN & H1 & H2); [rewrite (upd_length _ _ _ _ E1); exact Hl|].
      assert (Hx : forall w, nth_error lab1 w = if x =? w then Some true else nth_error lab w) by (intro w; exact (upd_nth _ _ _ _ _ E1)).
      rewrite Er. exists lab', (x :: new). rewrite <- app_assoc. split; [reflexivity|]. split; [exact Hl'|]. split; [|split].
      * constructor; [|exact HN]. rewrite H1, Hx, Nat.eqb_refl. intros (_ & Hf). discriminate.
      * intro w. cbn [In]. rewrite H1, Hx. destruct (Nat.eqb_spec x w) as [->|Hn]; [|split; [intros [C|(Hw & Hf)]; [contradiction|tauto]|intros ([C|Hw] & Hf); [contradiction|tauto]]].
        split; [|auto]. intros [_|(_ & Hf)]; [split; [now left|exact Eb]|discriminate].
      * intro w. rewrite H2, Hx. cbn [In]. destruct (Nat.eqb_spec x w) as [->|Hn]; [split; [auto|auto]|]. split; [tauto|]. intros [H|[C|H]]; [tauto|contradiction|tauto].
Qed.

(** Labels and collected nodes agree; everything collected is in every closed set that
    contains [s]. *)
Definition collected (s : nat) (lab : list bool) (st : list nat) : Prop :=
  length lab = n /\ NoDup st /\ Forall (fun w => w < n) st /\ (forall w, nth_error lab w = Some true <-> In w st) /\
  (forall C, closed C -> C s -> Forall C st).

Lemma collected_start s : s < n -> exists lab, upd (repeat false n) s true = Some lab /\ collected s lab [s].
Proof.
  intro Hs. destruct (upd_some (repeat false n) s true) as (lab & E); [rewrite repeat_length; exact Hs|]. exists lab. split; [exact E|].
  split; [rewrite (upd_length _ _ _ _ E); apply repeat_length|]. split; [constructor; [intros []|constructor]|]. split; [constructor; [exact Hs|constructor]|]. split.
  - intro w. rewrite (upd_nth _ _ _ _ _ E). cbn [In]. destruct (Nat.eqb_spec s w) as [->|Hn]; [tauto|]. split; [|intros [C|[]]; contradiction].
    intro H. apply nth_error_In in H. apply repeat_spec in H. discriminate.
  - intros C _ Hc. constructor; [exact Hc|constructor].
Qed.

Lemma collected_step s lab st node ls new lab' : collected s lab st -> In node st -> nth_error g node = Some ls -> length lab' = n -> NoDup new ->
  (forall w, In w new <-> In w ls /\ nth_error lab w = Some false) -> (forall w, nth_error lab' w = Some true <-> nth_error lab w = Some true \/ In w new) ->
  forall new', Permutation new new' -> collected s lab' (st ++ new') /\ incl ls (st ++ new').
Proof.
  intros (Hl & HN & HF & HL & HC) Hin E Hl' HNn Hnew Hlab new' HP.
  assert (Hin' : forall w, In w new' <-> In w new) by (intro w; split; apply Permutation_in; [now apply Permutation_sym|exact HP]).
  split; [split; [exact Hl'|split; [|split; [|split]]]|].
  - apply NoDup_app_intro; [exact HN|exact (Permutation_NoDup HP HNn)|]. intros w Hw Hw'. apply Hin', Hnew in Hw' as (_ & Hf). apply HL in Hw. congruence.
  - apply Forall_app. split; [exact HF|]. apply Forall_forall. intros w Hw. apply Hin', Hnew in Hw as (Hw & _). exact (link_lt _ _ _ E Hw).
  - intro w. rewrite Hlab, HL, in_app_iff, Hin'. tauto.
  - intros C Hcl Hs. apply Forall_app. split; [now apply HC|]. apply Forall_forall. intros w Hw. apply Hin', Hnew in Hw as (Hw & _). specialize (HC C Hcl Hs). rewrite Forall_forall in HC. exact (Hcl _ _ _ (HC _ Hin) E Hw).
  - intros w Hw. apply in_or_app. destruct (nth_error_lt lab w) as (b & Eb); [rewrite Hl; exact (link_lt _ _ _ E Hw)|]. destruct b; [left; now apply HL|right; apply Hin', Hnew; now split].
Qed.

Lemma collected_length s lab st : collected s lab st -> length st <= n.
Proof.
  intros (_ & HN & HF & _). rewrite <- (seq_length n 0). apply NoDup_incl_length; [exact HN|]. intros w Hw. rewrite Forall_forall in HF. specialize (HF w Hw). apply in_seq. lia.
Qed.

(** One level. *)
Lemma level_pass s lab st a b : collected s lab st -> b <= length st ->
  exists lab' st', ofold (fun '(labelled, st) i => node <- nth_error st i ;; visit g node (labelled, st)) (seq a (b - a)) (lab, st) = Some (lab', st') /\
    collected s lab' st' /\ length st <= length st'.
Proof.
  intros H Hb. assert (G : forall m lo lab st, lo + m <= length st -> collected s lab st -> exists lab' st', ofold (fun '(labelled, st) i => node <- nth_error st i ;; visit g node (labelled, st)) (seq lo m) (lab, st) = Some (lab', st') /\ collected s lab' st' /\ length st <= length st').
  { induction m as [|m IH]; intros lo lab0 st0 Hlo Hc; cbn [seq ofold]; [exists lab0, st0; auto|].
    destruct (nth_error_lt st0 lo) as (node & En); [lia|]. rewrite En. cbn [obind].
    pose proof Hc as (Hl & _ & HF & _). rewrite Forall_forall in HF. destruct (nth_error_lt g node) as (ls & El); [apply HF, (nth_error_In _ _ En)|].
    destruct (visit_ok node ls lab0 st0 El Hl) as (lab1 & new & Ev & Hl1 & HN & Hnew & Hlab). rewrite Ev. cbn [obind].
    destruct (collected_step s lab0 st0 node ls new lab1 Hc (nth_error_In _ _ En) El Hl1 HN Hnew Hlab new (Permutation_refl _)) as (Hc1 & _).
    destruct (IH (S lo) lab1 (st0 ++ new)) as (lab' & st' & E & Hc' & Hle); [rewrite app_length; lia|exact Hc1|]. exists lab', st'. rewrite app_length in Hle. split; [exact E|]. split; [exact Hc'|lia]. }
  destruct (Nat.le_gt_cases a b) as [Hab|Hab]; [apply (G (b - a) a lab st); [lia|exact H]|]. replace (b - a) with 0 by lia. exists lab, st. cbn. auto.
Qed.

Definition offs_ok (offs : list nat) : Prop := offs = [0] \/ exists p x y, offs = p ++ [x; y] /\ x < y.
Lemma last_app2 (p : list nat) x d : last (p ++ [x]) d = x.
Proof. induction p as [|a p IH]; [reflexivity|]. cbn [app last]. destruct (p ++ [x]) eqn:E; [destruct p; discriminate|]. exact IH. Qed.

Definition good (s : nat) (lv : adjlist nat) : Prop :=
  1 <= num_nodes lv <= n /\ exists l, links lv (num_nodes lv - 1) = Some l /\ l <> [] /\ Forall (fun w => w < n) l /\ forall C, closed C -> C s -> Forall C l.

Lemma levels_ok s fuel : forall lab st offs, collected s lab st -> st <> [] -> offs_ok offs -> last offs 0 <= length st -> length offs <= S (last offs 0) -> n <= fuel + last offs 0 ->
  exists lv, levels fuel g lab st offs = Some lv /\ good s lv.
Proof.
  induction fuel as [|f IH]; intros lab st offs Hc Hne Hoff Hle Hlen Hfuel; cbn [levels]; destruct (Nat.ltb_spec (last offs 0) (length st)) as [Hlt|Hge];
    try (pose proof (collected_length _ _ _ Hc); lia).
  1, 3: exists (mkAdj st offs); split; [reflexivity|]; assert (Hlast : last offs 0 = length st) by lia;
    destruct Hoff as [->|(p & x & y & -> & Hxy)]; [cbn in Hlast; destruct st; [contradiction|discriminate]|];
    replace (p ++ [x; y]) with ((p ++ [x]) ++ [y]) in Hlast, Hlen by (now rewrite <- app_assoc); rewrite last_app2 in Hlast, Hlen; rewrite !app_length in Hlen; cbn [length] in Hlen;
    pose proof (collected_length _ _ _ Hc) as Hsn; unfold good, num_nodes, links; cbn [al_offsets al_array]; rewrite app_length; cbn [length];
    (split; [lia|]); replace (length p + 2 - 1 - 1) with (length p) by lia; unfold slice_at;
    assert (Hx : nth_error (p ++ [x; y]) (length p) = Some x) by (rewrite nth_error_app2 by lia; rewrite Nat.sub_diag; reflexivity);
    assert (Hy : nth_error (p ++ [x; y]) (S (length p)) = Some y) by (rewrite nth_error_app2 by lia; replace (S (length p) - length p) with 1 by lia; reflexivity);
    rewrite Hx, Hy; cbn [obind]; unfold slice;
    rewrite (proj2 (Nat.leb_le _ _)) by lia; rewrite (proj2 (Nat.leb_le _ _)) by lia; cbn [andb];
    (exists (firstn (y - x) (skipn x st)); split; [reflexivity|]);
    assert (Hsub : forall w, In w (firstn (y - x) (skipn x st)) -> In w st) by (intros w Hw; rewrite <- (firstn_skipn x st); apply in_or_app; right; rewrite <- (firstn_skipn (y - x) (skipn x st)); apply in_or_app; now left);
    destruct Hc as (_ & _ & HF & _ & HC); rewrite Forall_forall in HF;
    (split; [intro C; apply (f_equal (@length nat)) in C; rewrite firstn_length, skipn_length in C; cbn [length] in C; lia|]);
    (split; [apply Forall_forall; intros w Hw; apply HF, Hsub, Hw|]);
    intros C Hcl Hs; apply Forall_forall; intros w Hw; specialize (HC C Hcl Hs); rewrite Forall_forall in HC; apply HC, Hsub, Hw.
  destruct (level_pass s lab st (last offs 0) (length st) Hc (le_n _)) as (lab' & st' & E & Hc' & Hle'). rewrite E. cbn [obind].
  apply IH; [exact Hc'| | | | |].
  - intros ->. destruct st; [contradiction|]. cbn in Hle'. lia.
  - right. destruct Hoff as [->|(p & x & y & -> & Hxy)].
    + exists [], 0, (length st). split; [reflexivity|]. cbn in Hlt. lia.
    + exists (p ++ [x]), y, (length st). rewrite <- !app_assoc. cbn [app]. split; [reflexivity|]. replace (p ++ [x; y]) with ((p ++ [x]) ++ [y]) in Hlt by (now rewrite <- app_assoc). rewrite last_app2 in Hlt. exact Hlt.
  - rewrite last_app2. exact Hle'.
  - rewrite last_app2, app_length. cbn [length]. lia.
  - rewrite last_app2. lia.
Qed.

Lemma level_structure_ok s : s < n -> exists lv, create_level_structure g s = Some lv /\ good s lv.
Proof.
  intro Hs. unfold create_level_structure. fold n. destruct (collected_start s Hs) as (lab & E & Hc). rewrite E. cbn [obind]. apply levels_ok; [exact Hc|discriminate|now left|cbn; lia|cbn; lia|cbn; lia].
Qed.

Lemma min_degree_in l : forall best, In (min_degree g best l) (best :: l).
Proof.
  induction l as [|x l IH]; intro best; cbn [min_degree]; [now left|]. destruct (IH (if degree g x <? degree g best then x else best)) as [H|H]; [|right; now right].
  rewrite <- H. destruct (degree g x <? degree g best); [right; now left|now left].
Qed.

Lemma peripheral_ok fuel : forall v lv, v < n -> good v lv -> n < fuel + num_nodes lv -> 
  exists v', peripheral fuel g v lv = Some v' /\ v' < n /\ forall C, closed C -> C v -> C v'.
Proof.
  induction fuel as [|f IH]; intros v lv Hv (Hnum & l & El & Hne & HF & HC) Hfuel; [lia|]. cbn [peripheral]. rewrite El. cbn [obind]. destruct l as [|x t]; [contradiction|].
  pose proof (min_degree_in t x) as Hin. set (s := min_degree g x t) in *. rewrite Forall_forall in HF. specialize (HF s Hin).
  destruct (level_structure_ok s HF) as (lv' & E' & Hg'). rewrite E'. cbn [obind]. destruct (Nat.ltb_spec (num_nodes lv) (num_nodes lv')) as [Hlt|Hge].
  - destruct (IH s lv' HF Hg') as (v' & Er & Hv' & HC'); [lia|]. exists v'. split; [exact Er|]. split; [exact Hv'|]. intros C Hcl Hcv. apply HC'; [exact Hcl|]. specialize (HC C Hcl Hcv). rewrite Forall_forall in HC. exact (HC s Hin).
  - exists v. auto.
Qed.

Variable srt : list nat -> list nat.
Hypothesis Hsrt : forall l, Permutation l (srt l).

Lemma cm_ok s fuel : forall lab rv current, collected s lab rv -> current <= length rv -> n <= fuel + current ->
  (forall k node ls, k < current -> nth_error rv k = Some node -> nth_error g node = Some ls -> incl ls rv) ->
  exists lab' rv', cuthill_mckee srt fuel g lab rv current = Some rv' /\ collected s lab' rv' /\ incl rv rv' /\ closed (fun w => In w rv').
Proof.
  induction fuel as [|f IH]; intros lab rv current Hc Hcur Hfuel Hdone; cbn [cuthill_mckee]; destruct (Nat.ltb_spec current (length rv)) as [Hlt|Hge]; try (pose proof (collected_length _ _ _ Hc); lia).
  1, 3: exists lab, rv; split; [reflexivity|]; split; [exact Hc|]; split; [apply incl_refl|]; intros i ls w Hi E Hw; apply In_nth_error in Hi as (k & Ek); exact (Hdone k i ls (Nat.lt_le_trans _ _ _ (nth_error_bound _ _ _ Ek) Hge) Ek E w Hw).
  destruct (nth_error_lt rv current Hlt) as (node & En). rewrite En. cbn [obind]. pose proof Hc as (Hl & _ & HF & _). rewrite Forall_forall in HF. destruct (nth_error_lt g node) as (ls & El); [apply HF, (nth_error_In _ _ En)|].
  destruct (visit_ok node ls lab [] El Hl) as (lab1 & new & Ev & Hl1 & HN & Hnew & Hlab). cbn [app] in Ev. rewrite Ev. cbn [obind].
  destruct (collected_step s lab rv node ls new lab1 Hc (nth_error_In _ _ En) El Hl1 HN Hnew Hlab (srt new) (Hsrt new)) as (Hc1 & Hls).
  destruct (IH lab1 (rv ++ srt new) (S current) Hc1) as (lab' & rv' & E & Hc' & Hi & Hcl); [rewrite app_length; lia|lia| |].
  - intros k node' ls' Hk Ek El'. destruct (Nat.eq_dec k current) as [->|Hn].
    + rewrite nth_error_app1 in Ek by exact Hlt. rewrite En in Ek. injection Ek as <-. rewrite El in El'. injection El' as <-. exact Hls.
    + rewrite nth_error_app1 in Ek by lia. intros w Hw. apply in_or_app. left. apply (Hdone k node' ls'); [lia|assumption|assumption|exact Hw].
  - exists lab', rv'. split; [exact E|]. split; [exact Hc'|]. split; [|exact Hcl]. intros w Hw. apply Hi, in_or_app. now left.
Qed.

(** [ord] lists the labelled nodes in the order of their labels. *)
Definition labels (r : list (option nat)) (ord : list nat) : Prop :=
  length r = n /\ NoDup ord /\ Forall (fun w => w < n) ord /\ (forall q k, nth_error r q = Some (Some k) <-> nth_error ord k = Some q).

Lemma label_ok rv : forall r ord, labels r ord -> NoDup (ord ++ rv) -> Forall (fun w => w < n) rv ->
  exists r', ofold (fun '(r, count) q => r' <- upd r q (Some count) ;; Some (r', S count)) rv (r, length ord) = Some (r', length (ord ++ rv)) /\ labels r' (ord ++ rv).
Proof.
  induction rv as [|q rv IH]; intros r ord HL HN HF; cbn [ofold]; [exists r; rewrite app_nil_r; auto|].
  destruct HL as (Hl & HN0 & HF0 & HL). inversion HF as [|? ? Hq HF']; subst. destruct (upd_some r q (Some (length ord))) as (r1 & E1); [rewrite Hl; exact Hq|]. rewrite E1. cbn [obind].
  replace (ord ++ q :: rv) with ((ord ++ [q]) ++ rv) in * by (now rewrite <- app_assoc). replace (S (length ord)) with (length (ord ++ [q])) by (rewrite app_length; cbn; lia).
  assert (HNq : NoDup (ord ++ [q])) by (exact (NoDup_app_fst _ _ HN)).
  assert (Hnq : ~ In q ord) by (intro Hin; apply (NoDup_remove_2 ord [] q HNq); rewrite app_nil_r; exact Hin).
  apply IH; [|exact HN|exact HF']. split; [rewrite (upd_length _ _ _ _ E1); exact Hl|]. split; [exact HNq|]. split; [apply Forall_app; split; [exact HF0|constructor; [exact Hq|constructor]]|].
  intros w k. rewrite (upd_nth _ _ _ _ _ E1). destruct (Nat.eqb_spec q w) as [<-|Hn].
  - split; [intro H; injection H as <-; rewrite nth_error_app2 by lia; rewrite Nat.sub_diag; reflexivity|]. intro H. do 2 f_equal.
    assert (H' : nth_error (ord ++ [q]) (length ord) = Some q) by (rewrite nth_error_app2 by lia; rewrite Nat.sub_diag; reflexivity). exact (NoDup_nth_error_inj _ _ _ _ HNq H' H).
  - rewrite HL. split; intro H; [rewrite nth_error_app1 by (exact (nth_error_bound _ _ _ H)); exact H|].
    destruct (Nat.lt_ge_cases k (length ord)); [rewrite nth_error_app1 in H by assumption; exact H|]. rewrite nth_error_app2 in H by assumption. destruct (k - length ord) as [|[|?]]; cbn in H; [injection H as ->; contradiction|discriminate|discriminate].
Qed.

Hypothesis Hdeg : forall i, (Z.of_nat (degree g i) < 2147483647)%Z.

Lemma pick_ok r ord : labels r ord -> length ord < n -> exists v, pick g r = Some v /\ v < n /\ ~ In v ord.
Proof.
  intros (Hl & HN & HF & HL) Hlt.
  assert (Hex : exists u, u < n /\ ~ In u ord).
  { destruct (existsb (fun u => negb (mem u ord)) (seq 0 n)) eqn:Ex.
    - apply existsb_exists in Ex as (u & Hu & Hm). apply in_seq in Hu. exists u. split; [lia|]. intro Hin. apply mem_iff in Hin. rewrite Hin in Hm. discriminate.
    - exfalso. assert (Hincl : incl (seq 0 n) ord).
      { intros u Hu. destruct (mem u ord) eqn:Em; [now apply mem_iff|]. assert (C : existsb (fun u => negb (mem u ord)) (seq 0 n) = true) by (apply existsb_exists; exists u; rewrite Em; auto). congruence. }
      pose proof (NoDup_incl_length (seq_NoDup n 0) Hincl) as C. rewrite seq_length in C. lia. }
  unfold pick. fold n.
  destruct (ofold_prefix_ind (fun '(v, dmin) i => l <- nth_error r i ;;
      let d := Z.of_nat (degree g i) in match l with None => if (d <? dmin)%Z then Some (i, d) else Some (v, dmin) | Some _ => Some (v, dmin) end)
    (fun p (st : nat * Z) => ((snd st = 2147483647%Z /\ forall u, In u p -> nth_error r u <> Some None) \/ nth_error r (fst st) = Some None /\ (snd st < 2147483647)%Z)) (seq 0 n) (0, 2147483647%Z)) as ((v, dmin) & E & HI).
  - left. split; [reflexivity|]. intros u [].
  - intros p i q (v, dmin) Hs HI. destruct (nth_error_lt r i) as (x & Ex); [rewrite Hl; assert (Hi : In i (seq 0 n)) by (rewrite Hs; apply in_or_app; right; now left); apply in_seq in Hi; lia|]. rewrite Ex. cbn [obind].
    destruct x as [k|].
    + exists (v, dmin). split; [reflexivity|]. destruct HI as [(Hd & Hu)|HI]; [left|now right]. split; [exact Hd|]. intros u Hin. apply in_app_or in Hin as [Hin|[<-|[]]]; [now apply Hu|congruence].
    + destruct (Z.ltb_spec (Z.of_nat (degree g i)) dmin) as [Hd|Hd].
      * exists (i, Z.of_nat (degree g i)). split; [reflexivity|]. right. cbn [fst snd]. split; [exact Ex|apply Hdeg].
      * exists (v, dmin). split; [reflexivity|]. destruct HI as [(Hd' & _)|HI]; [|now right]. cbn [snd] in Hd'. pose proof (Hdeg i). lia.
  - exists v. split; [exact (f_equal (fun o => '(v, _) <- o ;; Some v) E)|].
    assert (Hv : nth_error r v = Some None).
    { destruct HI as [(_ & Hu)|(Hv & _)]; [|exact Hv]. destruct Hex as (u & Hu1 & Hu2). exfalso. destruct (nth_error_lt r u) as (x & Ex); [lia|]. destruct x as [k|]; [|apply (Hu u); [apply in_seq; lia|exact Ex]].
      apply Hu2. apply (nth_error_In ord k). now apply HL. }
    split; [rewrite <- Hl; exact (nth_error_bound _ _ _ Hv)|]. intro Hin. apply In_nth_error in Hin as (k & Hk). apply HL in Hk. congruence.
Qed.

Lemma closed_compl (L : nat -> Prop) : closed L -> closed (fun w => ~ L w).
Proof. intros HL i ls w Hi E Hw Hc. destruct (Hsym i ls w E Hw) as (lj & Ej & Hij). exact (Hi (HL _ _ _ Hc Ej Hij)). Qed.

Lemma rcm_loop_ok fuel : forall r ord, labels r ord -> closed (fun w => In w ord) -> n <= fuel + length ord ->
  exists r' ord', rcm_loop srt fuel g r (length ord) = Some r' /\ labels r' ord' /\ n <= length ord'.
Proof.
  induction fuel as [|f IH]; intros r ord HL Hcl Hfuel; cbn [rcm_loop]; fold n; destruct (Nat.ltb_spec (length ord) n) as [Hlt|Hge]; try lia.
  1, 3: exists r, ord; auto.
  unfold rcm_reorder_unlabelled. destruct (pick_ok r ord HL Hlt) as (v & Ev & Hv & Hnv). rewrite Ev. cbn [obind].
  destruct (level_structure_ok v Hv) as (lv & Elv & Hg). rewrite Elv. cbn [obind]. destruct (peripheral_ok n v lv Hv Hg) as (v' & Ev' & Hv' & HC); [destruct Hg; lia|]. fold n. rewrite Ev'. cbn [obind].
  destruct (collected_start v' Hv') as (lab & Elab & Hc). rewrite Elab. cbn [obind].
  destruct (cm_ok v' n lab [v'] 0 Hc) as (lab' & rv & Erv & (_ & HNr & HFr & _ & HCr) & Hinc & Hclr); [cbn; lia|lia|intros; lia|]. rewrite Erv. cbn [obind].
  assert (Hdis : Forall (fun w => ~ In w ord) rv).
  { apply (HCr (fun w => ~ In w ord)); [exact (closed_compl _ Hcl)|]. apply (HC (fun w => ~ In w ord)); [exact (closed_compl _ Hcl)|exact Hnv]. }
  rewrite Forall_forall in Hdis.
  destruct (label_ok (rev rv) r ord HL) as (r1 & E1 & HL1).
  - apply NoDup_app_intro; [destruct HL as (_ & H & _); exact H|now apply NoDup_rev|]. intros w Hw Hw'. apply in_rev in Hw'. exact (Hdis w Hw' Hw).
  - apply Forall_rev. exact HFr.
  - rewrite E1. cbn [obind]. apply IH; [exact HL1| |].
    + intros i ls w Hi E Hw. apply in_or_app. apply in_app_or in Hi as [Hi|Hi]; [left; exact (Hcl _ _ _ Hi E Hw)|right]. apply in_rev in Hi. apply (proj1 (in_rev _ _)). exact (Hclr _ _ _ Hi E Hw).
    + rewrite app_length, rev_length. specialize (Hinc v' (or_introl eq_refl)). destruct rv; [destruct Hinc|]. cbn [length]. lia.
Qed.

Lemma reorder_ok : exists p, reorder_rcm srt g = Some (map Some p) /\ Permutation p (seq 0 n).
Proof.
  unfold reorder_rcm. fold n. destruct (rcm_loop_ok n (repeat None n) []) as (r & ord & E & (Hl & HN & HF & HL) & Hn).
  - split; [apply repeat_length|]. split; [constructor|]. split; [constructor|]. intros q k. split; intro H; [apply nth_error_In, repeat_spec in H; discriminate|destruct k; discriminate].
  - intros i ls w [].
  - lia.
  - cbn [length] in E. rewrite E. exists (map (fun x => match x with Some k => k | None => 0 end) r).
    assert (Hall : forall q, q < n -> In q ord).
    { intros q Hq. apply (NoDup_length_incl HN (l' := seq 0 n)); [rewrite seq_length; exact Hn|intros w Hw; rewrite Forall_forall in HF; specialize (HF w Hw); apply in_seq; lia|apply in_seq; lia]. }
    assert (Hk : forall q, q < n -> exists k, nth_error r q = Some (Some k) /\ nth_error ord k = Some q).
    { intros q Hq. apply Hall, In_nth_error in Hq as (k & Ek). exists k. split; [now apply HL|exact Ek]. }
    assert (Hln : length ord = n) by (pose proof (NoDup_incl_length HN (l' := seq 0 n)) as Hle; rewrite seq_length in Hle; assert (length ord <= n) by (apply Hle; intros w Hw; rewrite Forall_forall in HF; specialize (HF w Hw); apply in_seq; lia); lia).
    split.
    + f_equal. apply nth_error_ext. intro q. rewrite map_map, nth_error_map_some. destruct (nth_error r q) as [x|] eqn:Ex; [|reflexivity]. cbn [option_map]. destruct (Hk q) as (k & E1 & _); [rewrite <- Hl; exact (nth_error_bound _ _ _ Ex)|]. rewrite Ex in E1. injection E1 as ->. reflexivity.
    + apply NoDup_Permutation_bis.
      * apply NoDup_nth_error. intros a b Ha Eab. rewrite map_length in Ha. rewrite !nth_error_map_some in Eab. destruct (Hk a) as (k & E1 & E2); [lia|]. rewrite E1 in Eab. cbn [option_map] in Eab.
        destruct (nth_error r b) as [x|] eqn:Eb; [|discriminate]. destruct (Hk b) as (k' & E1' & E2'); [rewrite <- Hl; exact (nth_error_bound _ _ _ Eb)|]. rewrite Eb in E1'. injection E1' as ->. cbn [option_map] in Eab. assert (k = k') as <- by congruence. congruence.
      * rewrite seq_length, map_length. lia.
      * intros k Hin. apply in_map_iff in Hin as (x & <- & Hx). apply In_nth_error in Hx as (q & Eq). destruct (Hk q) as (k & E1 & E2); [rewrite <- Hl; exact (nth_error_bound _ _ _ Eq)|]. rewrite Eq in E1. injection E1 as ->. apply in_seq. pose proof (nth_error_bound _ _ _ E2). lia.
Qed.
End G.
