(** Proofs about timings. *)
From Verif Require Import Base BaseProofs Table TableSpec TableProofs TimeLog TimeLogSpec.
Open Scope nat_scope.

Section Values.
Variables (T : Type) (add mul rmin rmax : T -> T -> T) (inverse : nat -> T) (divide : T -> Z -> T).

Lemma find_register (l : timings T) task time n :
  find_task T (register_timing T add l task time) n =
  if text_eqb task n then match find_task T l task with Some (k, total) => Some ((k + 1)%Z, add total time) | None => Some (1%Z, time) end else find_task T l n.
Proof.
  induction l as [|(m, (k, total)) l IH]; cbn; [reflexivity|]. destruct (text_eqb_spec m task) as [->|N]; cbn.
  - now destruct (text_eqb_spec task n).
  - rewrite IH. destruct (text_eqb_spec m n) as [->|N']; [|reflexivity]. destruct (text_eqb_spec task n); congruence.
Qed.
Lemma register_names (l : timings T) task time n : In n (map fst (register_timing T add l task time)) <-> n = task \/ In n (map fst l).
Proof.
  induction l as [|(m, (k, total)) l IH]; cbn; [intuition|]. destruct (text_eqb_spec m task) as [->|N]; cbn; [intuition|]. rewrite IH. intuition.
Qed.
Lemma logged_app (h g : list (text * T)) : logged T add (h ++ g) = fold_left (fun l e => register_timing T add l (fst e) (snd e)) g (logged T add h).
Proof. unfold logged. apply fold_left_app. Qed.
Lemma logged_names h n : In n (map fst (logged T add h)) <-> registered T h n.
Proof.
  induction h as [|(task, time) h IH] using rev_ind; [split; [intros []|intros (x & [])]|]. rewrite logged_app. cbn [fold_left fst snd]. rewrite register_names, IH. unfold registered. split.
  - intros [->|(x & H)]; [exists time; apply in_or_app; right; now left|exists x; apply in_or_app; now left].
  - intros (x & H). apply in_app_or in H as [H|[H|[]]]; [right; now exists x|left; congruence].
Qed.
Lemma timing_ok h task : find_task T (logged T add h) task = match times T h task with [] => None | x :: l => Some (Z.of_nat (length (x :: l)), fold_left add l x) end.
Proof.
  induction h as [|(n, time) h IH] using rev_ind; [reflexivity|]. rewrite logged_app. cbn [fold_left fst snd]. rewrite find_register. unfold times in *. rewrite filter_app, map_app. cbn [filter fst]. unfold text_eqb.
  destruct (list_eq_dec Nat.eq_dec n task) as [->|N].
  - rewrite IH. cbn [map snd]. destruct (map snd _) as [|x l]; [reflexivity|]. cbn [app]. rewrite fold_left_app. cbn [fold_left]. f_equal. f_equal. cbn [length]. rewrite app_length. cbn [length]. lia.
  - cbn [map]. rewrite app_nil_r. exact IH.
Qed.

(** The table of timings *)
Definition is_cell (col : text) (v : value T) : Prop := match v with VInt _ _ => col = reps | VDouble _ _ => col = avg \/ col = tot | VStr _ _ => False end.
Lemma table_spec (l : timings T) : NoDup (map fst (timing_table T divide l)) /\
  (forall row col v, table_get T (timing_table T divide l) row col = Some v -> In row (map fst l) /\ is_cell col v) /\
  (forall row, In row (map fst l) -> (exists z, table_get T (timing_table T divide l) row reps = Some (VInt T z)) /\ (exists x, table_get T (timing_table T divide l) row avg = Some (VDouble T x)) /\
     (exists x, table_get T (timing_table T divide l) row tot = Some (VDouble T x))).
Proof.
  induction l as [|(n, (k, total)) l IH] using rev_ind.
  - split; [constructor|]. split; [discriminate|intros row []].
  - assert (Et : timing_table T divide (l ++ [(n, (k, total))]) = table_set T (table_set T (table_set T (timing_table T divide l) n reps (VInt T k)) n avg (VDouble T (divide total k))) n tot (VDouble T total)) by (unfold timing_table; rewrite fold_left_app; reflexivity).
    rewrite Et. clear Et. set (t := timing_table T divide l) in *. destruct IH as (H1 & H2 & H3). unfold table_get, table_set in *. split; [|split].
    + now repeat apply assign_nodup.
    + intros row col v. rewrite map_app, in_app_iff. cbn [map fst In]. rewrite !lookup_assign. destruct (key_eqb_spec (n, tot) (row, col)) as [E|_].
      { injection E as -> <-. intro E. injection E as <-. split; [right; now left|now right]. }
      destruct (key_eqb_spec (n, avg) (row, col)) as [E|_].
      { injection E as -> <-. intro E. injection E as <-. split; [right; now left|now left]. }
      destruct (key_eqb_spec (n, reps) (row, col)) as [E|_].
      { injection E as -> <-. intro E. injection E as <-. split; [right; now left|reflexivity]. }
      intro E. destruct (H2 row col v E). split; [now left|assumption].
    + intros row Hr. rewrite map_app, in_app_iff in Hr. cbn [map fst In] in Hr. rewrite !lookup_assign.
      destruct (list_eq_dec Nat.eq_dec n row) as [->|N].
      * destruct (key_eqb_spec (row, tot) (row, reps)) as [E|_]; [discriminate E|]. destruct (key_eqb_spec (row, avg) (row, reps)) as [E|_]; [discriminate E|]. destruct (key_eqb_spec (row, tot) (row, avg)) as [E|_]; [discriminate E|].
        rewrite !key_eqb_refl. split; [|split]; eexists; reflexivity.
      * assert (Hk : forall c c', key_eqb (n, c) (row, c') = false) by (intros c c'; destruct (key_eqb_spec (n, c) (row, c')); [congruence|reflexivity]). rewrite !Hk. apply H3. destruct Hr as [Hr|[Hr|[]]]; [exact Hr|contradiction].
Qed.

Lemma distinct_in (l : list text) x : In x (distinct l) -> In x l.
Proof.
  unfold distinct. enough (H : forall acc, In x (fold_left (fun acc x => if existsb (text_eqb x) acc then acc else acc ++ [x]) l acc) -> In x acc \/ In x l) by (intro Hx; destruct (H [] Hx) as [[]|]; assumption).
  induction l as [|y l IH]; intros acc H; cbn in *; [now left|]. apply IH in H as [H|H]; [|right; now right]. destruct (existsb (text_eqb y) acc); [now left|]. apply in_app_or in H as [H|[H|[]]]; [now left|right; now left].
Qed.
Lemma lookup_in {V} (l : list (key * V)) k : In k (map fst l) -> exists v, lookup l k = Some v.
Proof. induction l as [|(k0, v0) l IH]; cbn; intros H; [contradiction|]. destruct (key_eqb_spec k0 k); [eexists; reflexivity|]. apply IH. destruct H; [contradiction|assumption]. Qed.

Lemma cells_ok (t : table T) : (forall row col row' col', table_get T t row col' <> None -> table_get T t row' col <> None -> table_get T t row col <> None) ->
  exists cells, table_cells T t = Some cells.
Proof.
  intro H. unfold table_cells. apply omap_some. intros row Hrow. apply omap_some. intros col Hcol. apply distinct_in, in_map_iff in Hrow as (((a, b), v) & Ea & Hi). apply distinct_in, in_map_iff in Hcol as (((a', b'), v') & Eb & Hi').
  cbn in Ea, Eb. subst. destruct (lookup_in t (row, b)) as (w & Ew); [apply in_map_iff; now exists (row, b, v)|]. destruct (lookup_in t (a', col)) as (w' & Ew'); [apply in_map_iff; now exists (a', col, v')|].
  specialize (H row col a' b). unfold table_get in *. rewrite Ew, Ew' in H. destruct (lookup t (row, col)) as [x|]; [now exists x|]. exfalso. apply H; discriminate || reflexivity.
Qed.

Lemma distinct_all (l : list text) x : In x l -> In x (distinct l).
Proof.
  unfold distinct. enough (H : forall acc, In x acc \/ In x l -> In x (fold_left (fun acc x => if existsb (text_eqb x) acc then acc else acc ++ [x]) l acc)) by (intro Hx; apply H; now right).
  induction l as [|y l IH]; intros acc H; cbn [fold_left]; [destruct H as [H|[]]; exact H|]. apply IH. destruct H as [H|[->|H]]; [left|left|now right].
  - destruct (existsb (text_eqb y) acc); [exact H|apply in_or_app; now left].
  - destruct (existsb (text_eqb x) acc) eqn:E; [|apply in_or_app; right; now left]. apply existsb_exists in E as (z & Hz & E). destruct (text_eqb_spec x z); [now subst|discriminate].
Qed.
Lemma omap_in {A B} (f : A -> option B) l r a : omap f l = Some r -> In a l -> f a <> None.
Proof.
  revert r. induction l as [|b l IH]; intros r E H; [contradiction|]. cbn [omap] in E. destruct (f b) as [y|] eqn:Ef; [|discriminate]. cbn [obind] in E. destruct (omap f l) as [r'|] eqn:El; [|discriminate]. destruct H as [->|H]; [congruence|exact (IH r' eq_refl H)].
Qed.
Lemma lookup_key {V} (l : list (key * V)) k : lookup l k <> None -> In k (map fst l).
Proof. induction l as [|(k0, v0) l IH]; cbn; intro H; [contradiction|]. destruct (key_eqb_spec k0 k); [now left|right; now apply IH]. Qed.
Lemma cells_none (t : table T) row col row' col' : table_get T t row col' <> None -> table_get T t row' col <> None -> table_get T t row col = None -> table_cells T t = None.
Proof.
  intros H1 H2 H3. apply lookup_key in H1. apply lookup_key in H2. destruct (table_cells T t) as [cells|] eqn:E; [exfalso|reflexivity]. unfold table_cells in E.
  apply (omap_in _ _ _ row) in E. 2:{ apply distinct_all. apply in_map_iff in H1 as (kv & E1 & H1). apply in_map_iff. exists kv. split; [destruct kv as (k, v); cbn in E1 |- *; now rewrite E1|exact H1]. }
  cbv beta in E. match type of E with ?x <> None => destruct x as [r|] eqn:E' end; [|contradiction]. apply (omap_in _ _ _ col) in E'; [contradiction|]. apply distinct_all. apply in_map_iff in H2 as (kv & E2 & H2). apply in_map_iff. exists kv. split; [destruct kv as (k, v); cbn in E2 |- *; now rewrite E2|exact H2].
Qed.

Lemma combined_some (op : T -> T -> T) (l : list T) x : In x l -> combined op l <> None.
Proof. destruct l; [intros []|discriminate]. Qed.

Lemma reduced_entries r (h0 : list (text * T)) hs : hs <> [] -> (forall h task, In h (h0 :: hs) -> registered T h task -> ~ In 0 task) ->
  exists t, table_reduce T add mul rmin rmax inverse r (map (timing_table T divide) (map (logged T add) (h0 :: hs))) 0 = Some t /\
  forall row col, table_get T t row col <> None <-> (registered T h0 row /\ col = reps) \/ ((exists h, In h (h0 :: hs) /\ registered T h row) /\ (col = avg \/ col = tot)).
Proof.
  intros Hne Hp. cbn [map].
  assert (HQ : forall t, In t (timing_table T divide (logged T add h0) :: map (timing_table T divide) (map (logged T add) hs)) -> exists h, In h (h0 :: hs) /\ t = timing_table T divide (logged T add h)).
  { intros t [<-|Ht]; [exists h0; split; [now left|reflexivity]|]. apply in_map_iff in Ht as (l & <- & Hl). apply in_map_iff in Hl as (h & <- & Hh). exists h. split; [now right|reflexivity]. }
  destruct (reduce_ok T add mul rmin rmax inverse r (timing_table T divide (logged T add h0)) (map (timing_table T divide) (map (logged T add) hs))) as (t & E & G).
  - intro E. apply map_eq_nil, map_eq_nil in E. contradiction.
  - intros t Ht. destruct (HQ t Ht) as (h & Hh & ->). destruct (table_spec (logged T add h)) as (H1 & H2 & _). split; [exact H1|]. intros (row, col) Hk. destruct (lookup_in _ _ Hk) as (v & Ev). destruct (H2 row col v Ev) as (Hr & Hc). cbn [fst snd].
    split; [apply (Hp h); [exact Hh|now apply logged_names]|]. destruct v; cbn in Hc; [contradiction|subst col; cbn; intuition discriminate|destruct Hc as [-> | ->]; cbn; intuition discriminate].
  - exists t. split; [exact E|]. intros row col. rewrite G. destruct (table_spec (logged T add h0)) as (_ & A & B). split.
    + intro H. destruct (combined _ _) as [y|] eqn:Ec.
      * unfold column in Ec. destruct (flat_map _ _) as [|x L] eqn:Ef; [discriminate Ec|]. assert (Hx : In x (x :: L)) by now left. rewrite <- Ef in Hx. apply in_flat_map in Hx as (t' & Ht' & Hx).
        destruct (HQ t' Ht') as (h & Hh & ->). destruct (table_spec (logged T add h)) as (_ & A' & _). destruct (table_get T _ row col) as [v|] eqn:Ev; [|contradiction]. destruct (A' row col v Ev) as (Hr & Hc). apply logged_names in Hr.
        destruct v; try contradiction. right. split; [now exists h|exact Hc].
      * destruct (table_get T (timing_table T divide (logged T add h0)) row col) as [v|] eqn:Ev; [|contradiction]. destruct (A row col v Ev) as (Hr & Hc). destruct v; try contradiction. left. split; [now apply logged_names|exact Hc].
    + intros [(Hr & ->)|((h & Hh & Hr) & Hc)].
      * apply logged_names in Hr. destruct (B row Hr) as ((z & Ez) & _). destruct (combined _ _) as [w|]; [discriminate|]. rewrite Ez. discriminate.
      * apply logged_names in Hr. destruct (table_spec (logged T add h)) as (_ & _ & B'). destruct (B' row Hr) as (_ & (x & Ex) & (y & Ey)). destruct (combined _ _) as [w|] eqn:Ec; [discriminate|]. exfalso.
        assert (Ht : In (timing_table T divide (logged T add h)) (timing_table T divide (logged T add h0) :: map (timing_table T divide) (map (logged T add) hs))) by (destruct Hh as [<-|Hh]; [now left|right; now apply in_map, in_map]).
        destruct Hc as [-> | ->].
        -- apply (combined_some _ _ x) in Ec; [exact Ec|]. apply in_flat_map. eexists. split; [exact Ht|]. rewrite Ex. now left.
        -- apply (combined_some _ _ y) in Ec; [exact Ec|]. apply in_flat_map. eexists. split; [exact Ht|]. rewrite Ey. now left.
Qed.

Lemma registered_dec (h : list (text * T)) task : {registered T h task} + {~ registered T h task}.
Proof.
  destruct (in_dec (list_eq_dec Nat.eq_dec) task (map fst h)) as [H|H]; [left|right].
  - apply in_map_iff in H as ((n, x) & <- & H). now exists x.
  - intros (x & Hx). apply H. apply in_map_iff. now exists (task, x).
Qed.

Lemma list_iff r (h0 : list (text * T)) hs : hs <> [] -> (forall h task, In h (h0 :: hs) -> registered T h task -> ~ In 0 task) ->
  list_timings T add mul rmin rmax inverse divide r (map (logged T add) (h0 :: hs)) 0 = None <->
  (exists task, registered T h0 task) /\ exists h task, In h hs /\ registered T h task /\ ~ registered T h0 task.
Proof.
  intros Hne Hp. unfold list_timings. destruct (reduced_entries r h0 hs Hne Hp) as (t & E & K). rewrite E. cbn [obind]. split.
  - intro N. assert (D : (exists h task, In h hs /\ registered T h task /\ ~ registered T h0 task) \/ (forall h task, In h hs -> registered T h task -> registered T h0 task)).
    { destruct (Exists_dec (fun task => ~ registered T h0 task) (concat (map (map fst) hs))) as [H|H].
      - intro x. destruct (registered_dec h0 x); [right|left]; intuition.
      - left. apply Exists_exists in H as (task & Hi & Hn). apply in_concat in Hi as (l & Hl & Hi). apply in_map_iff in Hl as (h & <- & Hh). apply in_map_iff in Hi as ((n, x) & <- & Hi). exists h, n. split; [exact Hh|]. split; [now exists x|exact Hn].
      - right. intros h task Hh (x & Hx). destruct (registered_dec h0 task) as [Q|Q]; [exact Q|exfalso]. apply H. apply Exists_exists. exists task. split; [|exact Q]. apply in_concat. exists (map fst h). split; [now apply in_map|]. apply in_map_iff. now exists (task, x). }
    assert (C : forall P : Prop, (forall row col row' col', table_get T t row col' <> None -> table_get T t row' col <> None -> table_get T t row col <> None) -> P).
    { intros P H. destruct (cells_ok t H) as (cells & Ec). congruence. }
    destruct D as [D|D].
    + split; [|exact D]. destruct h0 as [|(task, x) h0]; [|exists task, x; now left]. apply C. intros row col row' col' H1 H2. apply K in H1. apply K in H2. apply K. right. destruct H1 as [((x & []) & _)|(H1 & _)], H2 as [((x & []) & _)|(_ & H2)]. now split.
    + apply C. intros row col row' col' H1 H2. apply K in H1. apply K in H2. apply K.
      assert (R : registered T h0 row) by (destruct H1 as [(H1 & _)|((h & [<-|Hh] & H1) & _)]; [exact H1|exact H1|exact (D h row Hh H1)]).
      destruct H2 as [(_ & H2)|(_ & H2)]; [left; now split|right]. split; [exists h0; split; [now left|exact R]|exact H2].
  - intros ((task0 & H0) & h & task & Hh & Hr & Hn). apply (cells_none t task reps task0 avg).
    + apply K. right. split; [exists h; split; [now right|exact Hr]|now left].
    + apply K. left. now split.
    + destruct (table_get T t task reps) eqn:Eg; [exfalso|reflexivity]. assert (Q : table_get T t task reps <> None) by congruence. apply K in Q as [(Q & _)|(_ & [Q|Q])]; [contradiction|discriminate Q|discriminate Q].
Qed.
End Values.
