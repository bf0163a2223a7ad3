(** Proofs about tables. *)
From Verif Require Import Base BaseProofs Table TableSpec.
Open Scope nat_scope.

Lemma text_eqb_spec a b : reflect (a = b) (text_eqb a b).
Proof. unfold text_eqb. destruct (list_eq_dec Nat.eq_dec a b); now constructor. Qed.
Lemma key_eqb_spec a b : reflect (a = b) (key_eqb a b).
Proof.
  destruct a as (a1, a2), b as (b1, b2). unfold key_eqb. cbn [fst snd]. destruct (text_eqb_spec a1 b1), (text_eqb_spec a2 b2); cbn; constructor; congruence.
Qed.
Lemma key_eqb_refl k : key_eqb k k = true.
Proof. now destruct (key_eqb_spec k k). Qed.

Section Assoc.
Context {V : Type}.
Implicit Types (l : list (key * V)) (k : key).
Lemma lookup_assign l k v k' : lookup (assign l k v) k' = if key_eqb k k' then Some v else lookup l k'.
Proof.
  induction l as [|(k0, v0) l IH]; cbn; [reflexivity|]. destruct (key_eqb_spec k0 k) as [->|N]; cbn.
  - now destruct (key_eqb_spec k k').
  - rewrite IH. destruct (key_eqb_spec k0 k') as [->|N']; [|reflexivity]. destruct (key_eqb_spec k k'); congruence.
Qed.
Lemma assign_keys l k v k' : In k' (map fst (assign l k v)) <-> k' = k \/ In k' (map fst l).
Proof.
  induction l as [|(k0, v0) l IH]; cbn; [intuition|]. destruct (key_eqb_spec k0 k) as [->|N]; cbn; [intuition|]. rewrite IH. intuition.
Qed.
Lemma assign_nodup l k v : NoDup (map fst l) -> NoDup (map fst (assign l k v)).
Proof.
  induction l as [|(k0, v0) l IH]; cbn; intro H; [constructor; [intros []|constructor]|]. inversion H as [|x y H1 H2]; subst. destruct (key_eqb_spec k0 k) as [->|N]; cbn; [now constructor|].
  constructor; [|now apply IH]. rewrite assign_keys. intuition.
Qed.
Lemma lookup_none l k : ~ In k (map fst l) -> lookup l k = None.
Proof. induction l as [|(k0, v0) l IH]; cbn; intro H; [reflexivity|]. destruct (key_eqb_spec k0 k); [exfalso; intuition|]. apply IH. intuition. Qed.
End Assoc.

Lemma getlines_field f : forall cur s, ~ In 0 f -> getlines cur (f ++ 0 :: s) = (rev cur ++ f) :: getlines [] s.
Proof.
  induction f as [|c f IH]; intros cur s H; cbn [app].
  - cbn. now rewrite app_nil_r.
  - destruct c as [|c]; [exfalso; apply H; now left|]. cbn [getlines]. rewrite IH by (intro; apply H; now right). cbn [rev]. now rewrite <- app_assoc.
Qed.

Section Values.
Variables (T : Type) (add mul rmin rmax : T -> T -> T) (inverse : nat -> T).
Notation op := (op_impl T add rmin rmax).
Notation red_key := (reduce_key T add rmin rmax).

Definition clean {V} (l : list (key * V)) : Prop := forall k, In k (map fst l) -> ~ In 0 (fst k) /\ ~ In 0 (snd k).

Lemma unpack (l : list (key * T)) : clean l -> key_pairs (getlines [] (pack_keys T l)) = map fst l.
Proof.
  induction l as [|((a, b), v) l IH]; intro H; [reflexivity|]. unfold pack_keys. cbn [map concat fst snd]. rewrite <- app_assoc. cbn [app]. destruct (H (a, b) (or_introl eq_refl)) as (Ha & Hb). cbn [fst snd] in Ha, Hb.
  rewrite (getlines_field a [] _ Ha). rewrite <- app_assoc. cbn [app]. rewrite (getlines_field b [] _ Hb). cbn [rev app key_pairs]. apply (f_equal (cons (a, b))). apply IH. intros k Hk. apply H. now right.
Qed.

Definition upsert (r : reduction) (acc : list (key * T)) (kv : key * T) : list (key * T) :=
  match lookup acc (fst kv) with Some y => assign acc (fst kv) (op r y (snd kv)) | None => assign acc (fst kv) (snd kv) end.
Lemma process_ok r (l : list (key * T)) : forall acc rest, ofold (red_key r) (map fst l) (acc, map snd l ++ rest) = Some (fold_left (upsert r) l acc, rest).
Proof.
  induction l as [|(k, v) l IH]; intros acc rest; [reflexivity|]. cbn [map fst snd app ofold fold_left]. unfold reduce_key at 1. cbn [fst snd obind]. rewrite IH. reflexivity.
Qed.
Lemma processes_ok r (ls : list (list (key * T))) : (forall l, In l ls -> clean l) -> forall acc,
  ofold (fun st s => ofold (red_key r) (key_pairs (getlines [] s)) st) (map (pack_keys T) ls) (acc, concat (map (map snd) ls)) = Some (fold_left (upsert r) (concat ls) acc, []).
Proof.
  induction ls as [|l ls IH]; intros H acc; [reflexivity|]. cbn [map concat ofold]. rewrite unpack by (apply H; now left). rewrite process_ok. cbn [obind]. rewrite IH by (intros l' Hl; apply H; now right). now rewrite fold_left_app.
Qed.

Definition hits (k : key) (l : list (key * T)) : list T := flat_map (fun kv => if key_eqb (fst kv) k then [snd kv] else []) l.
Lemma upsert_lookup r k (l : list (key * T)) : forall acc,
  lookup (fold_left (upsert r) l acc) k = match lookup acc k with Some y => Some (fold_left (op r) (hits k l) y) | None => combined (op r) (hits k l) end.
Proof.
  induction l as [|(k0, v) l IH]; intro acc; cbn [fold_left hits flat_map fst snd]; [now destruct (lookup acc k)|]. rewrite IH. fold (hits k l). unfold upsert. cbn [fst snd].
  destruct (key_eqb_spec k0 k) as [->|N].
  - destruct (lookup acc k) as [y|]; rewrite lookup_assign, key_eqb_refl; reflexivity.
  - destruct (lookup acc k0) as [y|]; rewrite lookup_assign; (destruct (key_eqb_spec k0 k); [contradiction|reflexivity]).
Qed.
Lemma upsert_nodup r (l : list (key * T)) : forall acc, NoDup (map fst acc) -> NoDup (map fst (fold_left (upsert r) l acc)).
Proof. induction l as [|(k, v) l IH]; intros acc H; [exact H|]. cbn [fold_left]. apply IH. unfold upsert. cbn [fst snd]. destruct (lookup acc k); now apply assign_nodup. Qed.

Lemma doubles_keys (t : table T) k : In k (map fst (doubles T t)) -> In k (map fst t).
Proof. induction t as [|(k0, [s|z|x]) t IH]; cbn; intro H; auto. destruct H; auto. Qed.
Lemma hits_none k (l : list (key * T)) : ~ In k (map fst l) -> hits k l = [].
Proof. induction l as [|(k0, v) l IH]; cbn; intro H; [reflexivity|]. destruct (key_eqb_spec k0 k); [exfalso; intuition|]. apply IH. intuition. Qed.
Lemma hits_doubles (t : table T) k : NoDup (map fst t) -> hits k (doubles T t) = match lookup t k with Some (VDouble _ x) => [x] | _ => [] end.
Proof.
  induction t as [|(k0, v0) t IH]; intro H; [reflexivity|]. cbn [map fst] in H. inversion H as [|x y H1 H2]; subst. assert (Hn : k0 = k -> hits k (doubles T t) = []).
  { intros ->. apply hits_none. intro Hi. apply H1. now apply doubles_keys. }
  cbn [lookup]. destruct v0 as [s|z|x].
  - change (doubles T ((k0, VStr T s) :: t)) with (doubles T t). destruct (key_eqb_spec k0 k) as [E|N]; [exact (Hn E)|exact (IH H2)].
  - change (doubles T ((k0, VInt T z) :: t)) with (doubles T t). destruct (key_eqb_spec k0 k) as [E|N]; [exact (Hn E)|exact (IH H2)].
  - change (hits k (doubles T ((k0, VDouble T x) :: t))) with ((if key_eqb k0 k then [x] else []) ++ hits k (doubles T t)).
    destruct (key_eqb_spec k0 k) as [E|N]; cbn [app]; [now rewrite (Hn E)|exact (IH H2)].
Qed.

Lemma ints_lookup (t : table T) k : NoDup (map fst t) -> forall acc,
  lookup (fold_left (fun acc kv => match snd kv with VInt _ z => table_set T acc (fst (fst kv)) (snd (fst kv)) (VInt T z) | _ => acc end) t acc) k =
  match lookup t k with Some (VInt _ z) => Some (VInt T z) | _ => lookup acc k end.
Proof.
  induction t as [|((a, b), v0) t IH]; cbn [map fst]; intros H acc; [reflexivity|]. inversion H as [|x y H1 H2]; subst. cbn [fold_left fst snd lookup]. rewrite (IH H2).
  destruct (key_eqb_spec (a, b) k) as [<-|N].
  - rewrite (lookup_none t (a, b) H1). destruct v0; try reflexivity. unfold table_set. now rewrite lookup_assign, key_eqb_refl.
  - destruct v0 as [s|z|x]; try reflexivity. unfold table_set. rewrite lookup_assign. destruct (key_eqb_spec (a, b) k); [contradiction|reflexivity].
Qed.
Lemma doubles_lookup (l : list (key * T)) k : NoDup (map fst l) -> forall acc,
  lookup (fold_left (fun acc kv => table_set T acc (fst (fst kv)) (snd (fst kv)) (VDouble T (snd kv))) l acc) k =
  match lookup l k with Some x => Some (VDouble T x) | None => lookup acc k end.
Proof.
  induction l as [|((a, b), v0) l IH]; cbn [map fst]; intros H acc; [reflexivity|]. inversion H as [|x y H1 H2]; subst. cbn [fold_left fst snd lookup]. rewrite (IH H2). unfold table_set. rewrite lookup_assign.
  destruct (key_eqb_spec (a, b) k) as [<-|N]; [|reflexivity]. now rewrite (lookup_none l (a, b) H1).
Qed.
Lemma lookup_map_snd (f : T -> T) (l : list (key * T)) k : lookup (map (fun kv => (fst kv, f (snd kv))) l) k = option_map f (lookup l k).
Proof. induction l as [|(k0, v) l IH]; cbn; [reflexivity|]. destruct (key_eqb k0 k); [reflexivity|exact IH]. Qed.

Definition finish (r : reduction) (n : nat) (y : T) : T := match r with Average => mul y (inverse n) | _ => y end.

Lemma reduce_ok r (t0 : table T) tables : tables <> [] -> (forall t, In t (t0 :: tables) -> NoDup (map fst t) /\ clean t) ->
  exists t, table_reduce T add mul rmin rmax inverse r (t0 :: tables) 0 = Some t /\ forall row col, table_get T t row col =
    match combined (op r) (column T (t0 :: tables) row col) with
    | Some y => Some (VDouble T (finish r (length (t0 :: tables)) y))
    | None => match table_get T t0 row col with Some (VInt _ z) => Some (VInt T z) | _ => None end
    end.
Proof.
  intros Hne H. unfold table_reduce. cbn [nth_error obind]. destruct (Nat.eqb_spec (length (t0 :: tables)) 1) as [E|_]; [destruct tables; [contradiction|discriminate E]|]. cbv zeta. change (0 <? 0) with false. cbv iota.
  set (ts := t0 :: tables) in *. set (strings := map (fun t => pack_keys T (doubles T t)) ts).
  rewrite (omap_map _ (fun i => nth i strings [])).
  2:{ intros i Hi. apply in_seq in Hi. apply slice_at_concat. apply nth_error_nth'. unfold strings. rewrite map_length. lia. }
  cbn [obind].
  assert (Es : map (fun i => nth i strings []) (seq 0 (length ts)) = map (pack_keys T) (map (doubles T) ts)).
  { rewrite map_map. fold strings. replace (length ts) with (length strings) by (unfold strings; apply map_length). clear. induction strings as [|s l IH]; [reflexivity|]. cbn [length seq map nth]. f_equal. rewrite <- seq_shift, map_map. exact IH. }
  rewrite Es. rewrite <- (map_map (doubles T) (map snd)). rewrite processes_ok.
  2:{ intros l Hl. apply in_map_iff in Hl as (t & <- & Ht). intros k Hk. apply (proj2 (H t Ht)). now apply doubles_keys. }
  cbn [obind fst snd]. eexists. split; [reflexivity|]. intros row col. unfold table_get at 1. set (D := fold_left (upsert r) (concat (map (doubles T) ts)) []).
  assert (HD : NoDup (map fst D)) by (apply upsert_nodup; constructor).
  assert (LD : lookup D (row, col) = combined (op r) (column T ts row col)).
  { unfold D. rewrite upsert_lookup. cbn [lookup]. f_equal. unfold column, table_get. clear D HD Es strings Hne. induction ts as [|t l IH]; [reflexivity|]. cbn [map concat flat_map]. unfold hits in *. rewrite flat_map_app. f_equal.
    - apply (hits_doubles t (row, col)). apply (H t). now left.
    - apply IH. intros t' Ht'. apply H. now right. }
  assert (N0 : NoDup (map fst t0)) by (apply (H t0); now left).
  assert (Ed : (match r with Average => map (fun kv => (fst kv, mul (snd kv) (inverse (length ts)))) D | _ => D end) = map (fun kv => (fst kv, finish r (length ts) (snd kv))) D).
  { destruct r; cbn [finish]; [reflexivity| |]; (rewrite <- (map_id D) at 1; apply map_ext; now intros (k, v)). }
  rewrite Ed. rewrite doubles_lookup. 2:{ rewrite map_map. cbn [fst]. exact HD. }
  rewrite lookup_map_snd, LD. destruct (combined (op r) (column T ts row col)) as [y|]; cbn [option_map]; [reflexivity|]. rewrite ints_lookup by exact N0. reflexivity.
Qed.

Lemma built_app (a b : list (call T)) : built T (a ++ b) = fold_left (fun t c => table_set T t (fst (fst c)) (snd (fst c)) (snd c)) b (built T a).
Proof. unfold built. apply fold_left_app. Qed.
Lemma built_ok (calls : list (call T)) : NoDup (map fst (built T calls)) /\ (plain T calls -> clean (built T calls)).
Proof.
  induction calls as [|((a, b), v) calls IH] using rev_ind; [split; [constructor|intros _ k []]|]. rewrite built_app. cbn [fold_left fst snd]. destruct IH as (H1 & H2). unfold table_set. split; [now apply assign_nodup|].
  intros Hp k Hk. apply assign_keys in Hk as [->|Hk].
  - apply (Hp (a, b, v)). apply in_or_app. right. now left.
  - apply H2; [|exact Hk]. intros c Hc. apply Hp. apply in_or_app. now left.
Qed.
Lemma get_ok (calls : list (call T)) row col v : table_get T (built T calls) row col = Some v <-> last_set T calls row col v.
Proof.
  revert v. induction calls as [|((a, b), w) calls IH] using rev_ind; intro v.
  - split; [discriminate|]. intros (before & after & E & _). destruct before; discriminate E.
  - rewrite built_app. cbn [fold_left fst snd]. unfold table_get, table_set. rewrite lookup_assign. destruct (key_eqb_spec (a, b) (row, col)) as [E|N].
    + injection E as -> ->. split.
      * intro E. injection E as ->. exists calls, []. split; [reflexivity|]. intros v' [].
      * intros (before & after & E & Hn). destruct after as [|x after _] using rev_ind.
        -- apply app_inj_tail in E as (_ & E). injection E as ->. reflexivity.
        -- rewrite app_comm_cons, app_assoc in E. apply app_inj_tail in E as (_ & <-). exfalso. apply (Hn w). apply in_or_app. right. now left.
    + fold (table_get T (built T calls) row col). rewrite IH. split.
      * intros (before & after & -> & Hn). exists before, (after ++ [(a, b, w)]). split; [now rewrite <- app_assoc|]. intros v' Hi. apply in_app_or in Hi as [Hi|[Hi|[]]]; [exact (Hn v' Hi)|]. congruence.
      * intros (before & after & E & Hn). destruct after as [|x after _] using rev_ind.
        -- apply app_inj_tail in E as (_ & E). congruence.
        -- rewrite app_comm_cons, app_assoc in E. apply app_inj_tail in E as (-> & _). exists before, after. split; [reflexivity|]. intros v' Hi. apply (Hn v'). apply in_or_app. now left.
Qed.
End Values.

Lemma combined_least {T} (le : T -> T -> Prop) (op : T -> T -> T) : (forall a, le a a) -> (forall a b c, le a b -> le b c -> le a c) ->
  (forall a b, (op a b = a \/ op a b = b) /\ le (op a b) a /\ le (op a b) b) -> forall l y, combined op l = Some y -> In y l /\ forall x, In x l -> le y x.
Proof.
  intros Hr Ht Ho [|x l] y E; [discriminate|]. cbn in E. injection E as <-. revert x. induction l as [|z l IH]; intro x; cbn [fold_left].
  - split; [now left|]. intros x' [<-|[]]. apply Hr.
  - destruct (IH (op x z)) as (H1 & H2). destruct (Ho x z) as (H3 & H4 & H5). split.
    + destruct H1 as [H1|H1]; [|right; now right]. rewrite <- H1. destruct H3 as [->| ->]; [now left|right; now left].
    + intros w [<-|[<-|Hw]]; [apply (Ht _ (op x z)); [apply H2; now left|exact H4]|apply (Ht _ (op x z)); [apply H2; now left|exact H5]|apply H2; now right].
Qed.
