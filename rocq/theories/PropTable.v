(** Property C94: tables of values and their reductions. *)
From Verif Require Import Base BaseProofs Table TableSpec TableProofs.
From Coq Require Import ZArith QArith.
Open Scope nat_scope.

(** The value of an entry is the one that was set last. *)
Theorem C94_get : forall T (calls : list (call T)) row col v, table_get T (built T calls) row col = Some v <-> last_set T calls row col v.
Proof. exact get_ok. Qed.
Print Assumptions C94_get.

(** Two or more processes: on the first, an entry is the combination of its floating point values on all processes that have one, divided by
    the number of processes for averages; if there are none it is the integer that the first process has.  The others get empty tables. *)
Theorem C94_reduce : forall T add mul rmin rmax inverse r (calls0 : list (call T)) calls, calls <> [] -> (forall c, In c (calls0 :: calls) -> plain T c) ->
  let tables := map (built T) (calls0 :: calls) in
  (exists t, table_reduce T add mul rmin rmax inverse r tables 0 = Some t /\ forall row col, table_get T t row col =
    match combined (match r with Average => add | Min => rmin | Max => rmax end) (column T tables row col) with
    | Some y => Some (VDouble T (match r with Average => mul y (inverse (length tables)) | _ => y end))
    | None => match table_get T (built T calls0) row col with Some (VInt _ z) => Some (VInt T z) | _ => None end
    end) /\
  forall rank, 0 < rank -> rank < length tables -> table_reduce T add mul rmin rmax inverse r tables rank = Some [].
Proof.
  intros T add mul rmin rmax inverse r calls0 calls Hne Hp tables. split.
  - apply (reduce_ok T add mul rmin rmax inverse r (built T calls0) (map (built T) calls)).
    + intro E. apply map_eq_nil in E. contradiction.
    + intros t Ht. change (In t (map (built T) (calls0 :: calls))) in Ht. apply in_map_iff in Ht as (c & <- & Hc). destruct (built_ok T c) as (H1 & H2). split; [exact H1|exact (H2 (Hp c Hc))].
  - intros rank H0 Hr. unfold table_reduce. destruct (nth_error tables rank) as [t|] eqn:E. 2:{ apply nth_error_None in E. lia. }
    cbn [obind]. destruct (Nat.eqb_spec (length tables) 1); [lia|]. cbv zeta. destruct (Nat.ltb_spec 0 rank); [reflexivity|lia].
Qed.
Print Assumptions C94_reduce.
(** Rows 1 and 2 and column 3; the second process has no entry in row 2 and has set that in row 1 twice. *)
Definition calls_a : list (call Z) := [([1], [3], VDouble Z 5%Z); ([2], [3], VDouble Z 8%Z); ([2], [4], VInt Z 7%Z); ([1], [4], VStr Z [9])].
Definition calls_b : list (call Z) := [([1], [3], VDouble Z 9%Z); ([1], [3], VDouble Z 2%Z); ([1], [5; 6], VDouble Z 4%Z); ([2], [4], VInt Z 6%Z)].
Lemma calls_plain : forall c, In c [calls_a; calls_b] -> plain Z c.
Proof. intros c [<-|[<-|[]]] x H; cbn in H; repeat (destruct H as [<-|H]); try contradiction; cbn; split; intuition discriminate. Qed.
Example C94_reduce_example :
  (forall c, In c [calls_a; calls_b] -> plain Z c) /\
  table_reduce Z Z.add Z.mul Z.min Z.max Z.of_nat Min (map (built Z) [calls_a; calls_b]) 0 =
    Some [([2], [4], VInt Z 7%Z); ([1], [3], VDouble Z 2%Z); ([2], [3], VDouble Z 8%Z); ([1], [5; 6], VDouble Z 4%Z)] /\
  last_set Z calls_b [1] [3] (VDouble Z 2%Z).
Proof.
  split; [exact calls_plain|]. split; [vm_compute; reflexivity|].
  exists [([1], [3], VDouble Z 9%Z)], [([1], [5; 6], VDouble Z 4%Z); ([2], [4], VInt Z 6%Z)]. split; [reflexivity|]. intros v [H|[H|[]]]; discriminate H.
Qed.

(** The smallest value (and the largest, with the order reversed) is one of the values on the processes, and not above any of them. *)
Theorem C94_extremes : forall T add mul rmin rmax inverse r (le : T -> T -> Prop) (calls0 : list (call T)) calls,
  (forall a, le a a) -> (forall a b c, le a b -> le b c -> le a c) ->
  (forall a b, (rmin a b = a \/ rmin a b = b) /\ le (rmin a b) a /\ le (rmin a b) b) -> (forall a b, (rmax a b = a \/ rmax a b = b) /\ le a (rmax a b) /\ le b (rmax a b)) ->
  calls <> [] -> (forall c, In c (calls0 :: calls) -> plain T c) -> r <> Average ->
  exists t, table_reduce T add mul rmin rmax inverse r (map (built T) (calls0 :: calls)) 0 = Some t /\
  forall row col, (exists c x, In c (calls0 :: calls) /\ last_set T c row col (VDouble T x)) ->
  exists y, table_get T t row col = Some (VDouble T y) /\ (exists c, In c (calls0 :: calls) /\ last_set T c row col (VDouble T y)) /\
    forall c x, In c (calls0 :: calls) -> last_set T c row col (VDouble T x) -> match r with Max => le x y | _ => le y x end.
Proof.
  intros T add mul rmin rmax inverse r le calls0 calls Hr Ht Hmin Hmax Hne Hp Hra.
  destruct (C94_reduce T add mul rmin rmax inverse r calls0 calls Hne Hp) as ((t & E & G) & _). exists t. split; [exact E|]. intros row col (c0 & x0 & Hc0 & Hx0).
  assert (Hcol : forall x, In x (column T (map (built T) (calls0 :: calls)) row col) <-> exists c, In c (calls0 :: calls) /\ last_set T c row col (VDouble T x)).
  { intro x. unfold column. rewrite in_flat_map. split.
    - intros (t' & Ht' & Hx). apply in_map_iff in Ht' as (c & <- & Hc). exists c. split; [exact Hc|]. apply C94_get. destruct (table_get T (built T c) row col) as [[s|z|w]|]; try contradiction. destruct Hx as [->|[]]. reflexivity.
    - intros (c & Hc & Hx). exists (built T c). split; [now apply in_map|]. apply C94_get in Hx. rewrite Hx. now left. }
  specialize (G row col). set (L := column T _ row col) in *.
  assert (HL : exists y, combined (match r with Average => add | Min => rmin | Max => rmax end) L = Some y).
  { assert (Hi : In x0 L) by (apply Hcol; now exists c0). destruct L; [contradiction|]. eexists. reflexivity. }
  destruct HL as (y & Ey). rewrite Ey in G. exists y. destruct r; [contradiction| |].
  - split; [exact G|]. destruct (combined_least le rmin Hr Ht Hmin L y Ey) as (H1 & H2). split; [now apply Hcol|]. intros c x Hc Hx. apply H2. apply Hcol. now exists c.
  - split; [exact G|]. destruct (combined_least (fun a b => le b a) rmax Hr (fun a b c H1 H2 => Ht c b a H2 H1) Hmax L y Ey) as (H1 & H2). split; [now apply Hcol|]. intros c x Hc Hx. apply H2. apply Hcol. now exists c.
Qed.
Print Assumptions C94_extremes.
Example C94_extremes_example :
  (forall a b, (Z.min a b = a \/ Z.min a b = b) /\ (Z.min a b <= a)%Z /\ (Z.min a b <= b)%Z) /\ (forall a b, (Z.max a b = a \/ Z.max a b = b) /\ (a <= Z.max a b)%Z /\ (b <= Z.max a b)%Z) /\
  exists t, table_reduce Z Z.add Z.mul Z.min Z.max Z.of_nat Max (map (built Z) [calls_a; calls_b]) 0 = Some t /\ table_get Z t [1] [3] = Some (VDouble Z 5%Z).
Proof. split; [intros; lia|]. split; [intros; lia|]. eexists. split; [vm_compute; reflexivity|]. reflexivity. Qed.

(** The average is over all processes, not over those that have the entry: with an entry on one of two processes it is half of the only value. *)
Theorem C94_average_refuted : exists (calls0 calls1 : list (call Q)) t y, plain Q calls0 /\ plain Q calls1 /\
  table_reduce Q Qplus Qmult (fun a _ => a) (fun a _ => a) (fun n => 1 / inject_Z (Z.of_nat n))%Q Average [built Q calls0; built Q calls1] 0 = Some t /\
  column Q [built Q calls0; built Q calls1] [1] [2] = [4%Q] /\ table_get Q t [1] [2] = Some (VDouble Q y) /\ ~ (y == 4)%Q.
Proof.
  exists [([1], [2], VDouble Q 4%Q)], [], [([1], [2], VDouble Q (4 # 2)%Q)], (4 # 2)%Q. split; [intros c [<-|[]]; cbn; split; intuition discriminate|]. split; [intros c []|].
  split; [vm_compute; reflexivity|]. split; [reflexivity|]. split; [reflexivity|]. intro H. discriminate H.
Qed.
Print Assumptions C94_average_refuted.
