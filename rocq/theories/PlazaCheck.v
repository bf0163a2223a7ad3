(** The subdivision of a tetrahedron against bisection, for every consistent choice of longest
    edges and every closed marking. *)
From Coq Require Import Reals Lra.
From Verif Require Import Base BaseProofs Algo AlgoProofs Plaza PlazaSpec PlazaTiling PlazaBisect.
Open Scope nat_scope.

(** ** Enumerations *)
Fixpoint bools (n : nat) : list (list bool) :=
  match n with 0 => [[]] | S n => map (cons true) (bools n) ++ map (cons false) (bools n) end.
Lemma bools_in l : In l (bools (length l)).
Proof. induction l as [|b l IH]; cbn; [auto|]. apply in_app_iff. destruct b; [left|right]; now apply in_map. Qed.
Fixpoint inserts (x : nat) (l : list nat) : list (list nat) :=
  (x :: l) :: match l with [] => [] | y :: l' => map (cons y) (inserts x l') end.
Fixpoint perms (l : list nat) : list (list nat) :=
  match l with [] => [[]] | x :: l => flat_map (inserts x) (perms l) end.
Lemma inserts_in x p q : In (p ++ x :: q) (inserts x (p ++ q)).
Proof.
  induction p as [|y p IH]; cbn.
  - destruct q; now left.
  - right. now apply in_map.
Qed.
Lemma perms_in l : forall p, Permutation p l -> In p (perms l).
Proof.
  induction l as [|x l IH]; intros p H.
  - symmetry in H. apply Permutation_nil in H. subst. now left.
  - assert (Hx : In x p) by (eapply Permutation_in; [symmetry; exact H|now left]). apply in_split in Hx as (p1 & p2 & ->).
    cbn. apply in_flat_map. exists (p1 ++ p2). split; [|apply inserts_in]. apply IH. symmetry. eapply Permutation_cons_app_inv. symmetry. exact H.
Qed.

(** ** Facets *)
Definition has (tdim e f : nat) : bool :=
  match nth_error (ref_edges tdim) e with Some (a, b) => negb (a =? f) && negb (b =? f) | None => false end.
Lemma has_iff tdim e f : has tdim e f = true <-> exists a b, nth_error (ref_edges tdim) e = Some (a, b) /\ a <> f /\ b <> f.
Proof.
  unfold has. destruct (nth_error (ref_edges tdim) e) as [(a, b)|]; [|split; [discriminate|intros (? & ? & ? & _); discriminate]].
  rewrite andb_true_iff, !negb_true_iff, !Nat.eqb_neq. split; [intros; exists a, b; auto|]. intros (? & ? & E & H). now injection E as <- <-.
Qed.
Definition onb (tdim f i : nat) : bool := if i <=? tdim then negb (i =? f) else has tdim (i - S tdim) f.
Lemma onb_iff tdim f i : onb tdim f i = true <-> on_facet tdim f i.
Proof. unfold onb, on_facet. destruct (i <=? tdim); [now rewrite negb_true_iff, Nat.eqb_neq|apply has_iff]. Qed.
Fixpoint removals (c : list nat) : list (list nat) :=
  match c with [] => [] | x :: c => c :: map (cons x) (removals c) end.
Lemma removals_nth p x q : nth_error (removals (p ++ x :: q)) (length p) = Some (p ++ q).
Proof. induction p as [|y p IH]; cbn; [reflexivity|]. rewrite nth_error_map, IH. reflexivity. Qed.
Lemma removals_iff c t : In t (removals c) <-> exists p x q, c = p ++ x :: q /\ t = p ++ q.
Proof.
  split.
  - revert t. induction c as [|y c IH]; cbn; [tauto|]. intros t [<-|H]; [now exists [], y, c|].
    apply in_map_iff in H as (t' & <- & H). destruct (IH t' H) as (p & x & q & -> & ->). now exists (y :: p), x, q.
  - intros (p & x & q & -> & ->). eapply nth_error_In, removals_nth.
Qed.
Definition facets_on (tdim f : nat) (c : list nat) : list (list nat) := filter (forallb (onb tdim f)) (removals c).
Lemma facets_on_iff tdim f c t : In t (facets_on tdim f c) <-> facet_of_child tdim f c t.
Proof.
  unfold facets_on, facet_of_child. rewrite filter_In, removals_iff, forallb_forall. split.
  - intros ((p & x & q & A & B) & H). exists p, x, q. split; [exact A|]. split; [exact B|]. intros i Hi. now apply onb_iff, H.
  - intros (p & x & q & A & B & H). split; [eauto|]. intros i Hi. now apply onb_iff, H.
Qed.
Lemma same_perm {A} (l l' : list A) T : Permutation l l' -> same_elements l T -> same_elements l' T.
Proof. intros P H x. rewrite <- (H x). split; apply Permutation_in; [symmetry|]; exact P. Qed.
Lemma pieces_iff tdim V C f S T : canon (flat_map (facets_on tdim f) C) = canon S ->
  (piece tdim V C f T <-> exists t, In t S /\ same_elements (map (name tdim V) t) T).
Proof.
  intro Hc. assert (E : piece tdim V C f T <-> exists t, In t (flat_map (facets_on tdim f) C) /\ same_elements (map (name tdim V) t) T).
  { unfold piece. split.
    - intros (c & t & Hc' & Ht & Hs). exists t. split; [|exact Hs]. apply in_flat_map. exists c. split; [exact Hc'|]. now apply facets_on_iff.
    - intros (t & Ht & Hs). apply in_flat_map in Ht as (c & Hc' & Ht). exists c, t. split; [exact Hc'|]. split; [now apply facets_on_iff|exact Hs]. }
  rewrite E. clear E. destruct (canon_perm _ _ Hc) as (L1 & P1 & P2).
  assert (M : (forall t, In t L1 -> exists s, In s S /\ Permutation t s) /\ (forall s, In s S -> exists t, In t L1 /\ Permutation t s)).
  { clear - P2. induction P2 as [|t s L1 S H P2 (I1 & I2)]; [split; intros ? []|]. split.
    - intros u [<-|Hu]; [exists s; split; [now left|exact H]|]. destruct (I1 u Hu) as (v & Hv & Hp). exists v. split; [now right|exact Hp].
    - intros u [<-|Hu]; [exists t; split; [now left|exact H]|]. destruct (I2 u Hu) as (v & Hv & Hp). exists v. split; [now right|exact Hp]. }
  destruct M as (M1 & M2). split.
  - intros (t & Ht & Hs). apply (Permutation_in _ P1) in Ht. destruct (M1 t Ht) as (s & Hs' & Hp). exists s. split; [exact Hs'|].
    eapply same_perm; [|exact Hs]. now apply Permutation_map.
  - intros (s & Hs & He). destruct (M2 s Hs) as (t & Ht & Hp). exists t. split; [eapply Permutation_in; [symmetry; exact P1|exact Ht]|].
    eapply same_perm; [|exact He]. symmetry. now apply Permutation_map.
Qed.

(** ** Parent facets *)
Definition pf_entry (tdim : nat) (t : list nat) (v : Z) : bool :=
  if (v <? 0)%Z then (v =? -1)%Z && forallb (fun f => existsb (fun i => negb (onb tdim f i)) t) (seq 0 (S tdim))
  else (Z.to_nat v <=? tdim) && forallb (onb tdim (Z.to_nat v)) t.
Definition pf_check (tdim : nat) (C : list (list nat)) (pf : list Z) : bool :=
  (length pf =? length C * S tdim) &&
  forallb (fun kc => forallb (fun jt => match nth_error pf (fst kc * S tdim + fst jt) with Some v => pf_entry tdim (snd jt) v | None => false end)
                             (combine (seq 0 (length (snd kc))) (removals (snd kc)))) (combine (seq 0 (length C)) C).
Lemma combine_seq {A} (l : list A) k x : nth_error l k = Some x -> In (k, x) (combine (seq 0 (length l)) l).
Proof.
  assert (G : forall (l : list A) s k x, nth_error l k = Some x -> In (s + k, x) (combine (seq s (length l)) l)).
  { clear. induction l as [|y l IH]; intros s k x H; [destruct k; discriminate|]. cbn [length seq combine]. destruct k as [|k].
    - injection H as ->. left. now rewrite Nat.add_0_r.
    - right. replace (s + S k) with (S s + k) by lia. now apply IH. }
  exact (G l 0 k x).
Qed.
Lemma removals_length c : length (removals c) = length c.
Proof. induction c as [|x c IH]; cbn; [reflexivity|]. now rewrite map_length, IH. Qed.
Lemma pf_check_ok tdim C pf : pf_check tdim C pf = true -> parent_facets tdim C pf.
Proof.
  unfold pf_check, parent_facets. rewrite andb_true_iff, Nat.eqb_eq, forallb_forall. intros (L & H). split; [exact L|].
  intros k child p x q Hk E. specialize (H _ (combine_seq _ _ _ Hk)). rewrite forallb_forall in H. cbn [fst snd] in H.
  rewrite <- (removals_length child) in H. specialize (H (length p, p ++ q)). cbn [fst snd] in H.
  destruct (nth_error pf (k * S tdim + length p)) as [v|]; [|discriminate H; apply combine_seq; rewrite E; apply removals_nth].
  exists v. split; [reflexivity|]. assert (H' : pf_entry tdim (p ++ q) v = true) by (apply H, combine_seq; rewrite E; apply removals_nth).
  unfold pf_entry in H'. destruct (Z.ltb_spec v 0) as [Hv|Hv]; apply andb_true_iff in H' as (H1 & H2).
  - right. split; [now apply Z.eqb_eq|]. intros f Hf. rewrite forallb_forall in H2. specialize (H2 f). rewrite in_seq in H2.
    apply existsb_exists in H2 as (i & Hi & Hn); [|lia]. exists i. split; [exact Hi|]. rewrite <- onb_iff. now destruct (onb tdim f i).
  - left. exists (Z.to_nat v). split; [now apply Nat.leb_le|]. split; [lia|]. rewrite forallb_forall in H2. intros i Hi. now apply onb_iff, H2.
Qed.

(** ** Only the signs of the indices matter *)
Definition flags (tdim : nat) (m : list bool) : list Z := repeat 0%Z (S tdim) ++ map (fun b : bool => if b then 0%Z else (-1)%Z) m.
Lemma flags_split tdim m i b : nth_error m i = Some b -> split_edge (flags tdim m) (S tdim + i) = Some b.
Proof.
  intro H. unfold split_edge, flags. rewrite nth_error_app2 by (rewrite repeat_length; lia). rewrite repeat_length.
  replace (S tdim + i - S tdim) with i by lia. rewrite nth_error_map, H. now destruct b.
Qed.
Lemma tetrahedra_ext ind ind' le : (forall i, i < 6 -> split_edge ind (i + 4) = split_edge ind' (i + 4)) ->
  get_tetrahedra ind le = get_tetrahedra ind' le.
Proof.
  intro H. unfold get_tetrahedra. rewrite (ofold_ext (connect_edge ind le) (connect_edge ind' le)); [reflexivity|].
  intros conn e He. apply in_seq in He. unfold connect_edge. rewrite (H e) by lia.
  destruct (tet_edge e 0); [|reflexivity]. destruct (tet_edge e 1); [|reflexivity]. cbn [obind]. destruct (split_edge ind' (e + 4)) as [[|]|]; try reflexivity.
  cbn [obind]. apply ofold_ext. intros cn j _. unfold connect_facet. rewrite (H (5 - e)) by lia. reflexivity.
Qed.

(** ** The check *)
Definition le_of (r : list nat) : list nat :=
  map (fun f => match find (fun e => has 3 e f) r with Some e => e | None => 6 end) (seq 0 4).
Fixpoint nats_eqb (l l' : list nat) : bool :=
  match l, l' with [], [] => true | x :: l, y :: l' => (x =? y) && nats_eqb l l' | _, _ => false end.
Fixpoint lists_eqb (l l' : list (list nat)) : bool :=
  match l, l' with [], [] => true | x :: l, y :: l' => nats_eqb x y && lists_eqb l l' | _, _ => false end.
Lemma nats_eqb_eq l : forall l', nats_eqb l l' = true -> l = l'.
Proof. induction l as [|x l IH]; intros [|y l'] H; cbn in H; try discriminate; [reflexivity|]. apply andb_true_iff in H as (A & B). apply Nat.eqb_eq in A. f_equal; auto. Qed.
Lemma lists_eqb_eq l : forall l', lists_eqb l l' = true -> l = l'.
Proof. induction l as [|x l IH]; intros [|y l'] H; cbn in H; try discriminate; [reflexivity|]. apply andb_true_iff in H as (A & B). apply nats_eqb_eq in A. f_equal; auto. Qed.

(** One order for every choice of longest edges *)
Definition reps : list (list nat) :=
  fold_left (fun acc p => if existsb (fun r => nats_eqb (le_of r) (le_of p)) acc then acc else p :: acc) (perms (seq 0 6)) [].
Definition closedb (le : list nat) (m : list bool) : bool :=
  existsb (fun b => b) m &&
  forallb (fun f => forallb (fun e => negb (has 3 e f && nth e m false) || nth (nth f le 6) m false) (seq 0 6)) (seq 0 4).
Definition edge_no (a b : nat) : nat :=
  match find (fun e => match nth_error (ref_edges 3) e with Some (x, y) => (x =? min a b) && (y =? max a b) | None => false end) (seq 0 6) with
  | Some e => e | None => 6 end.
Definition lhalf (a b c : nat) (mac : bool) : list (list nat) :=
  if mac then [[4 + edge_no a b; c; 4 + edge_no a c]; [4 + edge_no a b; 4 + edge_no a c; a]] else [[4 + edge_no a b; c; a]].
Definition lsplit (a b c : nat) (mab mac mbc : bool) : list (list nat) :=
  if mab then lhalf a b c mac ++ lhalf b a c mbc else [[a; b; c]].
Definition facet_check (le : list nat) (m : list bool) (C : list (list nat)) (f : nat) : bool :=
  match nth_error (ref_edges 3) (nth f le 6) with
  | Some (a, b) =>
    let c := 6 - f - a - b in
    lists_eqb (canon (flat_map (facets_on 3 f) C))
              (canon (lsplit a b c (nth (nth f le 6) m false) (nth (edge_no a c) m false) (nth (edge_no b c) m false)))
  | None => false
  end.
Definition points_check (tdim : nat) (m : list bool) (c : list nat) : bool :=
  (length c =? S tdim) && forallb (fun i => (i <=? tdim) || nth (i - S tdim) m false) c.
Definition tet_check (r : list nat) (m : list bool) : bool :=
  let le := le_of r in
  if closedb le m then
    match get_tetrahedra (flags 3 m) le with
    | Some l =>
      let C := children_of 3 l in
      lists_eqb (canon (bisect 3 (fun e => nth e m false) r [seq 0 4])) (canon C) &&
      forallb (points_check 3 m) C && nats_eqb (concat C) l &&
      forallb (facet_check le m C) (seq 0 4) &&
      match compute_parent_facets 3 l with Some pf => pf_check 3 C pf | None => false end
    | None => false
    end
  else true.
Lemma all_checked : forallb (fun r => forallb (tet_check r) (bools 6)) reps = true.
Proof. vm_compute. reflexivity. Qed.
Lemma reps_complete : forallb (fun p => existsb (fun r => nats_eqb (le_of r) (le_of p)) reps) (perms (seq 0 6)) = true.
Proof. vm_compute. reflexivity. Qed.
Lemma reps_perm : forallb (fun r => nats_eqb (isort Nat.leb r) (seq 0 6)) reps = true.
Proof. vm_compute. reflexivity. Qed.
