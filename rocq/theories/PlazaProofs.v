(** The subdivision of triangles and tetrahedra. *)
From Coq Require Import Reals Lra.
From Verif Require Import Base BaseProofs Algo AlgoProofs Plaza PlazaSpec PlazaTiling PlazaBisect PlazaCheck.
Open Scope nat_scope.
Local Opaque reps.

Lemma index_flag tdim mark indices e : indices_of tdim mark indices -> e < length (ref_edges tdim) -> split_edge indices (S tdim + e) = Some (mark e).
Proof.
  intros (_ & H) He. destruct (H e He) as (x & Ex & Hx). unfold split_edge. rewrite Ex. cbn [obind]. f_equal.
  destruct (Z.leb_spec 0 x), (mark e); intuition (try lia; try discriminate). 
Qed.
Lemma mark_list (mark : nat -> bool) n e : e < n -> nth e (map mark (seq 0 n)) false = mark e.
Proof. intro H. erewrite nth_error_nth; [reflexivity|]. rewrite nth_error_map, nth_error_seq by lia. reflexivity. Qed.
Lemma bisect_ext tdim mark mark' p : (forall e, In e p -> mark e = mark' e) -> forall T, bisect tdim mark p T = bisect tdim mark' p T.
Proof.
  induction p as [|e p IH]; intros H T; [reflexivity|]. unfold bisect in *. cbn [fold_left]. rewrite (H e) by now left.
  apply IH. intros; apply H; now right.
Qed.
Lemma points_ok tdim m c : points_check tdim (map m (seq 0 (length (ref_edges tdim)))) c = true ->
  length c = S tdim /\ forall i, In i c -> i <= tdim \/ exists e, i = S tdim + e /\ e < length (ref_edges tdim) /\ m e = true.
Proof.
  unfold points_check. rewrite andb_true_iff, Nat.eqb_eq, forallb_forall. intros (L & H). split; [exact L|]. intros i Hi. specialize (H i Hi).
  apply orb_true_iff in H as [H|H]; [left; now apply Nat.leb_le|]. destruct (Nat.leb_spec i tdim) as [H'|H']; [now left|right].
  exists (i - S tdim). split; [lia|]. destruct (Nat.ltb_spec (i - S tdim) (length (ref_edges tdim))) as [Hl|Hl].
  - split; [exact Hl|]. now rewrite mark_list in H by exact Hl.
  - rewrite nth_overflow in H by (rewrite map_length, seq_length; exact Hl). discriminate.
Qed.

(** ** Tetrahedra *)
Lemma eof_has f e : edge_of_facet f e <-> has 3 e f = true.
Proof. symmetry. apply has_iff. Qed.
Lemma longest_le_of order le : longest_in order le -> le = le_of order.
Proof.
  intros (L & H). apply nth_error_ext. intro f. unfold le_of. rewrite nth_error_map.
  destruct (Nat.ltb_spec f 4) as [Hf|Hf].
  - rewrite nth_error_seq by lia. cbn [option_map]. rewrite Nat.add_0_l. destruct (nth_error le f) as [e|] eqn:E; [|apply nth_error_None in E; lia].
    destruct (H f e E) as (p & q & Eo & Ho & Hp). f_equal. rewrite Eo.
    assert (Ff : find (fun e => has 3 e f) (p ++ e :: q) = Some e); [|now rewrite Ff].
    clear - Ho Hp. induction p as [|x p IH]; cbn.
    + apply eof_has in Ho. now rewrite Ho.
    + destruct (has 3 x f) eqn:Ex; [exfalso; apply (Hp x); [now left|now apply eof_has]|]. apply IH. intros; apply Hp. now right.
  - rewrite (proj2 (nth_error_None le f)) by lia. rewrite (proj2 (nth_error_None (seq 0 4) f)) by (rewrite seq_length; lia). reflexivity.
Qed.
Lemma rep_of order le : Permutation order (seq 0 6) -> longest_in order le -> exists r, In r reps /\ le = le_of r.
Proof.
  intros HP HL. pose proof reps_complete as H. rewrite forallb_forall in H. specialize (H order (perms_in _ _ HP)).
  apply existsb_exists in H as (r & Hr & E). apply nats_eqb_eq in E. exists r. split; [exact Hr|]. rewrite E. exact (longest_le_of order le HL).
Qed.
Lemma closed_check le mark : length le = 4 -> (forall f e, nth_error le f = Some e -> e < 6) -> marks_closed le mark -> closedb le (map mark (seq 0 6)) = true.
Proof.
  intros L Hl ((e0 & He0 & M0) & H). unfold closedb. apply andb_true_iff. split.
  - apply existsb_exists. exists true. split; [|reflexivity]. rewrite <- M0. apply in_map, in_seq. lia.
  - rewrite forallb_forall. intros f Hf. apply in_seq in Hf. rewrite forallb_forall. intros e He. apply in_seq in He.
    destruct (nth_error le f) as [l|] eqn:E; [|apply nth_error_None in E; lia]. rewrite (nth_error_nth _ _ 6 E).
    rewrite !mark_list by (lia || eauto). apply orb_true_iff. destruct (has 3 e f) eqn:Eh; [|now left]. destruct (mark e) eqn:Em; [right|now left].
    exact (H f e l E (proj2 (eof_has f e) Eh) Em).
Qed.
Lemma le_bound order le f e : longest_in order le -> nth_error le f = Some e -> e < 6.
Proof.
  intros (_ & H) E. destruct (H f e E) as (_ & _ & _ & (a & b & Ee & _) & _). apply (nth_error_bound _ _ _ Ee).
Qed.

(** What the check says *)
Lemma tet_ok order le mark indices : Permutation order (seq 0 6) -> longest_in order le -> marks_closed le mark -> indices_of 3 mark indices ->
  exists l r pf, get_tetrahedra indices le = Some l /\ In r reps /\ le = le_of r /\
    canon (bisect 3 mark r [seq 0 4]) = canon (children_of 3 l) /\
    (forall c, In c (children_of 3 l) -> points_check 3 (map mark (seq 0 6)) c = true) /\ concat (children_of 3 l) = l /\
    (forall f, f < 4 -> facet_check le (map mark (seq 0 6)) (children_of 3 l) f = true) /\
    compute_parent_facets 3 l = Some pf /\ pf_check 3 (children_of 3 l) pf = true.
Proof.
  intros HP HL HM HI. destruct (rep_of order le HP HL) as (r & Hr & Er).
  pose proof all_checked as H. rewrite forallb_forall in H. specialize (H r Hr). rewrite forallb_forall in H.
  specialize (H (map mark (seq 0 6)) ltac:(apply (bools_in (map mark (seq 0 6))))). unfold tet_check in H. rewrite <- Er in H.
  rewrite (closed_check le mark (proj1 HL) (fun f e => le_bound order le f e HL) HM) in H.
  rewrite (tetrahedra_ext (flags 3 (map mark (seq 0 6))) indices) in H.
  2: { intros i Hi. rewrite (Nat.add_comm i 4). rewrite (index_flag 3 mark indices i HI Hi). apply flags_split.
       rewrite nth_error_map, nth_error_seq by lia. reflexivity. }
  destruct (get_tetrahedra indices le) as [l|]; [|discriminate]. cbv zeta in H.
  apply andb_true_iff in H as (H & H5). apply andb_true_iff in H as (H & H4). apply andb_true_iff in H as (H & H3). apply andb_true_iff in H as (H1 & H2).
  destruct (compute_parent_facets 3 l) as [pf|] eqn:Epf; [|discriminate].
  exists l, r, pf. split; [reflexivity|]. split; [exact Hr|]. split; [exact Er|]. split; [|split; [|split; [|split; [|split; [exact Epf|exact H5]]]]].
  - apply lists_eqb_eq in H1. rewrite <- H1. f_equal. apply bisect_ext. intros e He.
    pose proof reps_perm as Hp. rewrite forallb_forall in Hp. specialize (Hp r Hr). apply nats_eqb_eq in Hp.
    assert (Hin : In e (seq 0 6)) by (rewrite <- Hp; eapply Permutation_in; [apply isort_perm'|exact He]). apply in_seq in Hin.
    now rewrite mark_list by lia.
  - rewrite forallb_forall in H2. exact H2.
  - now apply nats_eqb_eq.
  - rewrite forallb_forall in H4. intros f Hf. apply H4, in_seq. lia.
Qed.
Lemma reps_order r : In r reps -> NoDup r /\ forall e, In e r -> e < 6.
Proof.
  intro Hr. pose proof reps_perm as Hp. rewrite forallb_forall in Hp. specialize (Hp r Hr). apply nats_eqb_eq in Hp.
  assert (P : Permutation r (seq 0 6)) by (rewrite <- Hp; apply isort_perm'). split.
  - eapply Permutation_NoDup; [symmetry; exact P|apply seq_NoDup].
  - intros e He. apply (Permutation_in _ P), in_seq in He. lia.
Qed.

Lemma tetrahedra_statement order le mark indices :
  Permutation order (seq 0 6) -> longest_in order le -> marks_closed le mark -> indices_of 3 mark indices ->
  exists l pf, get_tetrahedra indices le = Some l /\ concat (children_of 3 l) = l /\ subdivides 3 mark (children_of 3 l) /\
    compute_parent_facets 3 l = Some pf /\ parent_facets 3 (children_of 3 l) pf.
Proof.
  intros HP HL HM HI. destruct (tet_ok order le mark indices HP HL HM HI) as (l & r & pf & El & Hr & Er & Hc & Hp & Hcc & _ & Epf & Hpf).
  destruct (reps_order r Hr) as (Hn & Hb). exists l, pf. split; [exact El|]. split; [exact Hcc|]. split; [|split; [exact Epf|now apply pf_check_ok]].
  split.
  - intros c Hcin. destruct (points_ok 3 mark c (Hp c Hcin)) as (A & B). split; [exact A|]. split; [|exact B].
    destruct (bisect_children 3 (fun _ _ => 0%R) mark r (children_of 3 l) (or_intror eq_refl) Hn Hb Hc) as (_ & N & _). now apply N.
  - intro X. apply (bisect_children 3 X mark r (children_of 3 l) (or_intror eq_refl) Hn Hb Hc).
  - intro X. apply (bisect_children 3 X mark r (children_of 3 l) (or_intror eq_refl) Hn Hb Hc).
Qed.

(** ** Facets of tetrahedra *)
Lemma edge_no_of a c e : nth_error (ref_edges 3) e = Some (min a c, max a c) -> edge_no a c = e /\ edge_no c a = e.
Proof.
  intro H. repeat (destruct e as [|e]; [injection H as H1 H2;
    first [assert (a = 2 /\ c = 3 \/ a = 3 /\ c = 2) as [(-> & ->)|(-> & ->)] by lia; split; reflexivity
          |assert (a = 1 /\ c = 3 \/ a = 3 /\ c = 1) as [(-> & ->)|(-> & ->)] by lia; split; reflexivity
          |assert (a = 1 /\ c = 2 \/ a = 2 /\ c = 1) as [(-> & ->)|(-> & ->)] by lia; split; reflexivity
          |assert (a = 0 /\ c = 3 \/ a = 3 /\ c = 0) as [(-> & ->)|(-> & ->)] by lia; split; reflexivity
          |assert (a = 0 /\ c = 2 \/ a = 2 /\ c = 0) as [(-> & ->)|(-> & ->)] by lia; split; reflexivity
          |assert (a = 0 /\ c = 1 \/ a = 1 /\ c = 0) as [(-> & ->)|(-> & ->)] by lia; split; reflexivity]|]).
  destruct e; discriminate.
Qed.
Lemma edge_no_at a c : a <= 3 -> c <= 3 -> a <> c -> nth_error (ref_edges 3) (edge_no a c) = Some (min a c, max a c).
Proof.
  intros Ha Hc Hn. do 4 (destruct a as [|a]; [do 4 (destruct c as [|c]; [first [lia|reflexivity]|]); lia|]). lia.
Qed.
Lemma name_corner V i : i <= 3 -> name 3 V i = mid (V i) (V i).
Proof. intro H. unfold name. destruct (Nat.leb_spec i 3); [reflexivity|lia]. Qed.
Lemma mid_comm a b : mid a b = mid b a.
Proof. unfold mid. f_equal; lia. Qed.
Lemma name_edge V a c : a <= 3 -> c <= 3 -> a <> c -> name 3 V (4 + edge_no a c) = mid (V a) (V c).
Proof.
  intros Ha Hc Hn. unfold name. destruct (Nat.leb_spec (4 + edge_no a c) 3); [lia|]. replace (4 + edge_no a c - 4) with (edge_no a c) by lia.
  rewrite edge_no_at by assumption. destruct (Nat.le_ge_cases a c) as [H'|H'].
  - now rewrite Nat.min_l, Nat.max_r by lia.
  - rewrite Nat.min_r, Nat.max_l by lia. apply mid_comm.
Qed.
Lemma lhalf_names V a b c m : a <= 3 -> b <= 3 -> c <= 3 -> a <> b -> a <> c -> b <> c ->
  map (map (name 3 V)) (lhalf a b c m) = split_half (V a) (V b) (V c) m.
Proof.
  intros. unfold lhalf, split_half. destruct m; cbn [map]; rewrite ?name_edge, ?name_corner by assumption; reflexivity.
Qed.
Lemma lsplit_names V a b c m1 m2 m3 : a <= 3 -> b <= 3 -> c <= 3 -> a <> b -> a <> c -> b <> c ->
  map (map (name 3 V)) (lsplit a b c m1 m2 m3) = split_facet (V a) (V b) (V c) m1 m2 m3.
Proof.
  intros. unfold lsplit, split_facet. destruct m1.
  - rewrite map_app, !lhalf_names by auto. reflexivity.
  - cbn [map]. rewrite !name_corner by assumption. reflexivity.
Qed.

Lemma facet_statement order le mark indices V l f e a b c eac ebc :
  Permutation order (seq 0 6) -> longest_in order le -> marks_closed le mark -> indices_of 3 mark indices ->
  get_tetrahedra indices le = Some l ->
  nth_error le f = Some e -> nth_error (ref_edges 3) e = Some (a, b) ->
  c <= 3 -> c <> f -> c <> a -> c <> b ->
  nth_error (ref_edges 3) eac = Some (min a c, max a c) -> nth_error (ref_edges 3) ebc = Some (min b c, max b c) ->
  forall T, piece 3 V (children_of 3 l) f T <->
    exists t, In t (split_facet (V a) (V b) (V c) (mark e) (mark eac) (mark ebc)) /\ same_elements t T.
Proof.
  intros HP HL HM HI El Ef Ee Hc Hcf Hca Hcb Eac Ebc T.
  destruct (tet_ok order le mark indices HP HL HM HI) as (l' & r & pf & El' & _ & _ & _ & _ & _ & Hf & _). assert (l' = l) as -> by congruence.
  assert (Hf4 : f < 4) by (rewrite <- (proj1 HL); apply (nth_error_bound _ _ _ Ef)). specialize (Hf f Hf4).
  destruct (proj2 HL f e Ef) as (_ & _ & _ & (a' & b' & Ee' & Haf & Hbf) & _). assert (a' = a /\ b' = b) as (-> & ->) by (rewrite Ee in Ee'; injection Ee'; auto).
  destruct (ends 3 (or_intror eq_refl) e a b Ee) as (Ha & Hb & Hab).
  unfold facet_check in Hf. rewrite (nth_error_nth _ _ 6 Ef), Ee in Hf. cbv zeta in Hf.
  replace (6 - f - a - b) with c in Hf by lia.
  rewrite (proj1 (edge_no_of a c eac Eac)), (proj1 (edge_no_of b c ebc Ebc)) in Hf.
  rewrite !mark_list in Hf by (apply (nth_error_bound _ _ _ Ee) || apply (nth_error_bound _ _ _ Eac) || apply (nth_error_bound _ _ _ Ebc)).
  apply lists_eqb_eq in Hf. rewrite (pieces_iff 3 V _ f _ T Hf).
  rewrite <- lsplit_names by auto. split.
  - intros (t & Ht & Hs). exists (map (name 3 V) t). split; [now apply in_map|exact Hs].
  - intros (t & Ht & Hs). apply in_map_iff in Ht as (t' & <- & Ht). eauto.
Qed.

(** ** Two cells with a common facet *)
Lemma split_facet_sym a b c m1 m2 m3 T : (exists t, In t (split_facet a b c m1 m2 m3) /\ same_elements t T) ->
  exists t, In t (split_facet b a c m1 m3 m2) /\ same_elements t T.
Proof.
  intros (t & Ht & Hs). unfold split_facet in *. destruct m1.
  - exists t. split; [|exact Hs]. apply in_app_iff in Ht. apply in_app_iff. tauto.
  - destruct Ht as [<-|[]]. eexists. split; [now left|]. eapply same_perm; [apply perm_swap|exact Hs].
Qed.
Lemma mid_eq a b c d : mid a b = mid c d -> a = c /\ b = d \/ a = d /\ b = c.
Proof. unfold mid. intro H. injection H. lia. Qed.
Lemma third f a b : f <= 3 -> a <= 3 -> b <= 3 -> a <> b -> a <> f -> b <> f -> exists c, c <= 3 /\ c <> f /\ c <> a /\ c <> b.
Proof. intros. exists (6 - f - a - b). lia. Qed.
Lemma edge_name V e a b : nth_error (ref_edges 3) e = Some (a, b) -> name 3 V (4 + e) = mid (V a) (V b).
Proof. intro H. unfold name. destruct (Nat.leb_spec (4 + e) 3); [lia|]. replace (4 + e - 4) with e by lia. now rewrite H. Qed.

Lemma four f a b c i : f <= 3 -> a <= 3 -> b <= 3 -> c <= 3 -> i <= 3 -> a <> b -> a <> f -> b <> f -> c <> f -> c <> a -> c <> b -> i <> f ->
  i = c \/ i = a \/ i = b.
Proof. lia. Qed.
Lemma eof_at f x c : x <= 3 -> c <= 3 -> x <> c -> x <> f -> c <> f -> edge_of_facet f (edge_no x c).
Proof. intros Hx Hc Hxc Hxf Hcf. exists (min x c), (max x c). split; [now apply edge_no_at|]. lia. Qed.

Section Neighbours.
Variables (order order' le le' : list nat) (mark mark' : nat -> bool) (indices indices' : list Z) (V V' : nat -> nat) (l l' : list nat) (f f' e e' : nat).
Hypothesis HP : Permutation order (seq 0 6).
Hypothesis HL : longest_in order le.
Hypothesis HM : marks_closed le mark.
Hypothesis HI : indices_of 3 mark indices.
Hypothesis El : get_tetrahedra indices le = Some l.
Hypothesis HP' : Permutation order' (seq 0 6).
Hypothesis HL' : longest_in order' le'.
Hypothesis HM' : marks_closed le' mark'.
Hypothesis HI' : indices_of 3 mark' indices'.
Hypothesis El' : get_tetrahedra indices' le' = Some l'.
Hypothesis Vinj : forall i j, i <= 3 -> j <= 3 -> V i = V j -> i = j.
Hypothesis Hvert : forall v, (exists i, i <= 3 /\ i <> f /\ V i = v) <-> (exists i, i <= 3 /\ i <> f' /\ V' i = v).
Hypothesis Ef : nth_error le f = Some e.
Hypothesis Ef' : nth_error le' f' = Some e'.
Hypothesis Hlong : name 3 V (4 + e) = name 3 V' (4 + e').
Hypothesis Hmark : forall d d', edge_of_facet f d -> edge_of_facet f' d' -> name 3 V (4 + d) = name 3 V' (4 + d') -> mark d = mark' d'.
Lemma neighbours_statement T : piece 3 V (children_of 3 l) f T <-> piece 3 V' (children_of 3 l') f' T.
Proof.
  assert (Hf : f <= 3) by (pose proof (nth_error_bound _ _ _ Ef); rewrite (proj1 HL) in *; lia).
  assert (Hf' : f' <= 3) by (pose proof (nth_error_bound _ _ _ Ef'); rewrite (proj1 HL') in *; lia).
  destruct (proj2 HL f e Ef) as (_ & _ & _ & Hef & _). destruct (proj2 HL' f' e' Ef') as (_ & _ & _ & Hef' & _).
  pose proof Hef as (a & b & Ee & Haf & Hbf). pose proof Hef' as (a' & b' & Ee' & Haf' & Hbf').
  destruct (ends 3 (or_intror eq_refl) e a b Ee) as (Ha & Hb & Hab). destruct (ends 3 (or_intror eq_refl) e' a' b' Ee') as (Ha' & Hb' & Hab').
  destruct (third f a b Hf Ha Hb Hab Haf Hbf) as (c & Hc & Hcf & Hca & Hcb). destruct (third f' a' b' Hf' Ha' Hb' Hab' Haf' Hbf') as (c' & Hc' & Hcf' & Hca' & Hcb').
  pose proof (edge_no_at a c Ha Hc ltac:(auto)) as Eac. pose proof (edge_no_at b c Hb Hc ltac:(auto)) as Ebc.
  pose proof (edge_no_at a' c' Ha' Hc' ltac:(auto)) as Eac'. pose proof (edge_no_at b' c' Hb' Hc' ltac:(auto)) as Ebc'.
  rewrite (facet_statement order le mark indices V l f e a b c _ _ HP HL HM HI El Ef Ee Hc Hcf Hca Hcb Eac Ebc T).
  rewrite (facet_statement order' le' mark' indices' V' l' f' e' a' b' c' _ _ HP' HL' HM' HI' El' Ef' Ee' Hc' Hcf' Hca' Hcb' Eac' Ebc' T).
  pose proof (Hmark e e' Hef Hef' Hlong) as Me. pose proof Hlong as Hn. rewrite (edge_name V e a b Ee), (edge_name V' e' a' b' Ee') in Hn.
  (* the third vertex *)
  assert (Vc : V c = V' c').
  { destruct (proj1 (Hvert (V c))) as (i & Hi & Hif & Ei); [eauto|].
    pose proof (four f' a' b' c' i Hf' Ha' Hb' Hc' Hi Hab' Haf' Hbf' Hcf' Hca' Hcb' Hif) as Hi'. destruct Hi' as [-> |Hi']; [congruence|].
    assert (Hx : V c = V a \/ V c = V b) by (apply mid_eq in Hn; destruct Hi' as [-> | ->]; intuition congruence).
    destruct Hx as [Hx|Hx]; apply Vinj in Hx; auto; congruence. }
  assert (Mx : forall x x', x <= 3 -> x' <= 3 -> x <> c -> x' <> c' -> x <> f -> x' <> f' -> V x = V' x' -> mark (edge_no x c) = mark' (edge_no x' c')).
  { intros x x' Hx Hx' Hxc Hxc' Hxf Hxf' E. apply Hmark; [now apply eof_at|now apply eof_at|]. rewrite !name_edge by auto. congruence. }
  apply mid_eq in Hn as [(E1 & E2)|(E1 & E2)].
  - rewrite (Mx a a'), (Mx b b'), Me, E1, E2, Vc by auto. reflexivity.
  - rewrite (Mx a b'), (Mx b a'), Me, E1, E2, Vc by auto. split; apply split_facet_sym.
Qed.
End Neighbours.

(** ** Triangles *)
Definition side_check (m : list bool) (C : list (list nat)) (f : nat) : bool :=
  match nth_error (ref_edges 2) f with
  | Some (a, b) => lists_eqb (canon (flat_map (facets_on 2 f) C)) (canon (if nth f m false then [[a; 3 + f]; [b; 3 + f]] else [[a; b]]))
  | None => false
  end.
Definition tri_check (le : nat) (uniform : bool) (m : list bool) : bool :=
  if nth le m false then
    match get_triangles (flags 2 m) le uniform with
    | Some l =>
      let C := children_of 2 l in
      lists_eqb (canon (if uniform && forallb (fun b => b) m then [[0; 4; 5]; [1; 3; 5]; [2; 3; 4]; [3; 4; 5]]
                        else bisect 2 (fun e => nth e m false) [le; (le + 1) mod 3; (le + 2) mod 3] [seq 0 3])) (canon C) &&
      forallb (points_check 2 m) C && nats_eqb (concat C) l &&
      forallb (side_check m C) (seq 0 3) &&
      match compute_parent_facets 2 l with Some pf => pf_check 2 C pf | None => false end
    | None => false
    end
  else true.
Lemma tri_checked : forallb (fun le => forallb (fun u => forallb (tri_check le u) (bools 3)) [true; false]) (seq 0 3) = true.
Proof. vm_compute. reflexivity. Qed.
Lemma triangles_ext ind ind' le u : le < 3 -> (forall i, i < 3 -> split_edge ind (3 + i) = split_edge ind' (3 + i)) -> get_triangles ind le u = get_triangles ind' le u.
Proof.
  intros Hl H. pose proof (H 0 ltac:(lia)) as H0. pose proof (H 1 ltac:(lia)) as H1. pose proof (H 2 ltac:(lia)) as H2. cbn [Nat.add] in H0, H1, H2.
  do 3 (destruct le as [|le]; [unfold get_triangles; cbn [Nat.add Nat.modulo Nat.divmod fst snd Nat.sub]; rewrite H0, H1, H2; reflexivity|]). lia.
Qed.
Lemma tri_ok le u mark indices : le < 3 -> mark le = true -> indices_of 2 mark indices ->
  exists l pf, get_triangles indices le u = Some l /\
    (canon [[0; 4; 5]; [1; 3; 5]; [2; 3; 4]; [3; 4; 5]] = canon (children_of 2 l) \/
     exists p, NoDup p /\ (forall e, In e p -> e < 3) /\ canon (bisect 2 mark p [seq 0 3]) = canon (children_of 2 l)) /\
    (forall c, In c (children_of 2 l) -> points_check 2 (map mark (seq 0 3)) c = true) /\ concat (children_of 2 l) = l /\
    (forall f, f < 3 -> side_check (map mark (seq 0 3)) (children_of 2 l) f = true) /\
    compute_parent_facets 2 l = Some pf /\ pf_check 2 (children_of 2 l) pf = true.
Proof.
  intros Hl Hm HI. pose proof tri_checked as H. rewrite forallb_forall in H. specialize (H le ltac:(apply in_seq; lia)).
  rewrite forallb_forall in H. specialize (H u ltac:(destruct u; cbn; auto)). rewrite forallb_forall in H.
  specialize (H (map mark (seq 0 3)) ltac:(apply (bools_in (map mark (seq 0 3))))). unfold tri_check in H. rewrite mark_list, Hm in H by exact Hl.
  rewrite (triangles_ext (flags 2 (map mark (seq 0 3))) indices) in H; [|exact Hl|].
  2: { intros i Hi. rewrite (index_flag 2 mark indices i HI Hi). apply flags_split. rewrite nth_error_map, nth_error_seq by lia. reflexivity. }
  destruct (get_triangles indices le u) as [l|]; [|discriminate]. cbv zeta in H.
  apply andb_true_iff in H as (H & H5). apply andb_true_iff in H as (H & H4). apply andb_true_iff in H as (H & H3). apply andb_true_iff in H as (H1 & H2).
  destruct (compute_parent_facets 2 l) as [pf|] eqn:Epf; [|discriminate].
  exists l, pf. split; [reflexivity|]. split; [|split; [|split; [|split; [|split; [exact Epf|exact H5]]]]].
  - apply lists_eqb_eq in H1. destruct (u && forallb (fun b => b) (map mark (seq 0 3))); [now left|right].
    exists [le; (le + 1) mod 3; (le + 2) mod 3]. 
    assert (Hb : forall e, In e [le; (le + 1) mod 3; (le + 2) mod 3] -> e < 3).
    { intros e [<-|[<-|[<-|[]]]]; [exact Hl| |]; apply Nat.mod_upper_bound; lia. }
    split; [|split; [exact Hb|]].
    + do 3 (destruct le as [|le]; [repeat first [apply NoDup_nil | apply NoDup_cons; [cbn; lia|]]|]). lia.
    + rewrite <- H1. f_equal. apply bisect_ext. intros e He. now rewrite mark_list by auto.
  - rewrite forallb_forall in H2. exact H2.
  - now apply nats_eqb_eq.
  - rewrite forallb_forall in H4. intros f Hf. apply H4, in_seq. lia.
Qed.
Lemma triangles_statement le u mark indices : le < 3 -> mark le = true -> indices_of 2 mark indices ->
  exists l pf, get_triangles indices le u = Some l /\ concat (children_of 2 l) = l /\ subdivides 2 mark (children_of 2 l) /\
    compute_parent_facets 2 l = Some pf /\ parent_facets 2 (children_of 2 l) pf.
Proof.
  intros Hl Hm HI. destruct (tri_ok le u mark indices Hl Hm HI) as (l & pf & El & Hc & Hp & Hcc & _ & Epf & Hpf).
  assert (G : forall X, tiles (map (map (place 2 X)) (children_of 2 l)) (map X (seq 0 3)) /\ (forall t, In t (children_of 2 l) -> NoDup t) /\
     rsum (map area2 (map (map (place 2 X)) (children_of 2 l))) = area2 (map X (seq 0 3))).
  { intro X. destruct Hc as [Hc|(p & Hn & Hb & Hc)]; [exact (red_children 2 X (children_of 2 l) eq_refl Hc)|].
    destruct (bisect_children 2 X mark p (children_of 2 l) (or_introl eq_refl) Hn Hb Hc) as (A & B & _ & D). split; [exact A|]. split; [exact B|exact D]. }
  exists l, pf. split; [exact El|]. split; [exact Hcc|]. split; [|split; [exact Epf|now apply pf_check_ok]]. split.
  - intros c Hcin. destruct (points_ok 2 mark c (Hp c Hcin)) as (A & B). split; [exact A|]. split; [|exact B]. now apply (G (fun _ _ => 0%R)).
  - intro X. apply G.
  - intro X. apply G.
Qed.
Lemma side_statement le u mark indices V l f a b : le < 3 -> mark le = true -> indices_of 2 mark indices ->
  get_triangles indices le u = Some l -> nth_error (ref_edges 2) f = Some (a, b) ->
  forall T, piece 2 V (children_of 2 l) f T <-> exists t, In t (split_side (V a) (V b) (mark f)) /\ same_elements t T.
Proof.
  intros Hl Hm HI El Ef T. destruct (tri_ok le u mark indices Hl Hm HI) as (l' & pf & El' & _ & _ & _ & Hf & _). assert (l' = l) as -> by congruence.
  assert (Hf3 : f < 3) by apply (nth_error_bound _ _ _ Ef). specialize (Hf f Hf3). unfold side_check in Hf. rewrite Ef, mark_list in Hf by exact Hf3.
  apply lists_eqb_eq in Hf. rewrite (pieces_iff 2 V _ f _ T Hf).
  assert (E : forall m : bool, map (map (name 2 V)) (if m then [[a; 3 + f]; [b; 3 + f]] else [[a; b]]) = split_side (V a) (V b) m).
  { intro m. destruct f as [|[|[|f]]]; try lia; injection Ef as <- <-; destruct m; reflexivity. }
  rewrite <- E. split.
  - intros (t & Ht & Hs). exists (map (name 2 V) t). split; [now apply in_map|exact Hs].
  - intros (t & Ht & Hs). apply in_map_iff in Ht as (t' & <- & Ht). eauto.
Qed.
