(** The dual graph: independence of the threads, symmetry, and the errors. *)
From Verif Require Import Base Algo BaseProofs AlgoProofs Sort SortSpec Ranges World IndexMap CellTypes PostOffice DualGraph DualGraphSpec DualRows DualLocal DualGraphProofs.
Open Scope nat_scope.

Section World.
Variables (P : nat) (ts : nat -> list cell_type) (arrs : nat -> list (list Z)) (max : option nat).
Hypothesis HP : 1 < P.
Hypothesis Hin : forall q, q < P -> input_ok (ts q) (arrs q).
Hypothesis Hn : (N.of_nat (lsum (map (fun q => num_facets (ts q) (arrs q)) (seq 0 P))) < 2 ^ 63)%N.
Hypothesis Hmax : match max with None => True | Some m => shared_by_at_most P ts arrs m end.

Theorem threads_ok nbx sched tsort threads nbx' sched' tsort' threads' :
  nbx_oracle P nbx -> nbx_oracle P nbx' ->
  (forall q j l, q < P -> Permutation (sched q j l) l) -> (forall q j l, q < P -> Permutation (sched' q j l) l) ->
  (forall q, q < P -> sorts_facets (tsort q)) -> (forall q, q < P -> sorts_facets (tsort' q)) ->
  (forall q, q < P -> 0 < threads q) -> (forall q, q < P -> 0 < threads' q) ->
  forall r, r < P ->
    build_dual_graph P nbx sched tsort ts arrs max threads r = build_dual_graph P nbx' sched' tsort' ts arrs max threads' r.
Proof.
  intros Ho Ho' Hs Hs' Ht Ht' Hth Hth' r Hr.
  destruct (parallel_ok P nbx sched tsort ts arrs max threads HP Ho Hin Hs Ht Hth Hn Hmax r Hr) as (R & E & L & H).
  destruct (parallel_ok P nbx' sched' tsort' ts arrs max threads' HP Ho' Hin Hs' Ht' Hth' Hn Hmax r Hr) as (R' & E' & L' & H').
  rewrite E, E'. now rewrite (rows_unique R R' _ _ L L' H H').
Qed.

Theorem symmetric_ok nbx sched tsort threads :
  nbx_oracle P nbx ->
  (forall q j l, q < P -> Permutation (sched q j l) l) ->
  (forall q, q < P -> sorts_facets (tsort q)) ->
  (forall q, q < P -> 0 < threads q) ->
  exists rows : nat -> list (list nat),
    (forall r, r < P -> build_dual_graph P nbx sched tsort ts arrs max threads r = Some (psums (map (@length nat) (rows r)), concat (rows r))) /\
    forall r s c d row row', r < P -> s < P -> nth_error (rows r) c = Some row -> nth_error (rows s) d = Some row' ->
      (In (first_cell ts arrs s + d) row <-> In (first_cell ts arrs r + c) row').
Proof.
  intros Ho Hs Ht Hth.
  set (rows := fun r => match build_dual_graph P nbx sched tsort ts arrs max threads r with
                        | Some (o, dt) => match omap (slice_at dt o) (seq 0 (length o - 1)) with Some x => x | None => [] end | None => [] end).
  assert (H : forall r, r < P -> build_dual_graph P nbx sched tsort ts arrs max threads r = Some (psums (map (@length nat) (rows r)), concat (rows r)) /\
     forall c row, nth_error (rows r) c = Some row -> forall d, In d row <-> adjacent P ts arrs (first_cell ts arrs r + c) d).
  { intros r Hr. destruct (parallel_ok P nbx sched tsort ts arrs max threads HP Ho Hin Hs Ht Hth Hn Hmax r Hr) as (R & E & L & H).
    assert (ER : rows r = R).
    { unfold rows. rewrite E. rewrite psums_length, map_length. replace (S (length R) - 1) with (length R) by lia.
      rewrite (omap_map _ (fun c => nth c R [])); [apply nth_error_ext; intro c; destruct (Nat.lt_ge_cases c (length R)) as [Hc|Hc]; [rewrite nth_error_map_some, nth_error_seq by exact Hc; cbn [option_map plus]; symmetry; now apply nth_error_nth'|transitivity (@None (list nat)); [|symmetry]; apply nth_error_None; rewrite ?map_length, ?seq_length; lia]|]. intros c Hc. apply in_seq in Hc. apply slice_at_concat. now apply nth_error_nth'. }
    rewrite ER. split; [exact E|]. intros c row Hc. apply (H c row Hc). }
  exists rows. split; [intros r Hr; apply (H r Hr)|]. intros r s c d row row' Hr Hsp Hc Hd.
  rewrite (proj2 (H r Hr) c row Hc), (proj2 (H s Hsp) d row' Hd). split; apply adjacent_sym.
Qed.
End World.

Lemma rejects_ok sched tsort ts arrs max threads :
  threads = 0 \/ (exists a, In a arrs /\ a <> [] /\ length ts <> length arrs) ->
  build_local_dual_graph sched tsort ts arrs max threads = None.
Proof.
  intros H. unfold build_local_dual_graph. destruct (Nat.ltb_spec threads 1); [reflexivity|]. destruct H as [->|(a & Ha & Hne & Hl)]; [lia|].
  destruct (Nat.eqb_spec (lsum (map (@length Z) arrs)) 0) as [E|_].
  - exfalso. assert (G : forall l, In a l -> lsum (map (@length Z) l) <> 0).
    { clear - Hne. induction l as [|b l IH]; [intros []|]. cbn [map]. rewrite lsum_cons. intros [->|H]; [destruct a; [congruence|cbn; lia]|]. specialize (IH H). lia. }
    now apply (G arrs).
  - destruct (Nat.eqb_spec (length arrs) (length ts)); [congruence|]. reflexivity.
Qed.

(** ** Checks for concrete meshes *)
Section Check.
Variables (P : nat) (ts : nat -> list cell_type) (arrs : nat -> list (list Z)).
Definition world_occs : list ((nat * nat) * list Z) :=
  concat (map (fun r => map (fun o => ((first_cell ts arrs r + fst (fst o), snd (fst o)), snd o)) (all_occs (ts r) (arrs r))) (seq 0 P)).
Lemma world_occs_in g i vs : world_facet P ts arrs g i vs -> In ((g, i), vs) world_occs.
Proof.
  intros (r & c & Hr & -> & H). unfold world_occs. apply in_concat. eexists. split.
  - apply (in_map (fun r => map _ _)). apply in_seq. split; [lia|exact Hr].
  - cbv beta. apply in_map_iff. exists ((c, i), vs). split; [reflexivity|]. now apply occs_in.
Qed.
Definition zl_eqb (a b : list Z) : bool := if list_eq_dec Z.eq_dec a b then true else false.
Definition check_shared (m : nat) : bool :=
  forallb (fun o => length (filter (fun o' => zl_eqb (isort Z.leb (snd o)) (isort Z.leb (snd o'))) world_occs) <=? m) world_occs.
Lemma check_shared_ok m : check_shared m = true -> shared_by_at_most P ts arrs m.
Proof.
  intros C vs l Nl Hl. destruct l as [|(g, i) l']; [cbn; lia|]. destruct (Hl g i (or_introl eq_refl)) as (vs0 & H0 & S0).
  unfold check_shared in C. rewrite forallb_forall in C. specialize (C _ (world_occs_in _ _ _ H0)). apply Nat.leb_le in C. cbn [snd] in C.
  eapply Nat.le_trans; [|exact C]. etransitivity; [|apply Nat.eq_le_incl, (map_length (@fst (nat * nat) (list Z)))]. apply NoDup_incl_length; [exact Nl|]. intros (d, j) Hd. destruct (Hl d j Hd) as (vs' & H' & S').
  apply in_map_iff. exists ((d, j), vs'). split; [reflexivity|]. apply filter_In. split; [now apply world_occs_in|]. cbn [snd]. unfold zl_eqb.
  destruct (list_eq_dec Z.eq_dec _ _) as [|N]; [reflexivity|]. exfalso. apply N. apply (sorted_perm_eq _ Z.leb zleb_antisym); try apply (isort_sorted _ Z.leb zleb_total zleb_trans).
  rewrite <- !isort_perm. now rewrite <- S0, <- S'.
Qed.
End Check.

(** A sort of the facets. *)
Fixpoint lexb (a b : list Z) : bool :=
  match a, b with [], _ => true | _ :: _, [] => false | x :: a', y :: b' => ((x <? y) || ((x =? y) && lexb a' b'))%Z end.
Definition lex_sort (keys : list (list Z)) : list nat := isort (fun i j => lexb (nth i keys []) (nth j keys [])) (seq 0 (length keys)).
Lemma lexb_le a : forall b, lexb a b = true -> lex_le a b.
Proof.
  induction a as [|x a IH]; intros [|y b] H; cbn in *; [exact I|exact I|discriminate|]. apply orb_true_iff in H as [H|H]; [left; now apply Z.ltb_lt|].
  apply andb_true_iff in H as (E & H). apply Z.eqb_eq in E. right. split; [exact E|now apply IH].
Qed.
Lemma lexb_total a : forall b, lexb a b = true \/ lexb b a = true.
Proof.
  induction a as [|x a IH]; intros [|y b]; cbn; auto. destruct (Z.ltb_spec x y); [auto|]. destruct (Z.ltb_spec y x); [right; reflexivity|].
  assert (x = y) by lia. subst y. rewrite Z.eqb_refl. cbn. apply IH.
Qed.
Lemma lexb_trans a : forall b c, lexb a b = true -> lexb b c = true -> lexb a c = true.
Proof.
  induction a as [|x a IH]; intros [|y b] [|z c]; cbn; try easy. rewrite !orb_true_iff, !andb_true_iff, !Z.ltb_lt, !Z.eqb_eq. intros [H|(E & H)] [K|(F & K)].
  - left. lia.
  - left. lia.
  - left. lia.
  - right. split; [congruence|]. eapply IH; eauto.
Qed.
Lemma lex_sort_ok : sorts_facets lex_sort.
Proof.
  intro keys. split; [apply isort_perm|]. eapply SS_impl_in; [|apply (isort_sorted _ (fun i j => lexb (nth i keys []) (nth j keys [])))].
  - cbv beta. intros a b _ _. apply lexb_le.
  - intros x y. apply lexb_total.
  - intros x y z. apply lexb_trans.
Qed.
