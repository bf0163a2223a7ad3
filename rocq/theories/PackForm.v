(** Proofs about the packing of all coefficients of a form. *)
From Verif Require Import Base BaseProofs Algo AlgoProofs BucketProofs MatrixCSR MatrixProofs Assemble AssembleSpec AsmVector AsmMatrix FormData Pack PackSpec PackProofs.
Open Scope nat_scope.

Section Lists.
Lemma find_unique {X} (f : X -> nat) l x : NoDup (map f l) -> In x l -> find (fun e => f e =? f x) l = Some x.
Proof.
  induction l as [|y l IH]; intros Hn Hx; [destruct Hx|]. cbn [map] in Hn. apply NoDup_cons_iff in Hn as (N1 & N2). cbn [find]. destruct Hx as [->|Hx]; [now rewrite Nat.eqb_refl|].
  destruct (Nat.eqb_spec (f y) (f x)) as [E|_]; [|now apply IH]. exfalso. apply N1. rewrite E. now apply in_map.
Qed.
Lemma filter_unique {X} (f : X -> nat) l x : NoDup (map f l) -> In x l -> filter (fun e => f e =? f x) l = [x].
Proof.
  induction l as [|y l IH]; intros Hn Hx; [destruct Hx|]. cbn [map] in Hn. apply NoDup_cons_iff in Hn as (N1 & N2). cbn [filter]. destruct Hx as [->|Hx].
  - rewrite Nat.eqb_refl. f_equal. apply filter_none. intros z Hz. apply Nat.eqb_neq. intro E. apply N1. rewrite <- E. now apply in_map.
  - destruct (Nat.eqb_spec (f y) (f x)) as [E|_]; [|now apply IH]. exfalso. apply N1. rewrite E. now apply in_map.
Qed.
Lemma nth_error_enum {A} (l : list A) k : nth_error (enum l) k = option_map (fun u => (k, u)) (nth_error l k).
Proof.
  destruct (nth_error l k) as [u|] eqn:E; cbn [option_map].
  - unfold enum. apply nth_error_combine2. split; [|exact E]. apply (nth_error_seq 0). eapply nth_error_bound; eauto.
  - apply nth_error_None. rewrite enum_len. now apply nth_error_None.
Qed.
Lemma map_snd_enum {A B} (f : A -> B) (l : list A) : map (fun p => f (snd p)) (enum l) = map f l.
Proof. apply nth_error_ext. intro k. rewrite !nth_error_map, nth_error_enum. destruct (nth_error l k); reflexivity. Qed.
(** Two entries for each item. *)
Lemma nth_error_pairs {A B} (f g : A -> B) l k : nth_error (concat (map (fun x => [f x; g x]) l)) (2 * k) = option_map f (nth_error l k) /\ nth_error (concat (map (fun x => [f x; g x]) l)) (2 * k + 1) = option_map g (nth_error l k).
Proof.
  revert k. induction l as [|x l IH]; intro k; cbn [map concat app].
  - split; [destruct (2 * k), k; reflexivity|destruct (2 * k + 1), k; reflexivity].
  - destruct k as [|k]; [split; reflexivity|]. destruct (IH k) as (I1 & I2). replace (2 * S k) with (S (S (2 * k))) by lia. replace (S (S (2 * k)) + 1) with (S (S (2 * k + 1))) by lia. cbn [nth_error]. split; assumption.
Qed.
Lemma lsum_pairs {A} (f : A -> nat) l k : lsum (firstn (2 * k) (concat (map (fun x => [f x; f x]) l))) = 2 * lsum (firstn k (map f l)).
Proof.
  revert k. induction l as [|x l IH]; intro k; cbn [map concat app]; [now rewrite !firstn_nil|]. destruct k as [|k]; [reflexivity|]. replace (2 * S k) with (S (S (2 * k))) by lia. cbn [firstn]. rewrite !lsum_cons, IH. lia.
Qed.
Lemma lsum_pairs_all {A} (f : A -> nat) l : lsum (concat (map (fun x => [f x; f x]) l)) = 2 * lsum (map f l).
Proof. induction l as [|x l IH]; cbn [map concat app]; [reflexivity|]. rewrite !lsum_cons, IH. lia. Qed.
End Lists.

Section Forms.
Context {T : Type}.
Variable zero : T.
Variable us : list (func T).
Hypothesis Hus : forall u, In u us -> func_ok u.
Let coefs := map Some us.
Let st := stride us.
Let dims := map (@fn_dim T) us.

Lemma offsets_ok : coefficient_offsets coefs = Some (psums dims).
Proof.
  unfold coefs, dims, coefficient_offsets. clear Hus. generalize us as l. intro l. induction l as [|u l IH] using rev_ind; [reflexivity|].
  rewrite !map_app, ofold_app, IH. cbn [obind map ofold]. rewrite psums_snoc. do 3 f_equal.
  induction (map (@fn_dim T) l) as [|d m _] using rev_ind; [reflexivity|]. rewrite psums_snoc, last_last, lsum_app, lsum_cons, lsum_nil. lia.
Qed.
Lemma offsets_nth k : k <= length us -> nth_error (psums dims) k = Some (lsum (firstn k dims)).
Proof. intro H. apply psums_nth. unfold dims. now rewrite map_length. Qed.
Lemma offsets_last : last (psums dims) 0 = st.
Proof. unfold st, stride. fold dims. induction dims as [|d m _] using rev_ind; [reflexivity|]. rewrite psums_snoc, last_last, lsum_app, lsum_cons, lsum_nil. lia. Qed.
Lemma get_coef k u : nth_error us k = Some u -> get_coefficient coefs k = Some u.
Proof. intro H. unfold get_coefficient, coefs. rewrite nth_error_map, H. reflexivity. Qed.

Section Integral.
Variables (i num : nat) (active : list nat).

(** ** One side *)
Section One.
Variable cells : nat -> list (option nat).
Hypothesis Hact : forall k, In k active -> exists u, nth_error us k = Some u /\ cells_of u num (cells k).
Definition jobs1 : list (@job T) := concat (map (fun k => match nth_error us k with Some u => [mkJob u (cells k) (lsum (firstn k dims))] | None => [] end) active).
Definition fields1 : list (@field T) := map (fun '(k, u) => mkField u (mem k active) (cells k)) (enum us).
Lemma fdims1 : fdims fields1 = dims.
Proof. unfold fdims, fields1, dims. rewrite map_map. rewrite <- (map_snd_enum (@fn_dim T) us). apply map_ext. intros (k, u). reflexivity. Qed.
Lemma nth_fields1 k : nth_error fields1 k = option_map (fun u => mkField u (mem k active) (cells k)) (nth_error us k).
Proof. unfold fields1. rewrite nth_error_map, nth_error_enum. destruct (nth_error us k); reflexivity. Qed.
Lemma frow1 e : frow zero fields1 e = packed_row zero us active cells e.
Proof. unfold frow, fields1, packed_row. rewrite map_map. f_equal. apply map_ext. intros (k, u). reflexivity. Qed.
Lemma run1 : run st jobs1 (repeat zero (num * st)) = Some (concat (map (packed_row zero us active cells) (seq 0 num))).
Proof.
  assert (Es : st = lsum (fdims fields1)) by (rewrite fdims1; reflexivity). rewrite Es.
  rewrite (fields_ok zero num fields1 jobs1).
  - do 2 f_equal. apply map_ext. exact frow1.
  - intros f Hf On. apply In_nth_error in Hf as (k & Ek). rewrite nth_fields1 in Ek. destruct (nth_error us k) as [u|] eqn:Eu; [|discriminate]. injection Ek as <-. cbn [fd_on fd_u fd_cells] in *.
    apply mem_iff in On. destruct (Hact k On) as (u' & Eu' & H). rewrite Eu in Eu'. injection Eu' as <-. split; [apply Hus; eapply nth_error_In; eauto|exact H].
  - intros j Hj. unfold jobs1 in Hj. apply in_concat in Hj as (l & Hl & Hj). apply in_map_iff in Hl as (k & <- & Hk). destruct (nth_error us k) as [u|] eqn:Eu; [|destruct Hj]. destruct Hj as [<-|[]].
    exists k. exists (mkField u (mem k active) (cells k)). rewrite nth_fields1, Eu, fdims1. split; [reflexivity|]. split; [cbn [fd_on]; now apply mem_iff|reflexivity].
  - intros k f Ek On. rewrite nth_fields1 in Ek. destruct (nth_error us k) as [u|] eqn:Eu; [|discriminate]. injection Ek as <-. cbn [fd_on] in On. exists (mkJob u (cells k) (lsum (firstn k dims))). split.
    + unfold jobs1. apply in_concat. exists [mkJob u (cells k) (lsum (firstn k dims))]. split; [|now left]. apply in_map_iff. exists k. rewrite Eu. split; [reflexivity|now apply mem_iff].
    + exists (mkField u (mem k active) (cells k)). rewrite nth_fields1, Eu, fdims1. split; [reflexivity|]. split; [exact On|reflexivity].
Qed.
Lemma loop1 (step : list T -> nat -> option (list T)) (Hstep : forall c k u, In k active -> nth_error us k = Some u -> step c k = pack_coefficient_entity c st u (cells k) (lsum (firstn k dims))) c :
  ofold step active c = run st jobs1 c.
Proof.
  unfold jobs1. assert (G : forall l c, (forall k, In k l -> In k active) -> ofold step l c = run st (concat (map (fun k => match nth_error us k with Some u => [mkJob u (cells k) (lsum (firstn k dims))] | None => [] end) l)) c); [|now apply G].
  induction l as [|k l IH]; intros c' Hl; [reflexivity|]. cbn [ofold map concat]. destruct (Hact k (Hl k (or_introl eq_refl))) as (u & Eu & _). rewrite Eu. cbn [app]. unfold run. cbn [ofold jb_u jb_cells jb_off].
  rewrite (Hstep c' k u (Hl k (or_introl eq_refl)) Eu). destruct (pack_coefficient_entity _ _ _ _ _) as [c2|]; cbn [obind]; [|reflexivity]. apply IH. intros k' H. apply Hl. now right.
Qed.
End One.

(** ** Two sides *)
Section Two.
Variable cells : nat -> list (option nat * option nat).
Hypothesis Hact : forall k, In k active -> exists u, nth_error us k = Some u /\ pairs_of u num (cells k).
Definition jobs2 : list (@job T) := concat (map (fun k => match nth_error us k with
  | Some u => [mkJob u (map fst (cells k)) (2 * lsum (firstn k dims)); mkJob u (map snd (cells k)) (lsum (firstn k dims) + lsum (firstn (k + 1) dims))] | None => [] end) active).
Definition fields2 : list (@field T) := concat (map (fun ku => [mkField (snd ku) (mem (fst ku) active) (map fst (cells (fst ku))); mkField (snd ku) (mem (fst ku) active) (map snd (cells (fst ku)))]) (enum us)).
Lemma fdims2 : fdims fields2 = concat (map (fun ku => [fn_dim (snd ku); fn_dim (snd ku)]) (enum us)).
Proof. unfold fdims, fields2. rewrite concat_map, map_map. reflexivity. Qed.
Lemma fdims2_all : lsum (fdims fields2) = 2 * st.
Proof. rewrite fdims2, (lsum_pairs_all (fun ku => fn_dim (snd ku))). unfold st, stride. now rewrite (map_snd_enum (@fn_dim T)). Qed.
Lemma fdims2_even k : lsum (firstn (2 * k) (fdims fields2)) = 2 * lsum (firstn k dims).
Proof. rewrite fdims2, (lsum_pairs (fun ku => fn_dim (snd ku))). now rewrite (map_snd_enum (@fn_dim T)). Qed.
Lemma nth_fields2 k u : nth_error us k = Some u -> nth_error fields2 (2 * k) = Some (mkField u (mem k active) (map fst (cells k))) /\ nth_error fields2 (2 * k + 1) = Some (mkField u (mem k active) (map snd (cells k))).
Proof.
  intro E. unfold fields2. pose proof (nth_error_pairs (fun ku : nat * func T => mkField (snd ku) (mem (fst ku) active) (map fst (cells (fst ku)))) (fun ku => mkField (snd ku) (mem (fst ku) active) (map snd (cells (fst ku)))) (enum us) k) as (A & B).
  rewrite nth_error_enum, E in A, B. split; assumption.
Qed.
Lemma fdims2_odd k u : nth_error us k = Some u -> lsum (firstn (2 * k + 1) (fdims fields2)) = lsum (firstn k dims) + lsum (firstn (k + 1) dims).
Proof.
  intro E. destruct (nth_fields2 k u E) as (A & _). assert (D : nth_error (fdims fields2) (2 * k) = Some (fn_dim u)) by (unfold fdims; rewrite nth_error_map, A; reflexivity).
  rewrite Nat.add_1_r, (lsum_firstn_S _ _ _ D), fdims2_even. assert (D' : nth_error dims k = Some (fn_dim u)) by (unfold dims; rewrite nth_error_map, E; reflexivity). rewrite Nat.add_1_r, (lsum_firstn_S _ _ _ D'). lia.
Qed.
Lemma in_fields2 i' f : nth_error fields2 i' = Some f -> exists k u, nth_error us k = Some u /\ (i' = 2 * k \/ i' = 2 * k + 1) /\ fd_on f = mem k active.
Proof.
  intro E. pose proof (Nat.div_mod i' 2 ltac:(lia)) as D. pose proof (Nat.mod_upper_bound i' 2 ltac:(lia)) as B. set (k := i' / 2) in *.
  pose proof (nth_error_pairs (fun ku : nat * func T => mkField (snd ku) (mem (fst ku) active) (map fst (cells (fst ku)))) (fun ku => mkField (snd ku) (mem (fst ku) active) (map snd (cells (fst ku)))) (enum us) k) as (A1 & A2). fold fields2 in A1, A2. rewrite nth_error_enum in A1, A2.
  assert (I : i' = 2 * k \/ i' = 2 * k + 1) by lia. exists k. destruct (nth_error us k) as [u|] eqn:Eu.
  - exists u. split; [reflexivity|]. split; [exact I|]. destruct I as [I|I]; rewrite I in E; [rewrite A1 in E|rewrite A2 in E]; injection E as <-; reflexivity.
  - destruct I as [I|I]; rewrite I in E; [rewrite A1 in E|rewrite A2 in E]; discriminate.
Qed.
Lemma frow2 e : frow zero fields2 e = packed_pair_row zero us active cells e.
Proof.
  unfold frow, fields2, packed_pair_row. rewrite concat_map, map_map. generalize (enum us) as l. intro l. induction l as [|[k u] l IH]; [reflexivity|]. cbn [map concat app fst snd].
  rewrite <- IH. unfold fval at 1 2. cbn [fd_on fd_u fd_cells]. rewrite !app_assoc. f_equal.
  destruct (mem k active).
  - cbv zeta. rewrite <- (map_nth fst), <- (map_nth snd). reflexivity.
  - rewrite <- repeat_app. f_equal. lia.
Qed.
Lemma run2 : run (2 * st) jobs2 (repeat zero (num * (2 * st))) = Some (concat (map (packed_pair_row zero us active cells) (seq 0 num))).
Proof.
  rewrite <- fdims2_all, (fields_ok zero num fields2 jobs2).
  - do 2 f_equal. apply map_ext. exact frow2.
  - intros f Hf On. apply In_nth_error in Hf as (i' & Ei). destruct (in_fields2 i' f Ei) as (k & u & Eu & Hi & Eon). rewrite Eon in On. apply mem_iff in On. destruct (Hact k On) as (u' & Eu' & H0 & H1). rewrite Eu in Eu'. injection Eu' as <-.
    destruct (nth_fields2 k u Eu) as (A & B). assert (HU : func_ok u) by (apply Hus; eapply nth_error_In; eauto).
    destruct Hi as [-> | ->]; [rewrite A in Ei|rewrite B in Ei]; injection Ei as <-; cbn [fd_u fd_cells]; split; assumption.
  - intros j Hj. unfold jobs2 in Hj. apply in_concat in Hj as (l & Hl & Hj). apply in_map_iff in Hl as (k & <- & Hk). destruct (nth_error us k) as [u|] eqn:Eu; [|destruct Hj]. destruct (nth_fields2 k u Eu) as (A & B). apply mem_iff in Hk. destruct Hj as [<-|[<-|[]]].
    + exists (2 * k). exists (mkField u (mem k active) (map fst (cells k))). rewrite A, fdims2_even. auto.
    + exists (2 * k + 1). exists (mkField u (mem k active) (map snd (cells k))). rewrite B, (fdims2_odd k u Eu). auto.
  - intros i' f Ei On. destruct (in_fields2 i' f Ei) as (k & u & Eu & Hi & Eon). rewrite Eon in On. pose proof On as Hk. apply mem_iff in Hk. destruct (nth_fields2 k u Eu) as (A & B).
    assert (Hin : forall j, In j [mkJob u (map fst (cells k)) (2 * lsum (firstn k dims)); mkJob u (map snd (cells k)) (lsum (firstn k dims) + lsum (firstn (k + 1) dims))] -> In j jobs2).
    { intros j Hj. unfold jobs2. apply in_concat. eexists. split; [|exact Hj]. apply in_map_iff. exists k. rewrite Eu. auto. }
    destruct Hi as [-> | ->]; [rewrite A in Ei|rewrite B in Ei]; injection Ei as <-.
    + exists (mkJob u (map fst (cells k)) (2 * lsum (firstn k dims))). split; [apply Hin; now left|]. eexists. split; [exact A|]. rewrite fdims2_even. split; [exact On|reflexivity].
    + exists (mkJob u (map snd (cells k)) (lsum (firstn k dims) + lsum (firstn (k + 1) dims))). split; [apply Hin; right; now left|]. eexists. split; [exact B|]. rewrite (fdims2_odd k u Eu). split; [exact On|reflexivity].
Qed.
Lemma loop2 (step : list T -> nat -> option (list T)) (Hstep : forall c k u, In k active -> nth_error us k = Some u -> step c k =
    (c <- pack_coefficient_entity c (2 * st) u (map fst (cells k)) (2 * lsum (firstn k dims)) ;; pack_coefficient_entity c (2 * st) u (map snd (cells k)) (lsum (firstn k dims) + lsum (firstn (k + 1) dims)))) c :
  ofold step active c = run (2 * st) jobs2 c.
Proof.
  unfold jobs2. match goal with |- _ = run _ (concat (map ?F active)) _ => assert (G : forall l c, (forall k, In k l -> In k active) -> ofold step l c = run (2 * st) (concat (map F l)) c); [|now apply G] end.
  induction l as [|k l IH]; intros c' Hl; [reflexivity|]. cbn [ofold map concat]. destruct (Hact k (Hl k (or_introl eq_refl))) as (u & Eu & _). rewrite Eu. cbn [app]. unfold run. cbn [ofold jb_u jb_cells jb_off].
  rewrite (Hstep c' k u (Hl k (or_introl eq_refl)) Eu). destruct (pack_coefficient_entity _ _ _ _ (2 * lsum _)) as [c2|]; cbn [obind]; [|reflexivity]. destruct (pack_coefficient_entity _ _ _ _ _) as [c3|]; cbn [obind]; [|reflexivity]. apply IH. intros k' H. apply Hl. now right.
Qed.
End Two.
End Integral.

(** ** All integrals of a type *)
Section Type_.
Context {D : Type}.
Variables (igs : list ((nat * nat) * cint D)) (ok : func T -> nat -> D -> Prop) (cells : nat -> nat -> D).
Hypothesis Hok : integrals_ok us igs ok cells.
Lemma keys : map (fun e => fst (fst e)) igs = seq 0 (length igs).
Proof.
  destruct Hok as (H0 & Hc & _). unfold consecutive in Hc. assert (E : entries igs 0 = igs); [|now rewrite E in Hc].
  unfold entries. clear -H0. induction igs as [|e l IH]; [reflexivity|]. cbn [filter]. rewrite (H0 e (or_introl eq_refl)). cbn [Nat.eqb]. f_equal. apply IH. intros e' H. apply H0. now right.
Qed.
Lemma keys_nodup : NoDup (map (fun e => fst (fst e)) igs).
Proof. rewrite keys. apply seq_NoDup. Qed.
Lemma number : num_integrals igs 0 = length igs.
Proof. unfold num_integrals. rewrite countb_filter. destruct Hok as (H0 & _). clear -H0. induction igs as [|e l IH]; [reflexivity|]. cbn [filter]. rewrite (H0 e (or_introl eq_refl)). cbn [Nat.eqb length]. f_equal. apply IH. intros e' H. apply H0. now right. Qed.
Lemma the_integral e : In e igs -> get_integral igs (fst (fst e)) 0 = Some (snd e).
Proof.
  intro He. unfold get_integral. destruct Hok as (H0 & _). 
  assert (E : find (fun x => (fst (fst x) =? fst (fst e)) && (snd (fst x) =? 0)) igs = find (fun x => fst (fst x) =? fst (fst e)) igs).
  { clear -H0. induction igs as [|x l IH]; [reflexivity|]. cbn [find]. rewrite (H0 x (or_introl eq_refl)). cbn [Nat.eqb]. rewrite Bool.andb_true_r, IH; [reflexivity|]. intros e' H. apply H0. now right. }
  rewrite E, (find_unique (fun x : (nat * nat) * cint D => fst (fst x)) igs e keys_nodup He). reflexivity.
Qed.
Lemma the_active e : In e igs -> active_coeffs igs (fst (fst e)) = Some (ig_active (snd e)).
Proof. intro He. unfold active_coeffs. rewrite (find_unique (fun x : (nat * nat) * cint D => fst (fst x)) igs e keys_nodup He). reflexivity. Qed.
Lemma the_domain e k : In e igs -> In k (ig_active (snd e)) -> domain_coeff igs (fst (fst e)) k = Some (cells (fst (fst e)) k).
Proof.
  intros He Hk. unfold domain_coeff. rewrite (filter_unique (fun x : (nat * nat) * cint D => fst (fst x)) igs e keys_nodup He). cbn [map concat]. rewrite app_nil_r.
  destruct Hok as (H0 & _ & H). destruct e as [[i ti] ig]. pose proof (H0 _ He) as E. cbn [fst snd] in *. subst ti. destruct (H i ig He) as (Hn & Ha). destruct (Ha k Hk) as (u & _ & Hin & _).
  pose proof (find_unique fst (ig_cells ig) (k, cells i k) Hn Hin) as F. cbn [fst] in F. rewrite F. reflexivity.
Qed.
Lemma no_coefs : (us = [] /\ coefs = [] /\ st = 0) \/ exists o l, coefs = o :: l.
Proof. unfold coefs, st, stride. destruct us as [|u l]; [left; auto|right; cbn [map]; eauto]. Qed.
Lemma allocated_one sides e : In e igs -> allocate_one zero coefs sides igs (fst (fst e)) = Some (repeat zero (sides * ig_num (snd e) * st), st).
Proof.
  intro He. unfold allocate_one. rewrite offsets_ok, (the_integral e He). cbn [obind]. rewrite offsets_last. destruct no_coefs as [(_ & Ec & Es)|(o & l & Ec)]; rewrite Ec; [|reflexivity]. rewrite Es, Nat.mul_0_r. reflexivity.
Qed.
Lemma allocated sides : allocate_type zero coefs sides igs = Some (map (fun e => (fst (fst e), (repeat zero (sides * ig_num (snd e) * st), st))) igs).
Proof.
  unfold allocate_type. rewrite number, <- keys.
  rewrite (omap_map _ (fun idx => (idx, match find (fun e => fst (fst e) =? idx) igs with Some e => (repeat zero (sides * ig_num (snd e) * st), st) | None => ([], 0) end))).
  - f_equal. rewrite map_map. apply map_ext_in. intros e He. rewrite (find_unique (fun x : (nat * nat) * cint D => fst (fst x)) igs e keys_nodup He). reflexivity.
  - intros idx Hi. apply in_map_iff in Hi as (e & <- & He). rewrite (find_unique (fun x : (nat * nat) * cint D => fst (fst x)) igs e keys_nodup He). rewrite (allocated_one sides e He). reflexivity.
Qed.
Lemma packed_type step (res : ((nat * nat) * cint D) -> list T) sides :
  (us = [] -> forall e, In e igs -> res e = []) ->
  (forall e, In e igs -> ofold (step igs (fst (fst e)) st) (ig_active (snd e)) (repeat zero (sides * ig_num (snd e) * st)) = Some (res e)) ->
  pack_type coefs step igs (map (fun e => (fst (fst e), (repeat zero (sides * ig_num (snd e) * st), st))) igs) = Some (map (fun e => (fst (fst e), (res e, st))) igs).
Proof.
  intros Hnil H. unfold pack_type. destruct no_coefs as [(Eu & Ec & Es)|(o & l & Ec)]; rewrite Ec.
  - f_equal. apply map_ext_in. intros e He. rewrite (Hnil Eu e He), Es, Nat.mul_0_r. reflexivity.
  - rewrite (omap_map _ (fun '(idx, (c, cs)) => (idx, (match find (fun e => fst (fst e) =? idx) igs with Some e => res e | None => [] end, cs)))).
    + f_equal. rewrite map_map. apply map_ext_in. intros e He. rewrite (find_unique (fun x : (nat * nat) * cint D => fst (fst x)) igs e keys_nodup He). reflexivity.
    + intros [idx [c cs]] Hi. apply in_map_iff in Hi as (e & Ee & He). injection Ee as <- <- <-. rewrite (the_active e He). cbn [obind]. rewrite (H e He). cbn [obind]. rewrite (find_unique (fun x : (nat * nat) * cint D => fst (fst x)) igs e keys_nodup He). reflexivity.
Qed.
Lemma active_ok e : In e igs -> forall k, In k (ig_active (snd e)) -> exists u, nth_error us k = Some u /\ ok u (ig_num (snd e)) (cells (fst (fst e)) k).
Proof. intros He k Hk. destruct Hok as (H0 & _ & H). destruct e as [[i ti] ig]. pose proof (H0 _ He) as E. cbn [fst snd] in *. subst ti. destruct (H i ig He) as (_ & Ha). destruct (Ha k Hk) as (u & Eu & _ & K). eauto. Qed.
End Type_.

Definition cell_result (cells : nat -> nat -> list (option nat)) (e : (nat * nat) * cint (list (option nat))) : nat * (list T * nat) :=
  (fst (fst e), (concat (map (packed_row zero us (ig_active (snd e)) (cells (fst (fst e)))) (seq 0 (ig_num (snd e)))), st)).
Definition pair_result (cells : nat -> nat -> list (option nat * option nat)) (e : (nat * nat) * cint (list (option nat * option nat))) : nat * (list T * nat) :=
  (fst (fst e), (concat (map (packed_pair_row zero us (ig_active (snd e)) (cells (fst (fst e)))) (seq 0 (ig_num (snd e)))), st)).
Lemma concat_nils {A} (f : nat -> list A) l : (forall e, f e = []) -> concat (map f l) = [].
Proof. intro H. induction l as [|x l IH]; [reflexivity|]. cbn [map concat]. now rewrite H, IH. Qed.

Lemma cells_packed igs cells : integrals_ok us igs cells_of cells -> (forall e k u, In e igs -> In k (ig_active (snd e)) -> nth_error us k = Some u -> fn_codim u = 0) ->
  (st0 <- allocate_type zero coefs 1 igs ;; pack_type coefs (pack_cell coefs (psums dims)) igs st0) = Some (map (cell_result cells) igs).
Proof.
  intros Hok Hd. rewrite (allocated igs cells_of cells Hok 1). cbn [obind].
  apply (packed_type igs cells_of cells Hok _ (fun e => concat (map (packed_row zero us (ig_active (snd e)) (cells (fst (fst e)))) (seq 0 (ig_num (snd e))))) 1).
  - intros -> e _. apply concat_nils. reflexivity.
  - intros e He. pose proof (active_ok igs cells_of cells Hok e He) as Hact. rewrite (loop1 (ig_num (snd e)) (ig_active (snd e)) (cells (fst (fst e))) Hact).
    + rewrite Nat.mul_1_l. now apply run1.
    + intros c k u Hk Eu. unfold pack_cell. rewrite (get_coef k u Eu). cbn [obind]. rewrite (Hd e k u He Hk Eu). cbn [Nat.ltb Nat.leb]. rewrite (the_domain igs cells_of cells Hok e k He Hk). cbn [obind]. rewrite offsets_nth by (apply Nat.lt_le_incl; eapply nth_error_bound; eauto). reflexivity.
Qed.
Lemma ents_packed igs cells : integrals_ok us igs cells_of cells ->
  (st0 <- allocate_type zero coefs 1 igs ;; pack_type coefs (pack_exterior coefs (psums dims)) igs st0) = Some (map (cell_result cells) igs).
Proof.
  intros Hok. rewrite (allocated igs cells_of cells Hok 1). cbn [obind].
  apply (packed_type igs cells_of cells Hok _ (fun e => concat (map (packed_row zero us (ig_active (snd e)) (cells (fst (fst e)))) (seq 0 (ig_num (snd e))))) 1).
  - intros -> e _. apply concat_nils. reflexivity.
  - intros e He. pose proof (active_ok igs cells_of cells Hok e He) as Hact. rewrite (loop1 (ig_num (snd e)) (ig_active (snd e)) (cells (fst (fst e))) Hact).
    + rewrite Nat.mul_1_l. now apply run1.
    + intros c k u Hk Eu. unfold pack_exterior. rewrite (get_coef k u Eu). cbn [obind]. rewrite (the_domain igs cells_of cells Hok e k He Hk). cbn [obind]. rewrite offsets_nth by (apply Nat.lt_le_incl; eapply nth_error_bound; eauto). reflexivity.
Qed.
Lemma facets_packed igs cells : integrals_ok us igs pairs_of cells ->
  (st0 <- allocate_type zero coefs 2 igs ;; pack_type coefs (pack_interior coefs (psums dims)) igs st0) = Some (map (pair_result cells) igs).
Proof.
  intros Hok. rewrite (allocated igs pairs_of cells Hok 2). cbn [obind].
  apply (packed_type igs pairs_of cells Hok _ (fun e => concat (map (packed_pair_row zero us (ig_active (snd e)) (cells (fst (fst e)))) (seq 0 (ig_num (snd e))))) 2).
  - intros -> e _. apply concat_nils. reflexivity.
  - intros e He. pose proof (active_ok igs pairs_of cells Hok e He) as Hact. rewrite (loop2 (ig_num (snd e)) (ig_active (snd e)) (cells (fst (fst e))) Hact).
    + replace (2 * ig_num (snd e) * st) with (ig_num (snd e) * (2 * st)) by lia. now apply run2.
    + intros c k u Hk Eu. unfold pack_interior. rewrite (get_coef k u Eu). cbn [obind]. rewrite (the_domain igs pairs_of cells Hok e k He Hk). cbn [obind]. pose proof (nth_error_bound _ _ _ Eu). rewrite !offsets_nth by lia. reflexivity.
Qed.

Lemma form_packed cs is_ es ccells icells ecells :
  integrals_ok us cs cells_of ccells -> (forall e k u, In e cs -> In k (ig_active (snd e)) -> nth_error us k = Some u -> fn_codim u = 0) ->
  integrals_ok us is_ pairs_of icells -> (forall t igs, nth_error es t = Some igs -> integrals_ok us igs cells_of (ecells t)) ->
  pack_coefficients zero (mkCform coefs cs is_ es) =
  Some (mkCoefs (map (cell_result ccells) cs) (map (pair_result icells) is_) (map (fun '(t, igs) => map (cell_result (ecells t)) igs) (enum es))).
Proof.
  intros Hc Hd Hi He. unfold pack_coefficients. cbn [fc_coefs fc_cell fc_int fc_ext].
  pose proof (cells_packed cs ccells Hc Hd) as C. pose proof (facets_packed is_ icells Hi) as I.
  rewrite (allocated cs cells_of ccells Hc 1) in C |- *. cbn [obind] in C |- *. rewrite (allocated is_ pairs_of icells Hi 2) in I |- *. cbn [obind] in I |- *.
  rewrite (omap_map (allocate_type zero coefs 1) (fun igs => map (fun e => (fst (fst e), (repeat zero (1 * ig_num (snd e) * st), st))) igs) es).
  2: { intros igs Hin. apply In_nth_error in Hin as (t & Et). exact (allocated igs cells_of (ecells t) (He t igs Et) 1). }
  cbn [obind]. rewrite offsets_ok. cbn [obind]. rewrite C. cbn [obind]. rewrite I. cbn [obind].
  assert (E : omap (fun '(igs, st0) => pack_type coefs (pack_exterior coefs (psums dims)) igs st0) (combine es (map (fun igs => map (fun e => (fst (fst e), (repeat zero (1 * ig_num (snd e) * st), st))) igs) es)) =
    Some (map (fun '(t, igs) => map (cell_result (ecells t)) igs) (enum es))).
  { assert (G : forall l s, (forall t igs, nth_error l t = Some igs -> integrals_ok us igs cells_of (ecells (s + t))) ->
      omap (fun '(igs, st0) => pack_type coefs (pack_exterior coefs (psums dims)) igs st0) (combine l (map (fun igs => map (fun e => (fst (fst e), (repeat zero (1 * ig_num (snd e) * st), st))) igs) l)) =
      Some (map (fun '(t, igs) => map (cell_result (ecells t)) igs) (combine (seq s (length l)) l))); [|exact (G es 0 He)].
    clear -Hus. induction l as [|igs l IH]; intros s He; [reflexivity|]. cbn [map combine omap length seq].
    pose proof (He 0 igs eq_refl) as H0. rewrite Nat.add_0_r in H0. pose proof (ents_packed igs (ecells s) H0) as X. rewrite (allocated igs cells_of (ecells s) H0 1) in X. cbn [obind] in X. rewrite X. cbn [obind].
    rewrite (IH (S s)); [reflexivity|]. intros t igs' Ht. replace (S s + t) with (s + S t) by lia. now apply He. }
  rewrite E. reflexivity.
Qed.
(** The rows that the assembler reads. *)
Lemma row_read n (row : nat -> list T) cs e : (forall e, e < n -> length (row e) = cs) -> e < n -> coeff_row (concat (map row (seq 0 n))) cs e = Some (row e) /\ length (concat (map row (seq 0 n))) = n * cs.
Proof.
  intros Hl He. assert (L : length (concat (map row (seq 0 n))) = n * cs).
  { rewrite (concat_uniform_len _ cs); [now rewrite map_length, seq_length|]. intros l Hin. apply in_map_iff in Hin as (e' & <- & Hin). apply in_seq in Hin. apply Hl. lia. }
  split; [|exact L]. pose proof (slice_at_concat (map row (seq 0 n)) e (row e)) as SL. rewrite nth_error_map, nth_error_seq in SL by exact He. specialize (SL eq_refl). unfold slice_at in SL.
  assert (M : map (@length T) (map row (seq 0 n)) = repeat cs n).
  { rewrite map_map. apply nth_error_ext. intro k. rewrite nth_error_map. destruct (le_lt_dec n k) as [G|G].
    - rewrite (proj2 (nth_error_None (seq 0 n) k)) by (rewrite seq_length; lia). symmetry. apply nth_error_None. rewrite repeat_length. lia.
    - rewrite nth_error_seq by exact G. cbn [option_map Nat.add]. rewrite (Hl k G). symmetry. now apply nth_error_repeat. }
  rewrite M, !psums_nth in SL by (rewrite repeat_length; lia). cbn [obind] in SL. unfold coeff_row.
  assert (F : forall k, k <= n -> lsum (firstn k (repeat cs n)) = k * cs).
  { intros k Hk. replace (repeat cs n) with (repeat cs k ++ repeat cs (n - k)) by (rewrite <- repeat_app; f_equal; lia). rewrite firstn_app, repeat_length, Nat.sub_diag. cbn [firstn]. rewrite app_nil_r, firstn_all2 by (rewrite repeat_length; lia). apply lsum_repeat. }
  rewrite !F in SL by lia. replace (e * cs + cs) with (S e * cs) by lia. exact SL.
Qed.
Lemma packed_row_length num active cells e : (forall k, In k active -> exists u, nth_error us k = Some u /\ cells_of u num (cells k)) -> length (packed_row zero us active cells e) = st.
Proof.
  intro Hact. rewrite <- (frow1 active cells e). rewrite (frow_length zero num); [now rewrite fdims1|]. intros f Hf On. apply In_nth_error in Hf as (k & Ek). rewrite nth_fields1 in Ek. destruct (nth_error us k) as [u|] eqn:Eu; [|discriminate]. injection Ek as <-. cbn [fd_on fd_u fd_cells] in *.
  apply mem_iff in On. destruct (Hact k On) as (u' & Eu' & H). rewrite Eu in Eu'. injection Eu' as <-. split; [apply Hus; eapply nth_error_In; eauto|exact H].
Qed.
Lemma packed_pair_row_length num active cells e : (forall k, In k active -> exists u, nth_error us k = Some u /\ pairs_of u num (cells k)) -> length (packed_pair_row zero us active cells e) = 2 * st.
Proof.
  intro Hact. rewrite <- (frow2 active cells e). rewrite (frow_length zero num); [now rewrite fdims2_all|]. intros f Hf On. apply In_nth_error in Hf as (i' & Ei). destruct (in_fields2 active cells i' f Ei) as (k & u & Eu & Hi & Eon). rewrite Eon in On. apply mem_iff in On. destruct (Hact k On) as (u' & Eu' & H0 & H1). rewrite Eu in Eu'. injection Eu' as <-.
  destruct (nth_fields2 active cells k u Eu) as (A & B). assert (HU : func_ok u) by (apply Hus; eapply nth_error_In; eauto).
  destruct Hi as [-> | ->]; [rewrite A in Ei|rewrite B in Ei]; injection Ei as <-; cbn [fd_u fd_cells]; split; assumption.
Qed.
Lemma cell_read igs cells i ig e : integrals_ok us igs cells_of cells -> In ((i, 0), ig) igs -> e < ig_num ig ->
  let flat := concat (map (packed_row zero us (ig_active ig) (cells i)) (seq 0 (ig_num ig))) in
  length flat = ig_num ig * st /\ coeff_row flat st e = Some (packed_row zero us (ig_active ig) (cells i) e).
Proof.
  intros Hok Hin He flat. pose proof (active_ok igs cells_of cells Hok _ Hin) as Hact. cbn [fst snd] in Hact.
  destruct (row_read (ig_num ig) (packed_row zero us (ig_active ig) (cells i)) st e) as (A & B); [|exact He|split; assumption]. intros e' _. now apply (packed_row_length (ig_num ig)).
Qed.
Lemma pair_read igs cells i ig e : integrals_ok us igs pairs_of cells -> In ((i, 0), ig) igs -> e < ig_num ig ->
  let flat := concat (map (packed_pair_row zero us (ig_active ig) (cells i)) (seq 0 (ig_num ig))) in
  length flat = ig_num ig * 2 * st /\ coeff_row flat (2 * st) e = Some (packed_pair_row zero us (ig_active ig) (cells i) e).
Proof.
  intros Hok Hin He flat. pose proof (active_ok igs pairs_of cells Hok _ Hin) as Hact. cbn [fst snd] in Hact.
  destruct (row_read (ig_num ig) (packed_pair_row zero us (ig_active ig) (cells i)) (2 * st) e) as (A & B); [|exact He|split; [unfold flat; lia|assumption]]. intros e' _. now apply (packed_pair_row_length (ig_num ig)).
Qed.
End Forms.

(** ** Failures *)
Section Fail.
Context {T : Type}.
Variable zero : T.
Lemma ofold_fail {A S} (f : S -> A -> option S) l a s : In a l -> (forall s, f s a = None) -> ofold f l s = None.
Proof. intros Hin H. revert s. induction l as [|b l IH]; intro s; [destruct Hin|]. cbn [ofold]. destruct Hin as [->|Hin]; [now rewrite H|]. destruct (f s b); cbn [obind]; [now apply IH|reflexivity]. Qed.
Lemma omap_fail {A B} (f : A -> option B) l a : In a l -> f a = None -> omap f l = None.
Proof. intros Hin H. induction l as [|b l IH]; [destruct Hin|]. cbn [omap]. destruct Hin as [->|Hin]; [now rewrite H|]. destruct (f b); cbn [obind]; [now rewrite IH|reflexivity]. Qed.
Lemma unset_fails (f : cform T) : In None (fc_coefs f) -> pack_coefficients zero f = None.
Proof.
  intro H. unfold pack_coefficients. destruct (allocate_type _ _ 1 (fc_cell f)); cbn [obind]; [|reflexivity]. destruct (allocate_type _ _ _ _); cbn [obind]; [|reflexivity]. destruct (omap _ _); cbn [obind]; [|reflexivity].
  assert (E : coefficient_offsets (fc_coefs f) = None) by (apply (ofold_fail _ _ None _ H); reflexivity). rewrite E. reflexivity.
Qed.
Lemma codim_fails us cs is_ es cells i ig k u : (forall u, In u us -> func_ok u) -> integrals_ok us cs cells_of cells -> In ((i, 0), ig) cs -> In k (ig_active ig) -> nth_error us k = Some u -> 0 < fn_codim u ->
  pack_coefficients zero (mkCform (map Some us) cs is_ es) = None.
Proof.
  intros Hus Hok Hin Hk Eu Hd. unfold pack_coefficients. cbn [fc_coefs fc_cell fc_int fc_ext]. rewrite (allocated zero us Hus cs cells_of cells Hok 1). cbn [obind]. destruct (allocate_type _ _ _ _); cbn [obind]; [|reflexivity]. destruct (omap _ es); cbn [obind]; [|reflexivity].
  rewrite offsets_ok. cbn [obind].
  match goal with |- obind ?x _ = None => assert (E : x = None); [|now rewrite E] end.
  unfold pack_type. destruct (map Some us) as [|o' l'] eqn:Em; [destruct us; [destruct k; discriminate|discriminate]|]. rewrite <- Em.
  apply (omap_fail _ _ (i, (repeat zero (1 * ig_num ig * stride us), stride us))); [apply in_map_iff; exists ((i, 0), ig); split; [reflexivity|exact Hin]|].
  pose proof (the_active us cs cells_of cells Hok _ Hin) as EA. cbn [fst snd] in EA. rewrite EA. cbn [obind].
  rewrite (ofold_fail _ _ k); [reflexivity|exact Hk|]. intro s. unfold pack_cell. rewrite (get_coef us k u Eu). cbn [obind]. now rewrite (proj2 (Nat.ltb_lt _ _) Hd).
Qed.
End Fail.
