(** Assembly: C45, C46, C47. *)
From Coq Require Import ZArith Ring.
From Verif Require Import Base BaseProofs Algo MatrixCSR MatrixSpec DirichletBC Assemble AssembleSpec AssembleBC AssembleBcSpec AsmSums AsmVector AsmMatrix AsmCsr AsmScalar AsmLift AsmBC AsmSystem AsmElement.
Open Scope nat_scope.

(** * C47: assembly is the sum of the element contributions *)

(** A vector: whatever the loops, block sizes and dofmaps, entry [q] grows by the sum of
    the entries of all element vectors that belong to [q]. *)
Theorem C47_vector : forall T U (zero : T) add,
  (forall a, add zero a = a) -> (forall a b, add a b = add b a) -> (forall a b c, add a (add b c) = add (add a b) c) ->
  forall bs bs1 (L : @form T U) types x constants cf bls b,
  (forall ct, In ct types -> type_ok zero bs bs1 ct) -> kernels_ok L -> form_ok L (length types) ->
  form_vblocks zero L types x constants cf = Some bls ->
  (forall bl d, In bl bls -> In d (fst bl) -> bs * d + bs <= length b) ->
  exists b', assemble_vector zero add L types x constants cf b = Some b' /\ length b' = length b /\
    forall q, q < length b -> nth q b' zero = add (nth q b zero) (vec_sum zero add bs bls q).
Proof. exact @vector_ok. Qed.
Print Assumptions C47_vector.

(** A matrix, without boundary conditions. *)
Theorem C47_matrix : forall T U (zero : T) add,
  (forall a, add zero a = a) -> (forall a b, add a b = add b a) -> (forall a b c, add a (add b c) = add (add a b) c) ->
  forall bs0 bs1 (a : @form T U) types x constants cf bls V0 V1 dim0 dim1 A,
  has_blocks zero bs0 bs1 a types x constants cf bls -> in_dims bs0 bs1 dim0 dim1 a bls -> fits A bs0 bs1 bls ->
  exists A', assemble_matrix_bcs zero (fun A rows cols v => mat_add add bs0 bs1 A v rows cols) V0 V1 dim0 dim1 a types x constants cf [] A = Some A' /\
    forall I J, dense zero A' I J = add (dense zero A I J) (mat_sum zero add bs0 bs1 bls I J).
Proof.
  intros T U zero add H1 H2 H3 bs0 bs1 a types x constants cf bls V0 V1 dim0 dim1 A HB HD HF.
  destruct (bcs_matrix_ok zero add H1 H2 H3 bs0 bs1 a types x constants cf bls V0 V1 dim0 dim1 [] A HB HD HF) as (A' & E & _ & _ & D); [intros b d []|intros b d []|]. exists A'. split; [exact E|exact D].
Qed.
Print Assumptions C47_matrix.

(** A functional. *)
Theorem C47_scalar : forall T U (zero : T) add,
  (forall a, add zero a = a) -> (forall a b, add a b = add b a) -> (forall a b c, add a (add b c) = add (add a b) c) ->
  forall (M : @form T U) types x constants cf vs,
  functional_ok zero add M (length types) -> form_values zero M types x constants cf = Some vs ->
  assemble_scalar zero add M types x constants cf = Some (sum zero add vs).
Proof. exact @scalar_ok. Qed.
Print Assumptions C47_scalar.

(** The order of the blocks does not matter. *)
Theorem C47_order : forall T (zero : T) add,
  (forall a, add zero a = a) -> (forall a b, add a b = add b a) -> (forall a b c, add a (add b c) = add (add a b) c) ->
  (forall bs bls bls' q, Permutation bls bls' -> vec_sum zero add bs bls q = vec_sum zero add bs bls' q) /\
  (forall bs0 bs1 bls bls' I J, Permutation bls bls' -> mat_sum zero add bs0 bs1 bls I J = mat_sum zero add bs0 bs1 bls' I J) /\
  (forall vs vs', Permutation vs vs' -> sum zero add vs = sum zero add vs').
Proof.
  intros T zero add H1 H2 H3. split; [|split].
  - intros bs bls bls' q P. apply (sum_perm zero add H2 H3). now apply Permutation_map.
  - intros bs0 bs1 bls bls' I J P. apply (sum_perm zero add H2 H3). now apply Permutation_map.
  - intros vs vs' P. now apply (sum_perm zero add H2 H3).
Qed.
Print Assumptions C47_order.

(** Permuting the entities of an integral permutes its blocks. *)
Theorem C47_entity_order : forall T U (zero : T) (ct : @ctype T) (x : list U) constants,
  (forall (ig ig' : @cell_ig T U) flat flat' cs, ci_kernel ig' = ci_kernel ig ->
     length (ci_cells0 ig') = length (ci_cells ig') -> length (ci_cells1 ig') = length (ci_cells ig') -> length flat' = length (ci_cells ig') * cs ->
     (forall bls, Permutation (items (ci_cells ig) (ci_cells0 ig) (ci_cells ig) flat cs) (items (ci_cells ig') (ci_cells0 ig') (ci_cells ig') flat' cs) ->
        cell_vblocks zero ct x constants ig flat cs = Some bls -> exists bls', cell_vblocks zero ct x constants ig' flat' cs = Some bls' /\ Permutation bls bls') /\
     (forall bls, Permutation (items (ci_cells ig) (ci_cells0 ig) (ci_cells1 ig) flat cs) (items (ci_cells ig') (ci_cells0 ig') (ci_cells1 ig') flat' cs) ->
        cell_mblocks zero ct x constants ig flat cs = Some bls -> exists bls', cell_mblocks zero ct x constants ig' flat' cs = Some bls' /\ Permutation bls bls')) /\
  (forall perms (ig ig' : @ent_ig T U) flat flat' cs, ei_kernel ig' = ei_kernel ig ->
     length (ei_cells0 ig') = length (ei_ents ig') -> length (ei_cells1 ig') = length (ei_ents ig') -> length flat' = length (ei_ents ig') * cs ->
     (forall bls, Permutation (items (ei_ents ig) (ei_cells0 ig) (ei_ents ig) flat cs) (items (ei_ents ig') (ei_cells0 ig') (ei_ents ig') flat' cs) ->
        ent_vblocks zero ct x constants perms ig flat cs = Some bls -> exists bls', ent_vblocks zero ct x constants perms ig' flat' cs = Some bls' /\ Permutation bls bls') /\
     (forall bls, Permutation (items (ei_ents ig) (ei_cells0 ig) (ei_cells1 ig) flat cs) (items (ei_ents ig') (ei_cells0 ig') (ei_cells1 ig') flat' cs) ->
        ent_mblocks zero ct x constants perms ig flat cs = Some bls -> exists bls', ent_mblocks zero ct x constants perms ig' flat' cs = Some bls' /\ Permutation bls bls')) /\
  (forall (ig ig' : @facet_ig T U) flat flat' cs, fi_kernel ig' = fi_kernel ig ->
     length (fi_cells0 ig') = length (fi_facets ig') -> length (fi_cells1 ig') = length (fi_facets ig') -> length flat' = length (fi_facets ig') * (2 * cs) ->
     (forall bls, Permutation (items (fi_facets ig) (fi_cells0 ig) (fi_facets ig) flat (2 * cs)) (items (fi_facets ig') (fi_cells0 ig') (fi_facets ig') flat' (2 * cs)) ->
        facet_vblocks zero ct x constants ig flat cs = Some bls -> exists bls', facet_vblocks zero ct x constants ig' flat' cs = Some bls' /\ Permutation bls bls') /\
     (forall bls, Permutation (items (fi_facets ig) (fi_cells0 ig) (fi_cells1 ig) flat (2 * cs)) (items (fi_facets ig') (fi_cells0 ig') (fi_cells1 ig') flat' (2 * cs)) ->
        facet_mblocks zero ct x constants ig flat cs = Some bls -> exists bls', facet_mblocks zero ct x constants ig' flat' cs = Some bls' /\ Permutation bls bls')).
Proof.
  intros T U zero ct x constants. split; [|split].
  - intros ig ig' flat flat' cs HK H0 H1 Hf. split; intros bls P; unfold cell_vblocks, cell_mblocks; rewrite HK, H0, ?H1, Hf, !Nat.eqb_refl; cbn [negb orb]; destruct (_ || _); try discriminate; now apply over_items_perm.
  - intros perms ig ig' flat flat' cs HK H0 H1 Hf. split; intros bls P; unfold ent_vblocks, ent_mblocks; rewrite HK, H0, ?H1, Hf, !Nat.eqb_refl; cbn [negb orb]; destruct (_ || _); try discriminate; now apply over_items_perm.
  - intros ig ig' flat flat' cs HK H0 H1 Hf. split; intros bls P; unfold facet_vblocks, facet_mblocks; rewrite HK, H0, ?H1, Hf, !Nat.eqb_refl; cbn [negb orb]; destruct (_ || _); try discriminate; now apply over_items_perm.
Qed.
Print Assumptions C47_entity_order.

(** * C45: matrices with boundary conditions *)

(** Exactly the rows constrained in the test space and the columns constrained in the trial
    space get nothing. *)
Theorem C45_matrix_with_bcs : forall T U (zero : T) add,
  (forall a, add zero a = a) -> (forall a b, add a b = add b a) -> (forall a b c, add a (add b c) = add (add a b) c) ->
  forall bs0 bs1 (a : @form T U) types x constants cf bls V0 V1 dim0 dim1 bcs A,
  has_blocks zero bs0 bs1 a types x constants cf bls -> in_dims bs0 bs1 dim0 dim1 a bls -> fits A bs0 bs1 bls ->
  (forall b d, In b (on V0 bcs) -> In d (bc_dofs0 b) -> d < dim0) -> (forall b d, In b (on V1 bcs) -> In d (bc_dofs0 b) -> d < dim1) ->
  exists A', assemble_matrix_bcs zero (fun A rows cols v => mat_add add bs0 bs1 A v rows cols) V0 V1 dim0 dim1 a types x constants cf bcs A = Some A' /\
    csr_ok A' /\ same_pattern A A' /\
    forall I J, dense zero A' I J = add (dense zero A I J) (if constrained (on V0 bcs) I || constrained (on V1 bcs) J then zero else mat_sum zero add bs0 bs1 bls I J).
Proof. exact @bcs_matrix_ok. Qed.
Print Assumptions C45_matrix_with_bcs.

(** The diagonal entries of the owned constrained dofs get the given value, everything
    else is unchanged. *)
Theorem C45_set_diagonal : forall T (zero : T) (add : T -> T -> T) V bcs diag A, csr_ok A ->
  (forall d, constrained_owned (on V bcs) d = true -> in_pattern A d d) ->
  exists A', set_diagonal_bcs (fun A rows cols x => mat_set 1 1 A x rows cols) V bcs diag A = Some A' /\ csr_ok A' /\ same_pattern A A' /\
    forall I J, dense zero A' I J = if (I =? J) && constrained_owned (on V bcs) I then diag else dense zero A I J.
Proof. exact @set_diagonal_bcs_ok. Qed.
Print Assumptions C45_set_diagonal.

(** * C46: the linear system *)

Theorem C46_lifting : forall T U (zero one : T) add mul sub opp, ring_theory zero one add mul sub opp eq ->
  forall eqb, (forall x y, eqb x y = true <-> x = y) ->
  forall n (a : list (option (@lform T U))) (bcs1 : list (list (bc T))) (x0 : list (list T)) alpha blss b,
  length bcs1 = length a -> (x0 = [] \/ length x0 = length a) ->
  (forall j f bcs, nth_error a j = Some (Some f) -> nth_error bcs1 j = Some bcs -> bcs <> [] -> lift_ok zero n f (nth j blss []) bcs (nth j x0 [])) -> length b = n ->
  exists b', apply_lifting zero one mul sub eqb a bcs1 x0 alpha b = Some b' /\ length b' = n /\
    forall q, q < n -> nth q b' zero = sub (nth q b zero) (tsum zero add (length a) (fun j =>
      match nth j a None with
      | Some f => tsum zero add (lf_crange f) (fun J => mul (mat_sum zero add (lf_bs0 f) (lf_bs1 f) (nth j blss []) q J) (increment zero mul sub (nth j bcs1 []) (Some (nth j x0 [])) alpha J))
      | None => zero
      end)).
Proof. exact @lifting_ok. Qed.
Print Assumptions C46_lifting.

(** [AU]: the matrix assembled without boundary conditions; [A2], [b2]: the system that is
    solved. *)
Theorem C46_system : forall T U (zero one : T) add mul sub opp, ring_theory zero one add mul sub opp eq ->
  forall eqb, (forall x y, eqb x y = true <-> x = y) ->
  forall n bs (a : @form T U) types x constants cf bls V (bcsV : list (sid * bc T)) A0 b0 x0 alpha,
  let bcs := map snd bcsV in
  let lf := mkLf a types x constants cf bs bs n in
  let add_fn := fun A rows cols v => mat_add add bs bs A v rows cols in
  let set_fn := fun A rows cols v => mat_set 1 1 A v rows cols in
  has_blocks zero bs bs a types x constants cf bls -> in_dims bs bs n n a bls -> fits A0 bs bs bls ->
  (forall p, In p bcsV -> contains V (fst p) = true) -> bcs_ok bcs n -> (forall b, In b bcs -> bc_num_owned b = length (bc_dofs0 b)) ->
  (forall d, constrained bcs d = true -> in_pattern A0 d d) ->
  (forall I J, dense zero A0 I J = zero) -> length b0 = n -> long0 x0 n ->
  exists AU A1 A2 b1 b2,
    assemble_matrix_bcs zero add_fn V V n n a types x constants cf [] A0 = Some AU /\
    assemble_matrix_bcs zero add_fn V V n n a types x constants cf bcsV A0 = Some A1 /\
    set_diagonal_bcs set_fn V bcsV one A1 = Some A2 /\
    apply_lifting zero one mul sub eqb [Some lf] [bcs] (match x0 with Some l => [l] | None => [] end) alpha b0 = Some b1 /\
    set_bcs zero mul sub eqb bcs x0 alpha b1 = Some b2 /\ length b2 = n /\
    forall y : nat -> T, (forall I, I < n -> tsum zero add n (fun J => mul (dense zero A2 I J) (y J)) = nth I b2 zero) <->
      (forall I g, prescribed bcs I = Some g -> y I = mul alpha (sub g (at0 zero x0 I))) /\
      (forall I, I < n -> prescribed bcs I = None -> tsum zero add n (fun J => mul (dense zero AU I J) (y J)) = nth I b0 zero).
Proof. exact @system_spec_ok. Qed.
Print Assumptions C46_system.

(** * Concrete cases *)

(** Two cells with dofs 0, 1 and 1, 2; a cell integral with coefficients 2 and 3, an
    interior facet between the cells and an exterior facet of the first one. *)
Definition kadd (m l : list Z) : list Z := map (fun p => (fst p + snd p)%Z) (combine l (m ++ repeat 0%Z (length l))).
Lemma kadd_size m l : length (kadd m l) = length l.
Proof. unfold kadd. rewrite map_length, combine_length, app_length, repeat_length. lia. Qed.
Definition ex_cell : @cell_ig Z Z := mkCI (fun l co _ _ _ _ => kadd (map (Z.mul (nth 0 co 0%Z)) [1; -1; -1; 1]%Z) l) [0; 1] [0; 1] [0; 1].
Definition ex_int : @facet_ig Z Z := mkFI (fun l _ _ _ _ _ => kadd (repeat 1%Z 16) l) [((0, 1), (1, 0))] [(Some 0, Some 1)] [(Some 0, Some 1)].
Definition ex_ext : @ent_ig Z Z := mkEI (fun l _ _ _ _ _ => kadd [5; 0; 0; 0]%Z l) [(0, 0)] [0] [0].
Definition ex_form : @form Z Z := mkForm [((0, 0), ex_cell)] [((0, 0), ex_int)] [[((0, 0), ex_ext)]].
Definition ex_coefs : @coefs Z := mkCoefs [(0, ([2; 3]%Z, 1))] [(0, ([], 0))] [[(0, ([], 0))]].
Definition ex_dm := mkCd [[0; 1]; [1; 2]] 2 1.
(** A dof transformation: in cell 1 the first dof changes sign. *)
Definition flip0 (l : list Z) (c m : nat) : list Z := map (fun '(k, v) => if (c =? 1) && (k <? m) then (- v)%Z else v) (enum l).
Definition flip1 (l : list Z) (c r : nat) : list Z := map (fun '(k, v) => if (c =? 1) && (k mod (length l / r) =? 0) then (- v)%Z else v) (enum l).
Lemma flip_nth (f : nat -> Z -> Z) (l : list Z) k : k < length l -> nth k (map (fun '(k, v) => f k v) (enum l)) 0%Z = f k (nth k l 0%Z).
Proof.
  intro H. assert (G : forall l s k, k < length l -> nth k (map (fun '(k, v) => f k v) (combine (seq s (length l)) l)) 0%Z = f (s + k) (nth k l 0%Z)); [|exact (G l 0 k H)].
  clear. induction l as [|v l IH]; intros s k H; cbn [length] in H; [lia|]. destruct k as [|k]; cbn; [now rewrite Nat.add_0_r|]. rewrite IH by lia. f_equal. lia.
Qed.
Lemma flip_size (f : nat -> Z -> Z) (l : list Z) : length (map (fun '(k, v) => f k v) (enum l)) = length l.
Proof. rewrite map_length. apply enum_len. Qed.
Lemma flip0_cols : on_columns 0%Z 2 flip0.
Proof.
  intros l c m i j H Hj Hi. unfold flip0. rewrite (flip_nth (fun k v => if (c =? 1) && (k <? m) then (- v)%Z else v)) by exact Hi. destruct (Nat.ltb_spec i 2) as [L|L].
  - rewrite (flip_nth (fun k v => if (c =? 1) && (k <? 1) then (- v)%Z else v)) by (rewrite map_length, seq_length; exact L). rewrite nth_map_seq by exact L.
    replace (i * m + j <? m) with (i <? 1); [reflexivity|]. destruct i as [|[|i]]; [|change (1 <? 1) with false; symmetry; apply Nat.ltb_ge; lia|lia]. symmetry. now apply Nat.ltb_lt.
  - replace (i * m + j <? m) with false; [now rewrite andb_false_r|]. symmetry. apply Nat.ltb_ge. nia.
Qed.
Lemma flip1_rows : on_rows 0%Z 2 flip1.
Proof.
  intros l c r st i j H Hs Hi Hj. unfold flip1. rewrite (flip_nth (fun k v => if (c =? 1) && (k mod (length l / r) =? 0) then (- v)%Z else v)) by (rewrite H; nia).
  replace (length l / r) with st by (rewrite H, Nat.mul_comm, Nat.div_mul by lia; reflexivity). rewrite Nat.add_comm, Nat.mod_add, Nat.mod_small by lia. rewrite (Nat.add_comm j). destruct (Nat.ltb_spec j 2) as [L|L].
  - set (row := map (fun j' => nth (i * st + j') l 0%Z) (seq 0 2)). assert (Lr : length row = 2) by (unfold row; now rewrite map_length, seq_length). rewrite (flip_nth (fun k v => if (c =? 1) && (k mod (length row / 1) =? 0) then (- v)%Z else v)) by lia.
    rewrite Nat.div_1_r, Lr, Nat.mod_small by lia. unfold row. rewrite nth_map_seq by exact L. reflexivity.
  - destruct j as [|j]; [lia|]. now rewrite andb_false_r.
Qed.
Definition ex_type : @ctype Z := mkCt [[0; 1]; [1; 2]] ex_dm flip0 ex_dm flip1 [].
Definition ex_x : list Z := [0; 1; 2]%Z.
Lemma ex_kernels : kernels_ok ex_form.
Proof. split; [|split]; [intros e [<-|[]]|intros e [<-|[]]|intros igs e [<-|[]] [<-|[]]]; intros co cst cd en p l; apply kadd_size. Qed.
Lemma ex_form_ok : form_ok ex_form 1.
Proof.
  split; [|split; [|split]].
  - intros ti H. assert (ti = 0) as -> by lia. split; reflexivity.
  - reflexivity.
  - intros igs [<-|[]]. reflexivity.
  - lia.
Qed.
Lemma ex_type_ok : forall ct, In ct [ex_type] -> type_ok 0%Z 1 1 ct.
Proof.
  intros ct [<-|[]]. split; [|split; [exact flip0_cols|exact flip1_rows]].
  split; [reflexivity|]. split; [reflexivity|]. split; [intros r [<-|[<-|[]]]; reflexivity|]. split; [intros r [<-|[<-|[]]]; reflexivity|]. split; intros c n l; apply flip_size.
Qed.
Definition ex_vblocks : list (@vblock Z) := match form_vblocks 0%Z ex_form [ex_type] ex_x [] ex_coefs with Some b => b | None => [] end.
Definition ex_mblocks : list (@mblock Z) := match form_mblocks 0%Z ex_form [ex_type] ex_x [] ex_coefs with Some b => b | None => [] end.
Example C47_example :
  (forall ct, In ct [ex_type] -> type_ok 0%Z 1 1 ct) /\ kernels_ok ex_form /\ form_ok ex_form 1 /\
  form_vblocks 0%Z ex_form [ex_type] ex_x [] ex_coefs = Some ex_vblocks /\ map fst ex_vblocks = [[0; 1]; [1; 2]; [0; 1]; [1; 2]; [0; 1]] /\
  (forall bl d, In bl ex_vblocks -> In d (fst bl) -> 1 * d + 1 <= length [10; 20; 30]%Z) /\
  assemble_vector 0%Z Z.add ex_form [ex_type] ex_x [] ex_coefs [10; 20; 30]%Z = Some [18; 15; 28]%Z.
Proof.
  split; [exact ex_type_ok|]. split; [exact ex_kernels|]. split; [exact ex_form_ok|]. split; [reflexivity|]. split; [reflexivity|]. split; [|reflexivity].
  intros bl d [<-|[<-|[<-|[<-|[<-|[]]]]]] [<-|[<-|[]]]; cbn; lia.
Qed.

(** All entries of a 3 x 3 matrix. *)
Definition ex_A0 : csr Z := {| mt_bs0 := 1; mt_bs1 := 1; mt_data := repeat 0%Z 9; mt_cols := [0; 1; 2; 0; 1; 2; 0; 1; 2]; mt_rp := [0; 3; 6; 9] |}.
Lemma ex_csr : csr_ok ex_A0.
Proof. split; [cbn; lia|]. split; [cbn; lia|]. split; [|reflexivity]. exists [[0; 1; 2]; [0; 1; 2]; [0; 1; 2]]. split; [reflexivity|]. split; [reflexivity|]. repeat constructor. Qed.
Lemma ex_pattern r c : r < 3 -> c < 3 -> in_pattern ex_A0 r c.
Proof. intros Hr Hc. exists [0; 1; 2]. cbn [mt_bs0 mt_bs1 ex_A0]. rewrite !Nat.div_1_r. split; [do 3 (destruct r as [|r]; [reflexivity|]); lia|]. cbn. lia. Qed.
Lemma ex_blocks : has_blocks 0%Z 1 1 ex_form [ex_type] ex_x [] ex_coefs ex_mblocks.
Proof. split; [lia|]. split; [lia|]. split; [exact ex_type_ok|]. split; [exact ex_kernels|]. split; [exact ex_form_ok|]. reflexivity. Qed.
Lemma ex_dims : in_dims 1 1 3 3 ex_form ex_mblocks.
Proof. split; [|lia]. intros bl Hbl. vm_compute in Hbl. split; intros r Hr; repeat (destruct Hbl as [<-|Hbl]; [cbn in Hr; lia|]); contradiction. Qed.
Lemma ex_fits : fits ex_A0 1 1 ex_mblocks.
Proof.
  split; [exact ex_csr|]. split; [now left|]. intros bl r k Hbl Hr Hk. destruct ex_dims as (D & _). destruct (D bl Hbl) as (D0 & D1). specialize (D0 r Hr). cbn [mt_bs0 ex_A0]. rewrite Nat.div_1_r. split; [cbn [length mt_rp ex_A0]; lia|].
  intros c l Hc Hl. specialize (D1 c Hc). apply ex_pattern; lia.
Qed.
(** Dof 0 is set to 7; dof 1 is set to 8 and then to 9. *)
Definition ex_space : space := mkSpace 1 1 3 0 true.
Definition ex_V := mkSid 0 [].
Definition ex_bcs : list (sid * bc Z) := [(ex_V, mkBC ex_space (GConst [7]%Z) [0] [] 1); (mkSid 0 [1], mkBC ex_space (GFun [0; 8; 0]%Z) [1] [] 1); (ex_V, mkBC ex_space (GConst [9]%Z) [1] [] 1)].
Lemma ex_bcs_ok : bcs_ok (map snd ex_bcs) 3.
Proof. intros b [<-|[<-|[<-|[]]]] [|[|k]] d E; try discriminate; injection E as <-; (split; [lia|discriminate]). Qed.
Example C46_example :
  has_blocks 0%Z 1 1 ex_form [ex_type] ex_x [] ex_coefs ex_mblocks /\ in_dims 1 1 3 3 ex_form ex_mblocks /\ fits ex_A0 1 1 ex_mblocks /\
  (forall p, In p ex_bcs -> contains ex_V (fst p) = true) /\ bcs_ok (map snd ex_bcs) 3 /\
  (forall b, In b (map snd ex_bcs) -> bc_num_owned b = length (bc_dofs0 b)) /\
  (forall d, constrained (map snd ex_bcs) d = true -> in_pattern ex_A0 d d) /\
  (forall I J, dense 0%Z ex_A0 I J = 0%Z) /\ long0 (Some [1; 1; 1]%Z) 3 /\
  map (prescribed (map snd ex_bcs)) [0; 1; 2] = [Some 7; Some 9; None]%Z /\
  exists A1 A2 b1 b2,
    assemble_matrix_bcs 0%Z (fun A rows cols v => mat_add Z.add 1 1 A v rows cols) ex_V ex_V 3 3 ex_form [ex_type] ex_x [] ex_coefs ex_bcs ex_A0 = Some A1 /\ mt_data A1 = [0; 0; 0; 0; 0; 0; 0; 0; 4]%Z /\
    set_diagonal_bcs (fun A rows cols v => mat_set 1 1 A v rows cols) ex_V ex_bcs 1%Z A1 = Some A2 /\ mt_data A2 = [1; 0; 0; 0; 1; 0; 0; 0; 4]%Z /\
    apply_lifting 0%Z 1%Z Z.mul Z.sub Z.eqb [Some (mkLf ex_form [ex_type] ex_x [] ex_coefs 1 1 3)] [map snd ex_bcs] [[1; 1; 1]%Z] 2%Z [10; 20; 30]%Z = Some b1 /\
    set_bcs 0%Z Z.mul Z.sub Z.eqb (map snd ex_bcs) (Some [1; 1; 1]%Z) 2%Z b1 = Some b2 /\ b2 = [12; 16; -30]%Z.
Proof.
  split; [exact ex_blocks|]. split; [exact ex_dims|]. split; [exact ex_fits|]. split; [intros p [<-|[<-|[<-|[]]]]; reflexivity|]. split; [exact ex_bcs_ok|]. split; [intros b [<-|[<-|[<-|[]]]]; reflexivity|].
  split; [intros d Hd; pose proof (constrained_lt _ 3 d ex_bcs_ok Hd); now apply ex_pattern|].
  split; [|split; [cbn; lia|split; [reflexivity|]]].
  - intros I J. unfold dense. destruct (nth_error _ _); [|reflexivity]. destruct (slice_at _ _ _); [|reflexivity]. destruct (index_in _ _); [|reflexivity]. cbn [mt_data ex_A0]. generalize ((n + n0) * mt_bs0 ex_A0 + I mod mt_bs0 ex_A0). intro k. generalize (k * mt_bs1 ex_A0 + J mod mt_bs1 ex_A0). intro i. do 9 (destruct i as [|i]; [reflexivity|]). now destruct i.
  - do 4 eexists. split; [vm_compute; reflexivity|]. split; [vm_compute; reflexivity|]. split; [vm_compute; reflexivity|]. split; [vm_compute; reflexivity|]. split; [vm_compute; reflexivity|]. split; vm_compute; reflexivity.
Qed.
(** The theorem applies to this case. *)
Example C46_example_system : exists AU A1 A2 b1 b2,
    assemble_matrix_bcs 0%Z (fun A rows cols v => mat_add Z.add 1 1 A v rows cols) ex_V ex_V 3 3 ex_form [ex_type] ex_x [] ex_coefs [] ex_A0 = Some AU /\
    assemble_matrix_bcs 0%Z (fun A rows cols v => mat_add Z.add 1 1 A v rows cols) ex_V ex_V 3 3 ex_form [ex_type] ex_x [] ex_coefs ex_bcs ex_A0 = Some A1 /\
    set_diagonal_bcs (fun A rows cols v => mat_set 1 1 A v rows cols) ex_V ex_bcs 1%Z A1 = Some A2 /\
    apply_lifting 0%Z 1%Z Z.mul Z.sub Z.eqb [Some (mkLf ex_form [ex_type] ex_x [] ex_coefs 1 1 3)] [map snd ex_bcs] [[1; 1; 1]%Z] 2%Z [10; 20; 30]%Z = Some b1 /\
    set_bcs 0%Z Z.mul Z.sub Z.eqb (map snd ex_bcs) (Some [1; 1; 1]%Z) 2%Z b1 = Some b2 /\ length b2 = 3 /\
    forall y, (forall I, I < 3 -> tsum 0%Z Z.add 3 (fun J => Z.mul (dense 0%Z A2 I J) (y J)) = nth I b2 0%Z) <->
      (forall I g, prescribed (map snd ex_bcs) I = Some g -> y I = (2 * (g - at0 0 (Some [1; 1; 1]) I))%Z) /\
      (forall I, I < 3 -> prescribed (map snd ex_bcs) I = None -> tsum 0%Z Z.add 3 (fun J => Z.mul (dense 0%Z AU I J) (y J)) = nth I [10; 20; 30]%Z 0%Z).
Proof.
  destruct C46_example as (H1 & H2 & H3 & H4 & H5 & H6 & H7 & H8 & H9 & _).
  exact (C46_system Z Z 0%Z 1%Z Z.add Z.mul Z.sub Z.opp InitialRing.Zth Z.eqb Z.eqb_eq 3 1 ex_form [ex_type] ex_x [] ex_coefs ex_mblocks ex_V ex_bcs ex_A0 [10; 20; 30]%Z (Some [1; 1; 1]%Z) 2%Z H1 H2 H3 H4 H5 H6 H7 H8 eq_refl H9).
Qed.
(** A functional: sum of 4 values. *)
Definition ex_functional : @form Z Z := mkForm [((0, 0), mkCI (fun l co _ cd _ _ => kadd [nth 0 co 0 * nth 1 cd 0]%Z l) [0; 1] [] [])] [((0, 0), mkFI (fun l _ _ _ _ _ => kadd [100]%Z l) [((0, 1), (1, 0))] [] [])] [[((0, 0), mkEI (fun l _ _ _ _ _ => kadd [1000]%Z l) [(0, 0)] [] [])]].
Lemma kadd_adds m : adds_value 0%Z Z.add (fun l (co cst : list Z) (cd : list Z) (en p : list nat) => kadd (m co cd) l).
Proof. intros v co cst cd en p. unfold value1, kadd. destruct (m co cd) as [|z mm]; cbn; do 2 f_equal; lia. Qed.
Example C47_example_scalar : functional_ok 0%Z Z.add ex_functional 1 /\ form_values 0%Z ex_functional [ex_type] ex_x [] ex_coefs = Some [2; 6; 100; 1000]%Z /\
  assemble_scalar 0%Z Z.add ex_functional [ex_type] ex_x [] ex_coefs = Some 1108%Z.
Proof.
  split; [|split; reflexivity]. split; [|split; [|split]].
  - intros ti H. assert (ti = 0) as -> by lia. split; [reflexivity|]. split; [reflexivity|]. intros igs [<-|[]]. reflexivity.
  - intros e [<-|[]]. apply (kadd_adds (fun co cd => [nth 0 co 0 * nth 1 cd 0]%Z)).
  - intros e [<-|[]]. apply (kadd_adds (fun _ _ => [100]%Z)).
  - intros igs e [<-|[]] [<-|[]]. apply (kadd_adds (fun _ _ => [1000]%Z)).
Qed.

(** * What fails *)

(** A mesh with two cell types: an exterior facet integral of a linear form is added once
    for every cell type. *)
Definition mixed_form : @form Z Z := mkForm [] [] [[((0, 0), ex_ext)]].
Theorem C47_mixed_topology_refuted :
  let types := [ex_type; ex_type] in
  (forall ct, In ct types -> type_ok 0%Z 1 1 ct) /\ kernels_ok mixed_form /\
  (exists bls, form_vblocks 0%Z mixed_form types ex_x [] ex_coefs = Some bls /\ length bls = 1 /\ vec_sum 0%Z Z.add 1 bls 0 = 5%Z) /\
  assemble_vector 0%Z Z.add mixed_form types ex_x [] ex_coefs [0; 0; 0]%Z = Some [10; 0; 0]%Z.
Proof.
  cbv zeta. split; [intros ct [<-|[<-|[]]]; apply ex_type_ok; now left|]. split.
  - split; [intros e []|]. split; [intros e []|]. intros igs e [<-|[]] [<-|[]] co cst cd en p l. apply kadd_size.
  - split; [|reflexivity]. eexists. split; [reflexivity|]. split; reflexivity.
Qed.
Print Assumptions C47_mixed_topology_refuted.
(** With a function that adds instead of setting, the diagonal is the value times the number
    of boundary conditions that contain the dof. *)
Theorem C45_added_diagonal_refuted :
  exists A', set_diagonal_bcs (fun A rows cols x => mat_add Z.add 1 1 A x rows cols) ex_V ex_bcs 1%Z ex_A0 = Some A' /\
    dense 0%Z A' 0 0 = 1%Z /\ dense 0%Z A' 1 1 = 2%Z.
Proof. eexists. split; [vm_compute; reflexivity|]. split; vm_compute; reflexivity. Qed.
Print Assumptions C45_added_diagonal_refuted.
