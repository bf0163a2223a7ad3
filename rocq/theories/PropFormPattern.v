(** C76: the matrix of a bilinear form has the entries that assembly uses. *)
From Coq Require Import ZArith Ring.
From Verif Require Import Base BaseProofs Algo Nbx World IndexMap IndexMapSpec Sparsity SparsitySpec MatrixCSR MatrixSpec MatrixPar MatrixParSpec DirichletBC
  Assemble AssembleSpec AssembleBC AssembleBcSpec FormPattern FormPatternSpec FormPatternProofs FormPatternBlocks FormPatternPar PropIndexMap PropSparsity PropAssemble.
Open Scope nat_scope.

(** The pattern of a form on one process: the pairs of dofs that meet at an entity of an
    integral, and no others. *)
Theorem C76_pattern : forall T U (a : @form T U) types, form_ok a (length types) -> cells_exist a types ->
  exists p, create_sparsity_pattern 2 a types = Some p /\ pt_final p = None /\ forall r c, In (r, c) (pt_cache p) <-> couples a types r c.
Proof. exact @created. Qed.
Print Assumptions C76_pattern.

(** Forms that are not bilinear are refused. *)
Theorem C76_rank : forall T U rank (a : @form T U) types, rank <> 2 -> create_sparsity_pattern rank a types = None.
Proof. intros T U rank a types H. unfold create_sparsity_pattern, build_sparsity_pattern. apply Nat.eqb_neq in H. rewrite H. reflexivity. Qed.
Print Assumptions C76_rank.

(** The pattern of a distributed form: an owned row has a column if and only if the two dofs
    meet on some process; a ghost row has the columns of this process. *)
Theorem C76_rows : forall T U P nbx maps0 maps1, 0 < P -> nbx_oracle P nbx -> maps_ok P maps0 -> maps_ok P maps1 ->
  forall (a : nat -> @form T U) types,
  (forall q, q < P -> form_ok (a q) (length (types q))) -> (forall q, q < P -> cells_exist (a q) (types q)) -> (forall q, q < P -> dofs_local (types q) (maps0 q) (maps1 q)) ->
  exists patterns newp newm,
  (forall q, q < P -> create_sparsity_pattern 2 (a q) (types q) = Some (patterns q)) /\
  (forall q, q < P -> sp_finalize P nbx maps0 maps1 patterns q = Some (newp q, newm q)) /\
  forall q i, q < P -> i < size_local (maps0 q) + num_ghosts (maps0 q) -> exists f row,
    pt_final (newp q) = Some f /\ slice_at (sp_edges f) (sp_offsets f) i = Some row /\ StronglySorted lt row /\
    (i < size_local (maps0 q) -> forall g, (exists c, In c row /\ local_to_global (newm q) c = Some g) <-> couples_globally P maps0 maps1 a types (im_lo (maps0 q) + i) g) /\
    (size_local (maps0 q) <= i -> forall c, In c row <-> couples (a q) (types q) i c).
Proof.
  intros T U P nbx maps0 maps1 HP Hn H0 H1 a types HF HC HL. destruct (rows_exact P nbx maps0 maps1 HP Hn H0 H1 a types HF HC HL) as (newp & newm & HR).
  exists (pats a types), newp, newm. split; [|exact HR]. intros q Hq. now apply (pats_spec P a types HF HC q Hq).
Qed.
Print Assumptions C76_rows.

(** Both kinds of matrices that are made from the pattern have all entries that assembly
    adds to. *)
Theorem C76_fits : forall T U (zero : T) P nbx maps0 maps1 bs0 bs1, 0 < P -> nbx_oracle P nbx -> maps_ok P maps0 -> maps_ok P maps1 -> 0 < bs0 -> 0 < bs1 ->
  forall (a : nat -> @form T U) types,
  (forall q, q < P -> form_ok (a q) (length (types q))) -> (forall q, q < P -> cells_exist (a q) (types q)) -> (forall q, q < P -> dofs_local (types q) (maps0 q) (maps1 q)) ->
  forall x constants cf bls, (forall q, q < P -> has_blocks zero bs0 bs1 (a q) (types q) (x q) (constants q) (cf q) (bls q)) ->
  exists patterns newp newm,
  (forall q, q < P -> create_sparsity_pattern 2 (a q) (types q) = Some (patterns q)) /\
  (forall q, q < P -> sp_finalize P nbx maps0 maps1 patterns q = Some (newp q, newm q)) /\
  forall q, q < P -> exists f A offs B offs', pt_final (newp q) = Some f /\
    csr_compact zero bs0 bs1 (sp_edges f) (sp_offsets f) (sp_offdiag f) = (A, offs) /\ fits A bs0 bs1 (bls q) /\
    csr_expanded zero bs0 bs1 (sp_edges f) (sp_offsets f) (sp_offdiag f) = Some (B, offs') /\ fits B bs0 bs1 (bls q).
Proof.
  intros T U zero P nbx maps0 maps1 bs0 bs1 HP Hn H0 H1 B0 B1 a types HF HC HL x constants cf bls HB. exists (pats a types).
  exact (created_fits zero P nbx maps0 maps1 bs0 bs1 HP Hn H0 H1 B0 B1 a types HF HC HL x constants cf bls HB).
Qed.
Print Assumptions C76_fits.

(** From the form to the matrix: creation, assembly on every process and accumulation of the
    ghost rows never fail, and every owned row then has the sum of the blocks of all
    processes. *)
Theorem C76_assembled : forall T U (zero one : T) add mul sub opp, ring_theory zero one add mul sub opp eq ->
  forall P nbx maps0 maps1 bs0 bs1, 0 < P -> nbx_oracle P nbx -> maps_ok P maps0 -> maps_ok P maps1 -> 0 < bs0 -> 0 < bs1 ->
  forall (a : nat -> @form T U) types,
  (forall q, q < P -> form_ok (a q) (length (types q))) -> (forall q, q < P -> cells_exist (a q) (types q)) -> (forall q, q < P -> dofs_local (types q) (maps0 q) (maps1 q)) ->
  forall x constants cf bls, (forall q, q < P -> has_blocks zero bs0 bs1 (a q) (types q) (x q) (constants q) (cf q) (bls q)) -> narrow_columns P maps1 ->
  forall V0 V1 dim0 dim1, exists patterns newp newm mats mats1 mats2 offs,
  (forall q, q < P -> create_sparsity_pattern 2 (a q) (types q) = Some (patterns q)) /\
  (forall q, q < P -> sp_finalize P nbx maps0 maps1 patterns q = Some (newp q, newm q)) /\
  (forall q, q < P -> exists f, pt_final (newp q) = Some f /\ csr_compact zero bs0 bs1 (sp_edges f) (sp_offsets f) (sp_offdiag f) = (mats q, offs q)) /\
  (forall q, q < P -> assemble_matrix_bcs zero (fun A rows cols v => mat_add add bs0 bs1 A v rows cols) V0 V1 dim0 dim1 (a q) (types q) (x q) (constants q) (cf q) [] (mats q) = Some (mats1 q)) /\
  (forall q, q < P -> scatter_rev zero add P maps0 newm mats1 q = Some (mats2 q)) /\
  forall q G g k0 k1, q < P -> owns (maps0 q) G -> k0 < bs0 -> k1 < bs1 ->
    entry zero maps0 newm bs0 bs1 mats2 q G g k0 k1 = mat_sum zero add bs0 bs1 (all_blocks P maps0 maps1 bls) (bs0 * G + k0) (bs1 * g + k1).
Proof.
  intros T U zero one add mul sub opp Rth P nbx maps0 maps1 bs0 bs1 HP Hn H0 H1 B0 B1 a types HF HC HL x constants cf bls HB HN V0 V1 dim0 dim1. exists (pats a types).
  exact (assembled zero one add mul sub opp Rth P nbx maps0 maps1 bs0 bs1 HP Hn H0 H1 B0 B1 a types HF HC HL x constants cf bls HB HN V0 V1 dim0 dim1).
Qed.
Print Assumptions C76_assembled.

(** * Concrete cases *)

(** The form of [PropAssemble]: a cell integral, an interior and an exterior facet. *)
Example C76_example : form_ok ex_form (length [ex_type]) /\ cells_exist ex_form [ex_type] /\
  option_map (fun p => sort_uniq (map (fun rc => 10 * fst rc + snd rc) (pt_cache p))) (create_sparsity_pattern 2 ex_form [ex_type]) = Some [0; 1; 2; 10; 11; 12; 20; 21; 22].
Proof.
  split; [exact ex_form_ok|]. split; [|vm_compute; reflexivity].
  intros [|[|ti]] ct E; [injection E as <-|discriminate E|discriminate E]. split; [|split].
  - intros i ig [H|[]]. injection H as <- <-. split; [reflexivity|]. split; intros c [<-|[<-|[]]]; cbn; lia.
  - intros i ig [H|[]]. injection H as <- <-. split; [reflexivity|]. split; intros t [<-|[]] c [H|H]; injection H as <-; cbn; lia.
  - intros igs i ig [<-|[]] [H|[]]. injection H as <- <-. split; [reflexivity|]. split; intros c [<-|[]]; cbn; lia.
Qed.

(** The world of three processes of [PropIndexMap]: process 1 owns no dof but has a cell with
    global dofs 0 and 2; process 0 has a cell with global dofs 2 and 4. *)
Definition px_rows (q : nat) : list (list nat) := match q with 0 => [[0; 1]; [2; 3]] | 1 => [[1; 2]] | _ => [[0; 1]; [2; 0]] end.
Definition px_cells (q : nat) : list nat := seq 0 (length (px_rows q)).
Definition px_type (q : nat) : @ctype Z := let dm := mkCd (px_rows q) 2 1 in mkCt (map (fun _ => [0; 1]) (px_rows q)) dm flip0 dm flip1 [].
Definition px_form (q : nat) : @form Z Z := mkForm [((0, 0), mkCI (fun l co _ _ _ _ => kadd (map (Z.mul (nth 0 co 0%Z)) [1; 2; 3; 4]%Z) l) (px_cells q) (px_cells q) (px_cells q))] [] [].
Definition px_coefs (q : nat) : @coefs Z := mkCoefs [(0, (match q with 0 => [1; 10]%Z | 1 => [100]%Z | _ => [1000; 10000]%Z end, 1))] [] [].
Definition px_bls (q : nat) : list (@mblock Z) := match form_mblocks 0%Z (px_form q) [px_type q] PropAssemble.ex_x [] (px_coefs q) with Some b => b | None => [] end.
Example C76_example_parallel :
  (forall q, q < 3 -> form_ok (px_form q) 1 /\ cells_exist (px_form q) [px_type q] /\ dofs_local [px_type q] (ex_maps q) (ex_maps q) /\
     has_blocks 0%Z 1 1 (px_form q) [px_type q] PropAssemble.ex_x [] (px_coefs q) (px_bls q)) /\ narrow_columns 3 ex_maps /\
  (** Global rows 0 to 4 of the sum of all blocks. *)
  map (fun G => map (fun g => mat_sum 0%Z Z.add 1 1 (all_blocks 3 ex_maps ex_maps px_bls) G g) (seq 0 5)) (seq 0 5) =
    [[101; 2; 200; 0; 0]; [3; 4; 0; 0; 0]; [300; 0; 10410; -20000; -20]; [0; 0; -30000; 41000; 2000]; [0; 0; -30; 3000; 4040]]%Z.
Proof.
  split; [|split].
  - intros q Hq.
    assert (F : form_ok (px_form q) 1).
    { split; [|split; [|split]]; [intros ti H; assert (ti = 0) as -> by lia; split; reflexivity|reflexivity|intros igs []|lia]. }
    split; [exact F|]. split; [|split].
    + intros [|[|ti]] ct E; [injection E as <-|discriminate E|discriminate E]. split; [|split]; [|intros i ig []|intros igs i ig []].
      intros i ig [H|[]]. injection H as <- <-. split; [reflexivity|]. split; intros c H; apply in_seq in H; cbn [px_type ct_dm0 ct_dm1 cd_rows]; lia.
    + intros ct [<-|[]]. destruct q as [|[|[|q]]]; [| | |lia]; split; intros row d Hr Hd; cbn in Hr; repeat (destruct Hr as [<-|Hr]; [cbn in Hd; vm_compute; lia|]); contradiction.
    + split; [lia|]. split; [lia|]. split; [|split; [|split; [exact F|]]].
      * intros ct [<-|[]]. split; [|split; [exact flip0_cols|exact flip1_rows]]. split; [reflexivity|]. split; [reflexivity|].
        assert (W : forall r, In r (px_rows q) -> length r = 2) by (destruct q as [|[|q]]; intros r Hr; cbn in Hr; repeat (destruct Hr as [<-|Hr]; [reflexivity|]); contradiction).
        split; [exact W|]. split; [exact W|]. split; intros c n l; apply flip_size.
      * split; [|split]; [intros e [<-|[]]; intros co cst cd en p l; apply kadd_size|intros e []|intros igs e []].
      * destruct q as [|[|[|q]]]; [| | |lia]; reflexivity.
  - intros [|[|[|r]]] Hr; [| | |lia]; vm_compute; discriminate.
  - vm_compute. reflexivity.
Qed.
(** The same from the program. *)
Definition px_pats q := match create_sparsity_pattern 2 (px_form q) [px_type q] with Some p => p | None => pt_empty end.
Definition px_fin q := match sp_finalize 3 (senders 3) ex_maps ex_maps px_pats q with Some r => r | None => (pt_empty, ex_maps q) end.
Definition px_mats q := match pt_final (fst (px_fin q)) with Some f => fst (csr_compact 0%Z 1 1 (sp_edges f) (sp_offsets f) (sp_offdiag f)) | None => mkCSR 1 1 [] [] [] end.
Definition px_mats1 q := match assemble_matrix_bcs 0%Z (fun A rows cols v => mat_add Z.add 1 1 A v rows cols) ex_V ex_V 5 5 (px_form q) [px_type q] PropAssemble.ex_x [] (px_coefs q) [] (px_mats q) with Some A => A | None => mkCSR 1 1 [] [] [] end.
Definition px_mats2 q := match scatter_rev 0%Z Z.add 3 ex_maps (fun q => snd (px_fin q)) px_mats1 q with Some A => A | None => mkCSR 1 1 [] [] [] end.
Example C76_example_run :
  map (fun q => (im_ghosts (snd (px_fin q)), mt_cols (px_mats2 q), mt_rp (px_mats2 q), mt_data (px_mats2 q))) (seq 0 3) =
  [([4; 3], [0; 1; 2; 0; 1; 0; 2; 3; 4; 2; 3], [0; 3; 5; 9; 11], [101; 2; 200; 3; 4; 300; 10410; -20; -20000; 0; 0]%Z);
   ([4; 0; 2], [1; 2; 1; 2], [0; 0; 2; 4], [0; 0; 0; 0]%Z);
   ([2], [0; 1; 2; 0; 1; 2; 0; 2], [0; 3; 6; 8], [41000; 2000; -30000; 3000; 4040; -30; 0; 0]%Z)].
Proof. vm_compute. reflexivity. Qed.
