(** Property C22: sparsity patterns. *)
From Verif Require Import Base Nbx World WorldProofs IndexMap IndexMapSpec IndexMapProofs PropIndexMap PropSubMap Sparsity SparsitySpec SparsityProofs.

(** C22, insertion: any sequence of calls before finalisation caches exactly what was
    inserted. *)
Theorem C22_insertions :
  forall ops, exists p, sp_run ops pt_empty = Some p /\ pt_final p = None /\
    forall i c, In (i, c) (pt_cache p) <-> exists op, In op ops /\ inserts op i c.
Proof. exact insertions_statement. Qed.
Print Assumptions C22_insertions.

(** C22, finalisation.  The new column map extends the old one with ghosts that are
    columns inserted for owned rows. *)
Theorem C22_finalize :
  forall P nbx maps0 maps1 patterns, 0 < P -> nbx_oracle P nbx -> maps_ok P maps0 -> maps_ok P maps1 ->
    patterns_ok P maps0 maps1 patterns ->
  exists newp newm,
    (forall r, r < P -> sp_finalize P nbx maps0 maps1 patterns r = Some (newp r, newm r)) /\
    maps_ok P newm /\
    forall r, r < P ->
      im_lo (newm r) = im_lo (maps1 r) /\ im_hi (newm r) = im_hi (maps1 r) /\
      (exists ext exto, im_ghosts (newm r) = im_ghosts (maps1 r) ++ ext /\
         im_owners (newm r) = im_owners (maps1 r) ++ exto /\
         forall g, In g ext -> exists i q, i < size_local (maps0 r) /\ q < P /\
                     inserted_on maps0 maps1 patterns q (im_lo (maps0 r) + i) g) /\
      exists f, pt_final (newp r) = Some f /\
        sp_col_ghosts f = im_ghosts (newm r) /\ sp_col_owners f = im_owners (newm r) /\
        length (sp_offsets f) = S (size_local (maps0 r) + num_ghosts (maps0 r)) /\
        length (sp_offdiag f) = size_local (maps0 r) + num_ghosts (maps0 r) /\
        (exists rows, sp_edges f = concat rows /\ sp_offsets f = psums (map (@length nat) rows)) /\
        spat_ok maps0 maps1 patterns P r (newm r) f.
Proof. exact finalize_ok. Qed.
Print Assumptions C22_finalize.

(** C22, misuse: reading before finalisation, inserting or finalising after it. *)
Theorem C22_misuse_fails :
  forall p, match pt_final p with
  | None => sp_graph p = None /\ sp_num_nonzeros p = None /\ sp_off_diagonal_offsets p = None /\
            (forall i, sp_nnz_diag p i = None) /\ (forall i, sp_nnz_off_diag p i = None) /\
            forall m, sp_column_indices p m = None
  | Some _ => (forall op, sp_apply p op = None) /\
              forall P nbx maps0 maps1 patterns r, patterns r = p -> sp_finalize P nbx maps0 maps1 patterns r = None
  end.
Proof. exact misuse_statement. Qed.
Print Assumptions C22_misuse_fails.

(** The accessors after finalisation. *)
Theorem C22_accessors :
  forall P maps0 maps1 patterns r m1' p f, pt_final p = Some f ->
    length (sp_offsets f) = S (size_local (maps0 r) + num_ghosts (maps0 r)) ->
    spat_ok maps0 maps1 patterns P r m1' f -> sp_col_ghosts f = im_ghosts m1' ->
    sp_graph p = Some (sp_edges f, sp_offsets f) /\ sp_num_nonzeros p = Some (length (sp_edges f)) /\
    sp_column_indices p m1' = Some (global_indices m1') /\
    forall i, i < size_local (maps0 r) + num_ghosts (maps0 r) -> exists row nd no,
      slice_at (sp_edges f) (sp_offsets f) i = Some row /\
      sp_nnz_diag p i = Some nd /\ sp_nnz_off_diag p i = Some no /\
      nd = length (filter (fun c => c <? size_local m1') row) /\ nd + no = length row.
Proof. exact accessors_statement. Qed.
Print Assumptions C22_accessors.

(** Three ranks: rank 1 owns nothing and inserts in its ghost rows; rank 2 gets two new
    ghost columns. *)
Definition ex_ops (r : nat) : list sp_op :=
  match r with
  | 0 => [InsertBlock [0; 2] [2; 0; 2]; InsertEntry 3 1]
  | 1 => [InsertBlock [0; 1] [2; 1]; InsertDiagonal [2]]
  | 2 => [InsertDiagonal [0; 1]; InsertEntry 1 2; InsertEntry 1 1]
  | _ => []
  end.
Definition ex_pats (r : nat) : pattern := match sp_run (ex_ops r) pt_empty with Some p => p | None => pt_empty end.
Example ex_pats_ok : patterns_ok 3 ex_maps ex_maps ex_pats.
Proof.
  intros q Hq. split; [destruct q as [|[|[|q]]]; [reflexivity..|lia]|]. intros i c H.
  destruct q as [|[|[|q]]]; [| | |lia]; vm_compute in H;
    repeat (destruct H as [H|H]; [injection H as <- <-; vm_compute; lia|]); destruct H.
Qed.
Example ex_finalize :
  map (fun r => option_map (fun pm => (pt_final (fst pm), im_ghosts (snd pm), im_owners (snd pm)))
                  (sp_finalize 3 (senders 3) ex_maps ex_maps ex_pats r)) (seq 0 3) =
  [Some (Some (mkSP [0;2;0;2;1] [0;2;2;4;5] [2;0;2;1] [4] [2]), [4], [2]);
   Some (Some (mkSP [1;2;1;2;2] [0;2;4;5] [0;0;0] [4;0;2] [2;0;0]), [4;0;2], [2;0;0]);
   Some (Some (mkSP [0;1;2;3;4] [0;1;5;5] [1;1;0] [2;1;0] [0;0;0]), [2;1;0], [0;0;0])].
Proof. vm_compute. reflexivity. Qed.
