(** Property C78: a pattern made of blocks of patterns. *)
From Verif Require Import Base BaseProofs Nbx World WorldProofs IndexMap IndexMapSpec IndexMapProofs SubMap SubMapSpec PropIndexMap PropSubMap Sparsity SparsitySpec PropSparsity
  StackPattern StackPatternSpec StackPatternProofs.
Open Scope nat_scope.

(** C78.  The stacked pattern and its maps exist on every process, and its entries are those of
    the blocks, expanded by the block sizes, in the stacked numbering. *)
Theorem C78_stacked :
  forall P nbx Ms0 Ms1 patterns, 0 < P -> nbx_oracle P nbx ->
    Ms0 <> [] -> (forall mb, In mb Ms0 -> maps_ok P (fst mb)) -> Ms1 <> [] -> (forall mb, In mb Ms1 -> maps_ok P (fst mb)) ->
    blocks_ok P Ms0 Ms1 patterns ->
  exists maps0' maps1' pats, maps_ok P maps0' /\ maps_ok P maps1' /\
    (forall r, r < P -> stack_pattern P nbx Ms0 Ms1 (map snd Ms0) (map snd Ms1) patterns r = Some (pats r, maps0' r, maps1' r) /\
       size_local (maps0' r) = stack_local Ms0 r /\ size_local (maps1' r) = stack_local Ms1 r) /\
    patterns_ok P maps0' maps1' pats /\
    forall q G g, q < P -> inserted_on maps0' maps1' pats q G g <->
      exists m n G0 g0 k l, block_inserted Ms0 Ms1 patterns q m n G0 g0 /\ stacked_index P Ms0 m G0 k G /\ stacked_index P Ms1 n g0 l g.
Proof. exact stack_pattern_ok. Qed.
Print Assumptions C78_stacked.

(** After finalisation the owned row of component [k] of index [G0] of map [m] has the columns of
    every component of the indices [g0] that some process inserted for [G0] in a block of row
    [m], and no others. *)
Theorem C78_finalized :
  forall P nbx Ms0 Ms1 patterns, 0 < P -> nbx_oracle P nbx ->
    Ms0 <> [] -> (forall mb, In mb Ms0 -> maps_ok P (fst mb)) -> Ms1 <> [] -> (forall mb, In mb Ms1 -> maps_ok P (fst mb)) ->
    blocks_ok P Ms0 Ms1 patterns ->
  exists maps0' maps1' pats newp newm,
    (forall r, r < P -> stack_pattern P nbx Ms0 Ms1 (map snd Ms0) (map snd Ms1) patterns r = Some (pats r, maps0' r, maps1' r) /\
       sp_finalize P nbx maps0' maps1' pats r = Some (newp r, newm r)) /\
    forall r, r < P -> exists f, pt_final (newp r) = Some f /\
      forall m G0 k i, i < stack_local Ms0 r -> stacked_index P Ms0 m G0 k (lsum (map (stack_local Ms0) (seq 0 r)) + i) ->
        exists row, slice_at (sp_edges f) (sp_offsets f) i = Some row /\ StronglySorted lt row /\
          (forall c, In c row -> exists n g0 l g q, local_to_global (newm r) c = Some g /\ stacked_index P Ms1 n g0 l g /\ q < P /\ block_inserted Ms0 Ms1 patterns q m n G0 g0) /\
          (forall n g0 l g q, stacked_index P Ms1 n g0 l g -> q < P -> block_inserted Ms0 Ms1 patterns q m n G0 g0 -> exists c, In c row /\ local_to_global (newm r) c = Some g).
Proof. exact stack_finalized. Qed.
Print Assumptions C78_finalized.

(** A finalised pattern cannot be a block, whatever the rest of the arguments. *)
Theorem C78_finalised_fails :
  forall P nbx Ms0 Ms1 bs0 bs1 patterns r m n ps p f, nth_error (patterns r) m = Some ps -> nth_error ps n = Some (Some p) -> pt_final p = Some f ->
    stack_pattern P nbx Ms0 Ms1 bs0 bs1 patterns r = None.
Proof. exact stack_final_fails. Qed.
Print Assumptions C78_finalised_fails.

(** Three processes, a scalar and a blocked field; the second has no diagonal block. *)
Definition ex_Ms : list (world * nat) := [(ex_maps, 1); (imap_plain 3 (fun r => r), 2)].
Definition ex_blocks (r : nat) : list (list (option pattern)) :=
  match r with
  | 0 => [[Some (mkPat [(0, 3); (3, 1)] None); Some pt_empty]; [Some pt_empty; None]]
  | 1 => [[Some pt_empty; Some (mkPat [(2, 0)] None)]; [Some (mkPat [(0, 1)] None); None]]
  | _ => [[Some (mkPat [(1, 1)] None); Some (mkPat [(2, 1)] None)]; [Some (mkPat [(1, 0)] None); None]]
  end.
Example ex_Ms_ok : forall mb, In mb ex_Ms -> maps_ok 3 (fst mb).
Proof. intros mb [<-|[<-|[]]]; [exact ex_maps_ok|]. apply C12_constructor_no_ghosts. lia. Qed.
Example ex_blocks_ok : blocks_ok 3 ex_Ms ex_Ms ex_blocks.
Proof.
  intros q Hq m ps Em. destruct m as [|[|m]]; [| |destruct q as [|[|q]]; destruct m; discriminate].
  all: eexists _, _; split; [reflexivity|]; intros n op En.
  all: destruct n as [|[|n]]; [| |exfalso; destruct q as [|[|[|q]]]; [| | |lia]; injection Em as <-; destruct n; discriminate].
  all: eexists _, _; split; [reflexivity|]; intros p ->; destruct q as [|[|[|q]]]; [| | |lia]; injection Em as <-; try discriminate En; injection En as <-.
  all: split; [reflexivity|]; intros i c H; vm_compute in H; repeat (destruct H as [H|H]; [injection H as <- <-; vm_compute; lia|]); destruct H.
Qed.
Example ex_stacked :
  map (fun r => option_map (fun x => (fst (fst x), im_lo (snd (fst x)), im_hi (snd (fst x)), im_ghosts (snd (fst x)))) (stack_pattern 3 (senders 3) ex_Ms ex_Ms [1; 2] [1; 2] ex_blocks r)) (seq 0 3) =
  [Some (mkPat [(0, 3); (3, 1)] None, 0, 3, [6]); Some (mkPat [(4, 0); (4, 1); (0, 3); (1, 3)] None, 3, 5, [6; 0; 2]);
   Some (mkPat [(1, 1); (6, 4); (6, 5); (4, 0); (5, 0)] None, 5, 11, [2])].
Proof. vm_compute. reflexivity. Qed.
Example ex_stacked_final : stack_pattern 3 (senders 3) ex_Ms ex_Ms [1; 2] [1; 2] (fun _ => [[Some (mkPat [] (Some (mkSP [] [0] [] [] [])))]]) 0 = None.
Proof. vm_compute. reflexivity. Qed.
