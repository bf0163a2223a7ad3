(** Properties C10 to C13. *)
From Verif Require Import Base Algo Nbx World IndexMap IndexMapSpec ImSharedProofs IndexMapProofs.

(** [maps_ok] (IndexMapSpec.v) is what the constructors establish: the hypothesis of the
    theorems below is met by every index map a user can create. *)
Theorem C12_constructor :
  forall P nbx local_size ghosts owners, nbx_oracle P nbx -> 0 < P ->
    inputs_ok P local_size ghosts owners ->
    exists maps, maps_ok P maps /\
      forall r, r < P -> imap_make P nbx local_size ghosts owners r = Some (maps r) /\
        im_ghosts (maps r) = ghosts r /\ im_owners (maps r) = owners r /\
        size_local (maps r) = local_size r /\
        im_size_global (maps r) = lsum (map local_size (seq 0 P)).
Proof. exact maps_make_ok. Qed.
Print Assumptions C12_constructor.

Theorem C12_constructor_no_ghosts :
  forall P local_size, 0 < P -> maps_ok P (imap_plain P local_size).
Proof. exact plain_ok. Qed.
Print Assumptions C12_constructor_no_ghosts.

(** C12: who is a source and a destination, in terms of the ghosts. *)
Theorem C12_dest :
  forall P maps, maps_ok P maps -> forall r s, r < P ->
    In s (im_dest (maps r)) <-> s < P /\ exists g, In g (im_ghosts (maps s)) /\ owns (maps r) g.
Proof. exact dest_iff. Qed.
Print Assumptions C12_dest.

(** C10 *)
Theorem C10_ranges_partition :
  forall P maps, 0 < P -> maps_ok P maps ->
    let n := lsum (map (fun q => size_local (maps q)) (seq 0 P)) in
    (forall r, r < P -> im_lo (maps r) = lsum (map (fun q => size_local (maps q)) (seq 0 r)) /\
                        im_hi (maps r) = lsum (map (fun q => size_local (maps q)) (seq 0 (S r)))) /\
    (forall r g, r < P -> owns (maps r) g -> g < n) /\
    (forall g, g < n -> exists r, r < P /\ owns (maps r) g /\ forall s, s < P -> owns (maps s) g -> s = r).
Proof. exact ranges_partition. Qed.
Print Assumptions C10_ranges_partition.

(** C11 *)
Theorem C11_local_global_inverse :
  forall P maps, maps_ok P maps -> forall r, r < P ->
    let m := maps r in
    (forall i, (exists g, local_to_global m i = Some g) <-> i < size_local m + num_ghosts m) /\
    (forall i g, local_to_global m i = Some g -> global_to_local m g = Z.of_nat i) /\
    (forall g, (0 <= global_to_local m g)%Z -> local_to_global m (Z.to_nat (global_to_local m g)) = Some g) /\
    (forall g, global_to_local m g = (-1)%Z <-> ~ owns m g /\ ~ In g (im_ghosts m)) /\
    (forall i, nth_error (global_indices m) i = local_to_global m i).
Proof. exact l2g_all. Qed.
Print Assumptions C11_local_global_inverse.

(** C13 *)
Theorem C13_index_to_dest_ranks :
  forall P maps nbx, nbx_oracle P nbx -> maps_ok P maps -> forall r, r < P ->
    exists data offsets, index_to_dest_ranks P nbx maps r = Some (data, offsets) /\
    length offsets = size_local (maps r) + num_ghosts (maps r) + 1 /\
    (forall i, i < size_local (maps r) -> exists ranks,
       slice_at data offsets i = Some ranks /\ StronglySorted lt ranks /\
       forall q, In q ranks <-> q < P /\ In (im_lo (maps r) + i) (im_ghosts (maps q))) /\
    (forall k g o, nth_error (im_ghosts (maps r)) k = Some g -> nth_error (im_owners (maps r)) k = Some o ->
       exists ranks, slice_at data offsets (size_local (maps r) + k) = Some ranks /\ StronglySorted lt ranks /\
       forall q, In q ranks <-> q < P /\ q <> r /\ (q = o \/ In g (im_ghosts (maps q)))).
Proof. exact i2d_statement. Qed.
Print Assumptions C13_index_to_dest_ranks.

Theorem C13_shared_indices :
  forall P maps, maps_ok P maps -> forall r, r < P -> exists l,
    shared_indices P maps r = Some l /\ StronglySorted lt l /\
    forall i, In i l <-> i < size_local (maps r) /\
                         exists q, q < P /\ In (im_lo (maps r) + i) (im_ghosts (maps q)).
Proof. exact shared_indices_ok. Qed.
Print Assumptions C13_shared_indices.

Theorem C13_weights_src :
  forall P maps, maps_ok P maps -> forall r, r < P ->
    weights_src (maps r)
    = Some (map (fun s => length (filter (Nat.eqb s) (im_owners (maps r)))) (im_src (maps r))).
Proof. exact weights_src_ok. Qed.
Print Assumptions C13_weights_src.

Theorem C13_weights_dest :
  forall P maps, maps_ok P maps -> forall r, r < P ->
    weights_dest P maps r
    = Some (map (fun s => length (filter (Nat.eqb r) (im_owners (maps s)))) (im_dest (maps r))).
Proof. exact weights_dest_ok. Qed.
Print Assumptions C13_weights_dest.

(** A world of three ranks: index 2 is seen by all, rank 1 owns nothing. *)
Definition ex_size (r : nat) : nat := match r with 0 => 3 | 2 => 2 | _ => 0 end.
Definition ex_ghosts (r : nat) : list nat := match r with 0 => [4] | 1 => [4; 0; 2] | 2 => [2] | _ => [] end.
Definition ex_owners (r : nat) : list nat := match r with 0 => [2] | 1 => [2; 0; 0] | 2 => [0] | _ => [] end.
Definition ex_maps (r : nat) : imap :=
  match imap_make 3 (senders 3) ex_size ex_ghosts ex_owners r with Some m => m | None => mkIM 0 0 0 [] [] [] [] end.

Example ex_inputs : inputs_ok 3 ex_size ex_ghosts ex_owners.
Proof.
  intros [|[|[|r]]] Hr; [| | |lia]; (split; [reflexivity|split; [cbn [ex_ghosts]; repeat first [apply NoDup_nil | apply NoDup_cons; [cbn; lia|]]|]]);
    intros [|[|[|k]]] g o Hg Ho; cbn in *; try discriminate; try (destruct k; discriminate);
    inversion Hg; inversion Ho; subst; vm_compute; lia.
Qed.
Example ex_result :
  map ex_maps (seq 0 3) =
    [mkIM 0 3 5 [4] [2] [2] [1;2]; mkIM 3 3 5 [4;0;2] [2;0;0] [0;2] []; mkIM 3 5 5 [2] [0] [0] [0;1]] /\
  map (index_to_dest_ranks 3 (senders 3) ex_maps) (seq 0 3)
  = [Some ([1;1;2;1;2], [0;1;1;3;5]); Some ([0;2;0;0;2], [0;2;3;5]); Some ([0;1;0;1], [0;0;2;4])] /\
  map (shared_indices 3 ex_maps) (seq 0 3) = [Some [0;2]; Some []; Some [1]].
Proof. vm_compute. split; [reflexivity|split; reflexivity]. Qed.
