(** Proofs about VTKHDF files, for property C91: time steps. *)
From Coq Require Import Permutation.
From Verif Require Import Base BaseProofs Xdmf XdmfSpec XdmfProofs VtkHdf VtkHdfSpec VtkHdfWrite VtkHdfTrip.
Open Scope nat_scope.

Lemma write_rows_ok {U} P w m (n : nat -> nat) (d : nat -> list U) order fill old first : 0 < w -> (forall r, r < P -> length (d r) = n r * w) -> Permutation order (seq 0 P) ->
  length old = m * w -> (forall r, r < P -> first r = m + before n r) -> write_rows P order fill old (before n P) w first d = Some (old ++ gathered P d).
Proof.
  intros Hw Hd Ho Hl Hf. set (n' := fun r => match r with 0 => m | S r => n r end). set (d' := fun r => match r with 0 => old | S r => d r end).
  assert (Hb : forall r, before n' (S r) = m + before n r) by (induction r as [|r IH]; [cbn; lia|]; rewrite before_S, IH, before_S; cbn; lia).
  assert (Hg : gathered (S P) d' = old ++ gathered P d) by (unfold gathered; cbn [seq map concat d']; rewrite <- seq_shift, map_map; reflexivity).
  assert (Hd' : forall r, r < S P -> length (d' r) = n' r * w) by (intros [|r] Hr; [exact Hl|apply Hd; lia]).
  set (off := fun r => match r with 0 => 0 | S r => first r end). set (fill' := fun i => fill (i - m * w)).
  assert (H : add_data_item (0 :: map S order) fill' (before n' (S P)) w off d' = Some (gathered (S P) d')).
  { apply (add_data_item_ok (S P) w n' d' Hd'); [cbn [seq]; apply perm_skip; rewrite <- seq_shift; now apply Permutation_map|exact Hw|reflexivity|]. intros [|r] Hr; [reflexivity|]. cbn [off]. now rewrite Hf, Hb by lia. }
  rewrite <- Hg, <- H. unfold add_data_item, write_rows. rewrite (proj2 (Nat.eqb_neq w 0)) by lia. cbn [ofold].
  assert (Hfirst : forall r, r < S P -> firstn (length (d' r) / w * w) (d' r) = d' r) by (intros r Hr; rewrite Hd', Nat.div_mul, <- Hd' by (exact Hr || lia); apply firstn_all).
  rewrite Hfirst by lia. unfold write_slab at 2. cbn [off d' Nat.mul Nat.add]. rewrite map_length, seq_length, Hb, Hl. rewrite (proj2 (Nat.leb_le _ _)) by lia. cbn [firstn app obind].
  rewrite ofold_map. replace (skipn (m * w) (map fill' (seq 0 ((m + before n P) * w)))) with (map fill (seq 0 (before n P * w))).
  - apply ofold_ext. intros r F Hr. apply (Permutation_in _ Ho), in_seq in Hr. rewrite Hfirst by lia. reflexivity.
  - rewrite Nat.mul_add_distr_r, seq_app, map_app. rewrite skipn_app, skipn_all2, map_length, seq_length, Nat.sub_diag by (rewrite map_length, seq_length; lia). cbn [skipn app Nat.add]. rewrite (seq_from (m * w)), map_map. apply map_ext. intro i. unfold fill'. f_equal. lia.
Qed.
Lemma repeat_head {X} (x : X) n : 0 < n -> nth_error (repeat x n) 0 = Some x.
Proof. destruct n; [lia|reflexivity]. Qed.
Section Steps.
Context {U T : Type}.
Variables (P w : nat) (owned : nat -> nat) (fill : nat -> U).
Hypothesis HP : 0 < P.
Hypothesis Hw : 0 < w.
Hypothesis Hn : forall r, r < P -> 0 < owned r.
(** A time step: time, order of writing, data *)
Definition step_ok (s : T * list nat * (nat -> list U)) : Prop := Permutation (snd (fst s)) (seq 0 P) /\ forall r, r < P -> length (snd s r) = owned r * w.
Definition after (l : list (T * list nat * (nat -> list U))) : steps U T :=
  mk_steps U T (match l with [] => None | _ => Some (length l) end) (map (fun k => k * before owned P) (seq 0 (length l))) (map (fun s => fst (fst s)) l)
    (match l with [] => None | _ => Some (w, concat (map (fun s => gathered P (snd s)) l)) end).
Lemma rows_length l : (forall s, In s l -> step_ok s) -> length (concat (map (fun s => gathered P (snd s)) l)) = length l * before owned P * w.
Proof.
  induction l as [|s l IH]; intro H; [reflexivity|]. cbn [map concat length]. rewrite app_length, IH by (intros; apply H; now right). rewrite (gathered_length P w owned (snd s)) by (apply (H s (or_introl eq_refl)) || lia). lia.
Qed.
Lemma widths s : step_ok s -> omap (width owned (snd s)) (seq 0 P) = Some (repeat w P).
Proof.
  intros [_ H]. rewrite (omap_map _ (fun _ => w)); [now rewrite map_const, seq_length|]. intros r Hr. apply in_seq in Hr. unfold width. specialize (H r ltac:(lia)). specialize (Hn r ltac:(lia)). rewrite H. destruct (Nat.eqb_spec (owned r) 0); [lia|].
  rewrite (Nat.mul_comm (owned r)), Nat.mod_mul, Nat.div_mul by lia. reflexivity.
Qed.
Lemma write_data_ok l s : (forall s', In s' l -> step_ok s') -> step_ok s ->
  write_data P (snd (fst s)) fill owned (snd s) (fst (fst s)) (after l) = Some (after (l ++ [s])).
Proof.
  intros Hl Hs. unfold write_data. rewrite (widths s Hs). cbn [obind]. rewrite (repeat_head w P HP). cbn [obind].
  replace (forallb (Nat.eqb w) (repeat w P)) with true by (symmetry; apply forallb_forall; intros y Hy; apply repeat_spec in Hy; subst y; apply Nat.eqb_refl). cbn [negb].
  destruct Hs as [Ho Hd]. rewrite exscan_before.
  assert (E : after (l ++ [s]) = mk_steps U T (Some (S (length l))) (map (fun k => k * before owned P) (seq 0 (length l)) ++ [length l * before owned P]) (map (fun s => fst (fst s)) l ++ [fst (fst s)]) (Some (w, concat (map (fun s => gathered P (snd s)) l) ++ gathered P (snd s)))).
  { unfold after. rewrite !map_app, concat_app, app_length. cbn [length map concat]. rewrite app_nil_r, Nat.add_1_r, seq_S, map_app. cbn [map Nat.add]. destruct l; reflexivity. }
  rewrite E. clear E. unfold after. cbn [n_steps s_data s_offsets s_times]. destruct l as [|s0 l0] eqn:El.
  - cbn [obind]. rewrite (write_rows_ok P w 0 owned) by (auto; intros; cbn; apply exscan_before). reflexivity.
  - rewrite <- El in *. assert (Hlen : length l = S (length l0)) by (rewrite El; reflexivity). cbn [obind fst snd]. destruct (Nat.eqb_spec w 0); [lia|]. rewrite rows_length by exact Hl. rewrite Nat.div_mul by lia. cbn [obind]. rewrite Nat.eqb_refl. cbn [negb].
    rewrite (write_rows_ok P w (length l * before owned P) owned) by (auto; try (apply rows_length; exact Hl); intros; cbv beta; now rewrite exscan_before). reflexivity.
Qed.
Lemma steps_ok l : (forall s, In s l -> step_ok s) ->
  ofold (fun f s => write_data P (snd (fst s)) fill owned (snd s) (fst (fst s)) f) l (mk_steps U T None [] [] None) = Some (after l).
Proof.
  intro H. destruct (ofold_prefix_ind (fun f s => write_data P (snd (fst s)) fill owned (snd s) (fst (fst s)) f) (fun p f => f = after p) l (mk_steps U T None [] [] None)) as (f & E & ->).
  - reflexivity.
  - intros p s r f El ->. exists (after (p ++ [s])). split; [|reflexivity]. assert (Hp : forall s', In s' p -> step_ok s') by (intros; apply H; rewrite El; apply in_or_app; now left). assert (Hs : step_ok s) by (apply H; rewrite El; apply in_or_app; right; now left). exact (write_data_ok p s Hp Hs).
  - exact E.
Qed.
End Steps.
