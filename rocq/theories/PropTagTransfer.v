(** Property C67. *)
From Verif Require Import Base BaseProofs TagTransfer TagTransferSpec TagTransferProofs.

(** C67.  The sub-mesh has a tag exactly where the parent entity with the same vertices has one,
    with the same value; values equal to the largest value of the type are dropped.  [tags] are
    the entities and values of the parent ([sub_of_parent] is in TagTransferSpec.v). *)
Theorem C67_transfer :
  forall max_val tag_dim submesh_tdim nc np nv ne cell_map vertex_map sub_e_to_v sub_c_to_e e_to_v e_to_c tags,
  sub_of_parent tag_dim submesh_tdim nc np nv ne cell_map vertex_map sub_e_to_v sub_c_to_e e_to_v e_to_c ->
  tag_dim <= submesh_tdim -> NoDup (map fst tags) -> (forall p v, In (p, v) tags -> p < length e_to_v) ->
  exists out,
    transfer_meshtags max_val tag_dim submesh_tdim (Some nc) (Some np) cell_map nv vertex_map (Some sub_e_to_v) (Some sub_c_to_e) (Some ne) (Some e_to_v) (Some e_to_c) tags = Some out /\
    StronglySorted lt (map fst out) /\
    forall s v, In (s, v) out <-> v <> max_val /\ exists p, In (p, v) tags /\ same_entity vertex_map sub_e_to_v e_to_v s p.
Proof. exact transfer_ok. Qed.
Print Assumptions C67_transfer.

(** Tags of a dimension higher than the sub-mesh are refused. *)
Theorem C67_dimension :
  forall max_val tag_dim submesh_tdim nc np cell_map nv vertex_map sub_e_to_v sub_c_to_e ne e_to_v e_to_c tags, submesh_tdim < tag_dim ->
  transfer_meshtags max_val tag_dim submesh_tdim nc np cell_map nv vertex_map sub_e_to_v sub_c_to_e ne e_to_v e_to_c tags = None.
Proof. intros max_val tag_dim submesh_tdim nc np cell_map nv vertex_map sub_e_to_v sub_c_to_e ne e_to_v e_to_c tags H. unfold transfer_meshtags. now apply Nat.ltb_lt in H as ->. Qed.
Print Assumptions C67_dimension.

(** ** Example: triangles 0 1 2 and 1 2 3; the sub-mesh is the second one; edges are tagged. *)
Definition tx_sub_ev : list (list nat) := [[1; 2]; [0; 2]; [0; 1]].
Definition tx_ev : list (list nat) := [[1; 2]; [0; 2]; [0; 1]; [2; 3]; [1; 3]].
Definition tx_ec : list (list nat) := [[0; 1]; [0]; [0]; [1]; [1]].
Definition tx_vmap : list nat := [1; 2; 3].
Definition tx_same s p : bool :=
  match nth_error tx_sub_ev s, nth_error tx_ev p with
  | Some vs, Some ws => forallb (fun v => existsb (Nat.eqb (S v)) ws) vs && forallb (fun w => existsb (fun v => w =? S v) vs) ws
  | _, _ => false end.
Lemma tx_map w v : nth_error tx_vmap w = Some v <-> w < 3 /\ v = S w.
Proof. destruct w as [|[|[|w]]]; cbn; split; try (intro H; injection H as <-; lia); try (intros (A & B); subst; try reflexivity; lia). destruct w; discriminate. Qed.
Lemma tx_same_iff s p : same_entity tx_vmap tx_sub_ev tx_ev s p <-> tx_same s p = true.
Proof.
  unfold tx_same. split.
  - intros (vs & ws & H1 & H2 & H). rewrite H1, H2. apply andb_true_iff. split; apply forallb_forall.
    + intros v Hv. apply existsb_exists. exists (S v). split; [|apply Nat.eqb_refl]. apply H. exists v. split; [exact Hv|]. apply tx_map. split; [|reflexivity].
      apply nth_error_In in H1. cbn in H1. repeat destruct H1 as [<-|H1]; try contradiction; cbn in Hv; lia.
    + intros w Hw. apply H in Hw as (v & Hv & E). apply tx_map in E as (_ & ->). apply existsb_exists. exists v. split; [exact Hv|apply Nat.eqb_refl].
  - destruct (nth_error tx_sub_ev s) as [vs|] eqn:H1; [|discriminate]. destruct (nth_error tx_ev p) as [ws|] eqn:H2; [|discriminate]. rewrite andb_true_iff, !forallb_forall. intros (A & B).
    exists vs, ws. split; [exact H1|]. split; [exact H2|]. intro v. split.
    + intro Hv. specialize (B v Hv). apply existsb_exists in B as (w & Hw & E). apply Nat.eqb_eq in E. exists w. split; [exact Hw|]. apply tx_map. split; [|exact E].
      apply nth_error_In in H1. cbn in H1. repeat destruct H1 as [<-|H1]; try contradiction; cbn in Hw; lia.
    + intros (w & Hw & E). apply tx_map in E as (_ & ->). specialize (A w Hw). apply existsb_exists in A as (x & Hx & E). apply Nat.eqb_eq in E. now subst.
Qed.
Lemma tx_pairs s p : tx_same s p = true -> (s, p) = (0, 3) \/ (s, p) = (1, 4) \/ (s, p) = (2, 0).
Proof.
  destruct s as [|[|[|s]]]; [| | |unfold tx_same; cbn; destruct s; discriminate]; destruct p as [|[|[|[|[|p]]]]]; cbn; auto; try discriminate;
    unfold tx_same; cbn; destruct p; discriminate.
Qed.
Example C67_example : sub_of_parent 1 2 1 2 3 3 [1] tx_vmap tx_sub_ev [[0; 1; 2]] tx_ev tx_ec.
Proof.
  constructor.
  - split; [reflexivity|]. split; [repeat constructor; cbn; tauto|]. cbn. lia.
  - split; [reflexivity|]. intros s vs v H Hv. apply nth_error_In in H. cbn in H. repeat destruct H as [<-|H]; try contradiction; cbn in Hv; lia.
  - split; [reflexivity|]. split; [reflexivity|]. intros [|c] es s H Hs; [|destruct c; discriminate]. injection H as <-. cbn in Hs. lia.
  - intros s s' p H1 H2. apply tx_same_iff, tx_pairs in H1. apply tx_same_iff, tx_pairs in H2. clear - H1 H2.
    destruct H1 as [H1|[H1|H1]]; destruct H2 as [H2|[H2|H2]]; injection H1 as -> E1; injection H2 as -> E2; congruence.
  - intros s p p' H1 H2. apply tx_same_iff, tx_pairs in H1. apply tx_same_iff, tx_pairs in H2. clear - H1 H2.
    destruct H1 as [H1|[H1|H1]]; destruct H2 as [H2|[H2|H2]]; injection H1 as E1 ->; injection H2 as E2 ->; congruence.
  - intros s p vs ws H1 H2 H. apply tx_same_iff. assert (A : forallb (fun v => existsb (Nat.eqb (S v)) ws) vs = true).
    { apply forallb_forall. intros v Hv. apply existsb_exists. exists (S v). split; [|apply Nat.eqb_refl]. apply (H v (S v) Hv). apply tx_map. split; [|reflexivity].
      apply nth_error_In in H1. cbn in H1. repeat destruct H1 as [<-|H1]; try contradiction; cbn in Hv; lia. }
    clear H. destruct s as [|[|[|s]]]; [| | |destruct s; discriminate]; (destruct p as [|[|[|[|[|p]]]]]; [| | | | |destruct p; discriminate]);
      injection H1 as <-; injection H2 as <-; cbn in A; try discriminate; reflexivity.
  - discriminate.
  - intros _. split; [reflexivity|]. split.
    + intros p cs C H HC. apply nth_error_In in H. cbn in H. repeat destruct H as [<-|H]; try contradiction; cbn in HC; lia.
    + intros s p H. apply tx_same_iff, tx_pairs in H. destruct H as [H|[H|H]]; injection H as -> ->.
      * exists 0, 1, [0; 1; 2], [1]. cbn. auto 10.
      * exists 0, 1, [0; 1; 2], [1]. cbn. auto 10.
      * exists 0, 1, [0; 1; 2], [0; 1]. cbn. auto 10.
Qed.
Example C67_computed :
  transfer_meshtags 100 1 2 (Some 1) (Some 2) [1] 3 tx_vmap (Some tx_sub_ev) (Some [[0; 1; 2]]) (Some 3) (Some tx_ev) (Some tx_ec) [(0, 7%Z); (2, 5%Z); (4, 9%Z)]
  = Some [(1, 9%Z); (2, 7%Z)] /\
  transfer_meshtags 100 2 2 (Some 1) (Some 2) [1] 3 tx_vmap (Some [[0; 1; 2]]) (Some [[0]]) (Some 1) (Some [[0; 1; 2]; [1; 2; 3]]) None [(0, 7%Z); (1, 5%Z)]
  = Some [(0, 5%Z)].
Proof. vm_compute. split; reflexivity. Qed.
(** Cells of the sub-mesh as tagged entities. *)
Example C67_example_cells : sub_of_parent 2 2 1 2 3 1 [1] tx_vmap [[0; 1; 2]] [[0]] [[0; 1; 2]; [1; 2; 3]] [].
Proof.
  assert (S : forall s p, same_entity tx_vmap [[0; 1; 2]] [[0; 1; 2]; [1; 2; 3]] s p -> s = 0 /\ p = 1).
  { intros s p (vs & ws & H1 & H2 & H). destruct s as [|s]; [|destruct s; discriminate]. injection H1 as <-. split; [reflexivity|].
    destruct p as [|[|p]]; [|reflexivity|destruct p; discriminate]. injection H2 as <-. destruct (proj1 (H 0)) as (w & Hw & E); [cbn; auto|]. apply tx_map in E. lia. }
  assert (S1 : same_entity tx_vmap [[0; 1; 2]] [[0; 1; 2]; [1; 2; 3]] 0 1).
  { exists [0; 1; 2], [1; 2; 3]. split; [reflexivity|]. split; [reflexivity|]. intro v. split.
    - intro H. exists (v - 1). split; [cbn in *; lia|]. apply tx_map. cbn in H. lia.
    - intros (w & Hw & E). apply tx_map in E as (_ & ->). cbn in *. lia. }
  constructor.
  - split; [reflexivity|]. split; [repeat constructor; cbn; tauto|]. cbn. lia.
  - split; [reflexivity|]. intros [|s] vs v H Hv; [|destruct s; discriminate]. injection H as <-. cbn in Hv. lia.
  - split; [reflexivity|]. split; [reflexivity|]. intros [|c] es s H Hs; [|destruct c; discriminate]. injection H as <-. cbn in Hs. lia.
  - intros s s' p H1 H2. apply S in H1 as (-> & _). apply S in H2 as (-> & _). reflexivity.
  - intros s p p' H1 H2. apply S in H1 as (_ & ->). apply S in H2 as (_ & ->). reflexivity.
  - intros [|s] p vs ws H1 H2 H; [|destruct s; discriminate]. injection H1 as <-. destruct p as [|[|p]]; [|exact S1|destruct p; discriminate]. injection H2 as <-.
    assert (K : In 3 [0; 1; 2]) by (apply (H 2 3); [cbn; auto|reflexivity]). cbn in K. lia.
  - intros _. split; [reflexivity|]. split; [reflexivity|]. intros [|c] p H; [|destruct c; discriminate]. injection H as <-. exact S1.
  - contradiction.
Qed.

(** The largest value of the type marks entities without a tag: a tag with this value is lost. *)
Theorem C67_max_value_refuted :
  exists max_val tag_dim submesh_tdim nc np nv ne cell_map vertex_map sub_e_to_v sub_c_to_e e_to_v e_to_c tags out s p,
  sub_of_parent tag_dim submesh_tdim nc np nv ne cell_map vertex_map sub_e_to_v sub_c_to_e e_to_v e_to_c /\
  NoDup (map fst tags) /\ In (p, max_val) tags /\ same_entity vertex_map sub_e_to_v e_to_v s p /\
  transfer_meshtags max_val tag_dim submesh_tdim (Some nc) (Some np) cell_map nv vertex_map (Some sub_e_to_v) (Some sub_c_to_e) (Some ne) (Some e_to_v) (Some e_to_c) tags = Some out /\
  forall v, ~ In (s, v) out.
Proof.
  exists 2147483647%Z, 1, 2, 1, 2, 3, 3, [1], tx_vmap, tx_sub_ev, [[0; 1; 2]], tx_ev, tx_ec, [(0, 2147483647%Z); (4, 9%Z)], [(1, 9%Z)], 2, 0.
  split; [exact C67_example|]. split; [repeat constructor; cbn; lia|]. split; [now left|]. split; [now apply tx_same_iff|]. split; [vm_compute; reflexivity|].
  intros v [H|[]]. discriminate.
Qed.
Print Assumptions C67_max_value_refuted.
