(** The dofmap of the real element. *)
From Verif Require Import Base BaseProofs Nbx World IndexMap IndexMapSpec IndexMapProofs ImSharedProofs CellTypes DofBuilder.
Open Scope nat_scope.

Lemma maxloc_from (f : nat -> nat) o l b : f o = 1 -> (forall q, q <> o -> f q = 0) -> b = o \/ In o l -> fold_left (fun b q => if f b <? f q then q else b) l b = o.
Proof.
  intros H1 H0. revert b. induction l as [|q l IH]; intros b Hb; cbn [fold_left]; [destruct Hb as [->|[]]; reflexivity|]. apply IH.
  destruct (Nat.eq_dec q o) as [->|Nq].
  - left. rewrite H1. destruct (Nat.eq_dec b o) as [->|Nb]; [now rewrite H1|now rewrite (H0 b Nb)].
  - rewrite (H0 q Nq), (proj2 (Nat.ltb_ge (f b) 0)) by lia. destruct Hb as [->|[->|Hb]]; [now left|congruence|now right].
Qed.
Lemma ind_sum (f : nat -> nat) o n : f o = 1 -> (forall q, q < n -> q <> o -> f q = 0) -> lsum (map f (seq 0 n)) = if o <? n then 1 else 0.
Proof.
  intros H1. induction n as [|n IH]; intros H0; [reflexivity|]. rewrite seq_S, map_app, lsum_app, IH by (intros; apply H0; lia). cbn [map Nat.add]. rewrite lsum_cons, lsum_nil.
  destruct (Nat.ltb_spec o n), (Nat.ltb_spec o (S n)); try lia.
  - rewrite (H0 n) by lia. lia.
  - assert (n = o) as -> by lia. lia.
  - rewrite (H0 n) by lia. lia.
Qed.

Section RealOk.
Variables (P : nat) (nbx : (nat -> list nat) -> nat -> list nat) (cells : nat -> imap).
Hypothesis Hn : nbx_oracle P nbx.
Hypothesis HP : 0 < P.
Hypothesis Hc : maps_ok P cells.
Hypothesis Hex : exists q, q < P /\ 0 < size_local (cells q).

Theorem real_element_ok : exists o dm, o < P /\ maps_ok P dm /\
  forall q, q < P -> build_real_element_dofmap P nbx cells q = Some (dm q, repeat [0] (map_size (cells q))) /\
    size_local (dm q) = (if q =? o then 1 else 0) /\ im_ghosts (dm q) = (if q =? o then [] else [0]) /\ im_owners (dm q) = (if q =? o then [] else [o]) /\
    im_size_global (dm q) = 1 /\ local_to_global (dm q) 0 = Some 0.
Proof.
  destruct Hex as (q0 & Hq0 & L0). destruct (owner_exists P cells Hc 0 q0 Hq0) as (o & Lo & Ho); [unfold size_local in L0; lia|].
  assert (HoP : o < P) by lia.
  assert (Hown : forall q, q < P -> real_is_owner cells q = (q =? o)).
  { intros q Hq. unfold real_is_owner. unfold owns in Ho. destruct (Nat.eqb_spec q o) as [->|N].
    - rewrite (proj2 (Nat.eqb_eq _ _)) by lia. apply Nat.ltb_lt. unfold size_local. lia.
    - destruct (Nat.eqb_spec (im_lo (cells q)) 0) as [E|E]; [|reflexivity]. cbn [andb]. apply Nat.ltb_ge. destruct (Nat.le_gt_cases (size_local (cells q)) 0) as [H|H]; [exact H|exfalso]. apply N.
      apply (owner_unique P cells Hc q o 0 Hq HoP); unfold owns; [unfold size_local in H; lia|lia]. }
  assert (Hml : maxloc P (fun q => if real_is_owner cells q then 1 else 0) = o).
  { unfold maxloc. set (f := fun q => if real_is_owner cells q then 1 else 0).
    assert (E : forall l b, b < P -> (forall q, In q l -> q < P) -> fold_left (fun b q => if f b <? f q then q else b) l b = fold_left (fun b q => if (if b =? o then 1 else 0) <? (if q =? o then 1 else 0) then q else b) l b).
    { induction l as [|q l IH]; intros b Hb Hl; [reflexivity|]. cbn [fold_left]. unfold f at 3 4. rewrite (Hown b Hb), (Hown q) by (apply Hl; now left). apply IH; [|intros; apply Hl; now right].
      destruct (_ <? _); [apply Hl; now left|exact Hb]. }
    rewrite E by (try exact HP; intros q Hq; apply in_seq in Hq; lia). apply (maxloc_from (fun q => if q =? o then 1 else 0)).
    - now rewrite Nat.eqb_refl.
    - intros q N. now rewrite (proj2 (Nat.eqb_neq _ _) N).
    - right. apply in_seq. lia. }
  assert (Hnum : forall q, q < P -> real_num cells q = if q =? o then 1 else 0) by (intros q Hq; unfold real_num; now rewrite Hown).
  assert (Hgh : forall q, q < P -> real_ghosts cells q = if q =? o then [] else [0]) by (intros q Hq; unfold real_ghosts; rewrite Hown by exact Hq; now destruct (q =? o)).
  assert (How : forall q, q < P -> real_owners P cells q = if q =? o then [] else [o]) by (intros q Hq; unfold real_owners; rewrite Hown, Hml by exact Hq; now destruct (q =? o)).
  assert (Hsum : forall n, n <= P -> lsum (map (real_num cells) (seq 0 n)) = if o <? n then 1 else 0).
  { intros n Ln. apply ind_sum; [rewrite Hnum, Nat.eqb_refl by exact HoP; reflexivity|]. intros q Lq N. rewrite Hnum by lia. now rewrite (proj2 (Nat.eqb_neq _ _) N). }
  destruct (maps_make_ok P nbx (real_num cells) (real_ghosts cells) (real_owners P cells) Hn HP) as (dm & Mdm & Hdm).
  { intros q Hq. rewrite Hgh, How by exact Hq. destruct (Nat.eqb_spec q o) as [->|N].
    - split; [reflexivity|]. split; [constructor|]. intros [|k] g s E; discriminate.
    - split; [reflexivity|]. split; [repeat constructor; intros []|]. intros [|[|k]] g s E1 E2; try discriminate. injection E1 as <-. injection E2 as <-. split; [exact HoP|]. split; [congruence|]. rewrite !Hsum by lia.
      rewrite (proj2 (Nat.ltb_ge o o)), (proj2 (Nat.ltb_lt o (S o))) by lia. lia. }
  exists o, dm. split; [exact HoP|]. split; [exact Mdm|]. intros q Hq. destruct (Hdm q Hq) as (E & Eg & Eo & Es & Ez). unfold build_real_element_dofmap. rewrite E. cbn [obind]. split; [reflexivity|].
  rewrite Eg, Eo, Es, Ez, Hgh, How, Hnum by exact Hq. split; [reflexivity|]. split; [reflexivity|]. split; [reflexivity|]. split; [rewrite Hsum by lia; now rewrite (proj2 (Nat.ltb_lt _ _) HoP)|].
  unfold local_to_global. rewrite Es, Eg, Hgh, Hnum by exact Hq. destruct (Nat.eqb_spec q o) as [->|N]; [|reflexivity].
  change (0 <? 1) with true. cbn iota. f_equal. rewrite Nat.add_0_r, (lo_is_sum P dm Mdm o HoP), (map_ext_in _ (real_num cells)) by (intros s Hs; apply in_seq in Hs; destruct (Hdm s ltac:(lia)) as (_ & _ & _ & Es' & _); exact Es').
  rewrite Hsum by lia. now rewrite (proj2 (Nat.ltb_ge o o)) by lia.
Qed.
End RealOk.
