(** Schedules as programs: executable versions of the two transition systems, and
    executions that show what goes wrong when calls share a tag. *)
From Verif Require Import Base Nbx.

(** One step of rank [r] ([yes]: a test that may succeed does), or a match of the
    [k]-th message in flight with the listener of call [c], edge set [i]. *)
Inductive action := Go (r : nat) (yes : bool) | Match (k c i : nat).

Section Exec.
Variables (P C : nat) (K : nat -> nat) (tag : nat -> nat -> nat)
          (edges : nat -> nat -> nat -> list nat).

Definition nexec (st : nstate) (a : action) : option nstate :=
  match a with
  | Go r yes =>
      if negb (r <? P) then None else
      match n_pc st r with
      | Idle => if n_call st r <? C then
                  Some (mkN (n_call st) (fset (n_pc st) r (Issue (sends K tag edges (n_call st r) r)))
                    (fun r' c' i' => if (r' =? r) && (c' =? n_call st r) && (i' <? K c') then LPosted
                                     else n_lis st r' c' i') (n_src st) (n_bar st) (n_net st))
                else None
      | Issue (m :: l) => Some (mkN (n_call st) (fset (n_pc st) r (Issue l)) (n_lis st) (n_src st) (n_bar st)
                                    (n_net st ++ [m]))
      | Issue [] => Some (set_pc st r (Drain 0))
      | Drain i =>
          if i <? K (n_call st r) then
            match yes, n_lis st r (n_call st r) i with
            | true, LMatched s =>
                Some (mkN (n_call st) (n_pc st) (fset3 (n_lis st) r (n_call st r) i LPosted)
                  (fset3 (n_src st) r (n_call st r) i (n_src st r (n_call st r) i ++ [s]))
                  (n_bar st) (n_net st))
            | _, _ => Some (set_pc st r (Drain (S i)))
            end
          else if i =? K (n_call st r) then
            Some (set_pc st r (if n_bar st r (n_call st r) then CheckBarrier else CheckSends))
          else None
      | CheckSends =>
          if yes && forallb (fun i => forallb (fun m => negb ((fst (fst m) =? r) && (snd (fst m) =? tag (n_call st r) i)))
                                       (n_net st)) (seq 0 (K (n_call st r))) then
            Some (mkN (n_call st) (fset (n_pc st) r (Drain 0)) (n_lis st) (n_src st)
                  (fun r' c' => if (r' =? r) && (c' =? n_call st r) then true else n_bar st r' c')
                  (n_net st))
          else Some (set_pc st r (Drain 0))
      | CheckBarrier =>
          if yes && forallb (fun q => n_bar st q (n_call st r)) (seq 0 P) then Some (set_pc st r (Cancel 0))
          else Some (set_pc st r (Drain 0))
      | Cancel i =>
          if i <? K (n_call st r) then
            match n_lis st r (n_call st r) i with
            | LMatched s =>
                Some (mkN (n_call st) (fset (n_pc st) r (Cancel (S i)))
                  (fset3 (n_lis st) r (n_call st r) i LNone)
                  (fset3 (n_src st) r (n_call st r) i (n_src st r (n_call st r) i ++ [s]))
                  (n_bar st) (n_net st))
            | LPosted =>
                Some (mkN (n_call st) (fset (n_pc st) r (Cancel (S i)))
                  (fset3 (n_lis st) r (n_call st r) i LNone) (n_src st) (n_bar st) (n_net st))
            | LNone => None
            end
          else if i =? K (n_call st r) then
            Some (mkN (fset (n_call st) r (S (n_call st r))) (fset (n_pc st) r Idle) (n_lis st)
                  (n_src st) (n_bar st) (n_net st))
          else None
      end
  | Match k c i =>
      match nth_error (n_net st) k with
      | Some (s, t, d) =>
          if t =? tag c i then
            match n_lis st d c i with
            | LPosted => Some (mkN (n_call st) (n_pc st) (fset3 (n_lis st) d c i (LMatched s)) (n_src st)
                                 (n_bar st) (firstn k (n_net st) ++ skipn (S k) (n_net st)))
            | _ => None
            end
          else None
      | None => None
      end
  end.

Lemma nth_error_split_at {A} (l : list A) k x : nth_error l k = Some x ->
  l = firstn k l ++ x :: skipn (S k) l.
Proof.
  revert k; induction l as [|y l IH]; intros [|k] H; cbn in *; try discriminate.
  - congruence.
  - f_equal. apply IH. exact H.
Qed.

Lemma nexec_sound st a st' : nexec st a = Some st' -> nstep P C K tag edges st st'.
Proof.
  destruct a as [r yes|k c i]; cbn [nexec].
  - destruct (Nat.ltb_spec r P) as [Hr|]; [|discriminate]. cbn [negb].
    destruct (n_pc st r) as [|[|m l]|i| | |i] eqn:Epc.
    + destruct (Nat.ltb_spec (n_call st r) C); [|discriminate]. intro H0; injection H0 as <-. now apply NEnter.
    + intro H0; injection H0 as <-. now apply NIssued.
    + intro H0; injection H0 as <-. now apply NIssue.
    + destruct (Nat.ltb_spec i (K (n_call st r))) as [Hi|Hi].
      * destruct yes; [destruct (n_lis st r (n_call st r) i) eqn:El|]; intro H0; injection H0 as <-;
          try now apply NMiss. now apply NHit.
      * destruct (Nat.eqb_spec i (K (n_call st r))) as [Ei|]; [|discriminate]. intro H0; injection H0 as <-. 
        apply NBranch; [exact Hr|congruence].
    + destruct yes; cbn [andb]; [|intro H0; injection H0 as <-; now apply NSendsNot].
      match goal with |- context [if ?b then _ else _] => destruct b eqn:Eb end; intro H0; injection H0 as <-; [|now apply NSendsNot].
      apply NSendsDone; auto. intros i d Hi Hin. rewrite forallb_forall in Eb.
      specialize (Eb i). rewrite forallb_forall in Eb. specialize (Eb ltac:(apply in_seq; lia) _ Hin).
      cbn in Eb. now rewrite !Nat.eqb_refl in Eb.
    + destruct yes; cbn [andb]; [|intro H0; injection H0 as <-; now apply NBarrierNot].
      match goal with |- context [if ?b then _ else _] => destruct b eqn:Eb end; intro H0; injection H0 as <-; [|now apply NBarrierNot].
      apply NBarrierDone; auto. intros q Hq. rewrite forallb_forall in Eb. apply Eb. apply in_seq. lia.
    + destruct (Nat.ltb_spec i (K (n_call st r))) as [Hi|Hi].
      * destruct (n_lis st r (n_call st r) i) eqn:El; intro H0; try discriminate; injection H0 as <-.
        -- now apply NCancelFree.
        -- now apply NCancelMatched.
      * destruct (Nat.eqb_spec i (K (n_call st r))) as [Ei|]; [|discriminate]. intro H0; injection H0 as <-. 
        apply NReturn; [exact Hr|congruence].
  - destruct (nth_error (n_net st) k) as [[[s t] d]|] eqn:E; [|discriminate].
    destruct (Nat.eqb_spec t (tag c i)) as [->|]; [|discriminate].
    destruct (n_lis st d c i) eqn:El; try discriminate. intro H0; injection H0 as <-.
    apply NMatch; [|exact El]. now apply nth_error_split_at.
Qed.

Definition nrun (acts : list action) (st : nstate) : option nstate := ofold nexec acts st.

Lemma nrun_sound acts : forall st st', nrun acts st = Some st' -> nsteps P C K tag edges st st'.
Proof.
  induction acts as [|a t IH]; intros st st' H; cbn in H.
  - injection H as <-. apply NRefl.
  - destruct (nexec st a) as [s1|] eqn:E; [|discriminate]. eapply NTrans; [eapply nexec_sound; eauto|]. now apply IH.
Qed.
End Exec.

Definition st_edges (c i r : nat) : list nat := match c, r with 1, 0 => [1] | _, _ => [] end.

(** Both ranks reach the barrier of call 0; rank 0 leaves, starts call 1 and sends; its
    message is matched by rank 1's receive of call 0. *)
Definition st_run : list action :=
  let y r := Go r true in
  [y 0; y 1; y 0; y 1; y 0; y 1; y 0; y 1; y 0; y 1;      (* enter .. barrier entered *)
   y 0; y 0; y 0; y 0; y 0;                               (* rank 0: .. returned *)
   y 0; y 0; Match 0 0 0;
   y 1; y 1; y 1; y 1; y 1; y 1].

Definition st_final : nstate :=
  match nrun 2 2 (fun _ => 1) (fun _ _ => 7) st_edges st_run ninit with Some s => s | None => ninit end.

Lemma same_tag_run :
  exists st, nsteps 2 2 (fun _ => 1) (fun _ _ => 7) st_edges ninit st /\
    n_call st 1 = 1 /\ n_src st 1 0 0 = [0] /\ senders 2 (st_edges 0 0) 1 = [].
Proof.
  exists st_final. split; [|split; [|split]].
  - apply nrun_sound with (acts := st_run). unfold st_final.
    destruct (nrun 2 2 (fun _ => 1) (fun _ _ => 7) st_edges st_run ninit) eqn:E; [reflexivity|].
    exfalso. assert (X : match nrun 2 2 (fun _ => 1) (fun _ _ => 7) st_edges st_run ninit with None => false | _ => true end = true)
      by (vm_compute; reflexivity). rewrite E in X. discriminate.
  - vm_compute. reflexivity.
  - vm_compute. reflexivity.
  - reflexivity.
Qed.

(** The same for PCX; [Take k]: receive the [k]-th message in flight. *)
Inductive paction := PGo (r : nat) | PTakeK (k : nat).

Section PExec.
Variables (P C : nat) (edges : nat -> nat -> list nat).

Definition pexec (st : pstate) (a : paction) : option pstate :=
  match a with
  | PGo r =>
      if negb (r <? P) then None else
      match p_pc st r with
      | PIdle => if p_call st r <? C then
            Some (mkP (p_call st) (fset (p_pc st) r (PIssue (edges (p_call st r) r)))
              (fun q c => if (q =? r) && (c =? p_call st r) then true else p_joined st q c)
              (p_src st) (p_net st)) else None
      | PIssue (d :: l) => Some (mkP (p_call st) (fset (p_pc st) r (PIssue l)) (p_joined st) (p_src st)
                  (p_net st ++ [(r, d)]))
      | PIssue [] => Some (mkP (p_call st) (fset (p_pc st) r PWait) (p_joined st) (p_src st) (p_net st))
      | PWait => if forallb (fun q => p_joined st q (p_call st r)) (seq 0 P) then
            Some (mkP (p_call st) (fset (p_pc st) r (PRecv (in_count P edges (p_call st r) r)))
                  (p_joined st) (p_src st) (p_net st)) else None
      | PRecv 0 => Some (mkP (fset (p_call st) r (S (p_call st r))) (fset (p_pc st) r PIdle)
                  (p_joined st) (p_src st) (p_net st))
      | PRecv (S _) => None
      end
  | PTakeK k =>
      match nth_error (p_net st) k with
      | Some (s, r) =>
          if (r <? P) && forallb (fun m => negb ((fst m =? s) && (snd m =? r))) (firstn k (p_net st)) then
            match p_pc st r with
            | PRecv (S n) =>
                Some (mkP (p_call st) (fset (p_pc st) r (PRecv n)) (p_joined st)
                  (fun q c => if (q =? r) && (c =? p_call st r) then p_src st q c ++ [s]
                              else p_src st q c)
                  (firstn k (p_net st) ++ skipn (S k) (p_net st)))
            | _ => None
            end
          else None
      | None => None
      end
  end.

Lemma pexec_sound st a st' : pexec st a = Some st' -> pstep P C edges st st'.
Proof.
  destruct a as [r|k]; cbn [pexec].
  - destruct (Nat.ltb_spec r P) as [Hr|]; [|discriminate]. cbn [negb].
    destruct (p_pc st r) as [|[|m l]| |[|n]] eqn:Epc.
    + destruct (Nat.ltb_spec (p_call st r) C); [|discriminate]. intro H0; injection H0 as <-. now apply PEnter.
    + intro H0; injection H0 as <-. now apply PSent.
    + intro H0; injection H0 as <-. now apply PSend.
    + match goal with |- context [if ?b then _ else _] => destruct b eqn:Eb end; [|discriminate].
      intro H0; injection H0 as <-. apply PReduced; auto. intros q Hq. rewrite forallb_forall in Eb.
      apply Eb. apply in_seq. lia.
    + intro H0; injection H0 as <-. now apply PReturn.
    + discriminate.
  - destruct (nth_error (p_net st) k) as [[s r]|] eqn:E; [|discriminate].
    destruct (Nat.ltb_spec r P) as [Hr|]; [|discriminate]. cbn [andb].
    match goal with |- context [if ?b then _ else _] => destruct b eqn:Eb end; [|discriminate].
    destruct (p_pc st r) as [| | |[|n]] eqn:Epc; try discriminate. intro H0; injection H0 as <-.
    apply PTake with (n := n); auto; [now apply nth_error_split_at|].
    intro Hin. rewrite forallb_forall in Eb. specialize (Eb _ Hin). cbn in Eb. now rewrite !Nat.eqb_refl in Eb.
Qed.

Definition prun (acts : list paction) (st : pstate) : option pstate := ofold pexec acts st.

Lemma prun_sound acts : forall st st', prun acts st = Some st' -> psteps P C edges st st'.
Proof.
  induction acts as [|a t IH]; intros st st' H; cbn in H.
  - injection H as <-. apply PRefl.
  - destruct (pexec st a) as [s1|] eqn:E; [|discriminate]. eapply PTrans; [eapply pexec_sound; eauto|]. now apply IH.
Qed.
End PExec.

Definition bb_edges (c r : nat) : list nat :=
  match c, r with 0, 2 => [1] | 1, 0 => [1] | _, _ => [] end.

Definition bb_run : list paction :=
  [PGo 0; PGo 1; PGo 2; PGo 0; PGo 0; PGo 0; PGo 0; PGo 0; PGo 1; PGo 1; PTakeK 0; PGo 1].
Definition bb_final : pstate :=
  match prun 3 2 bb_edges bb_run pinit with Some s => s | None => pinit end.

Lemma back_to_back_run :
  exists st, psteps 3 2 bb_edges pinit st /\
    p_call st 1 = 1 /\ p_src st 1 0 = [0] /\ senders 3 (bb_edges 0) 1 = [2].
Proof.
  exists bb_final. split; [|split; [|split]].
  - apply prun_sound with (acts := bb_run). unfold bb_final.
    destruct (prun 3 2 bb_edges bb_run pinit) eqn:E; [reflexivity|].
    exfalso. assert (X : match prun 3 2 bb_edges bb_run pinit with None => false | _ => true end = true)
      by (vm_compute; reflexivity). rewrite E in X. discriminate.
  - vm_compute. reflexivity.
  - vm_compute. reflexivity.
  - reflexivity.
Qed.
