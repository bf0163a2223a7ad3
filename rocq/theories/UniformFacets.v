(** The divisions of two cells agree on a common facet. *)
From Coq Require Import Reals Lra.
From Verif Require Import Base BaseProofs Algo AlgoProofs CellTypes GenerationSpec PointOwnerProofs Uniform UniformSpec.
Open Scope nat_scope.

(** ** Sets *)
Lemma same_set_refl a : same_set a a.
Proof. intro x. reflexivity. Qed.
Lemma same_set_trans a b c : same_set a b -> same_set b c -> same_set a c.
Proof. intros H K x. rewrite (H x). apply K. Qed.
Lemma same_set_sym a b : same_set a b -> same_set b a.
Proof. intros H x. symmetry. apply H. Qed.
Lemma same_set_map s a b : same_set a b -> same_set (map s a) (map s b).
Proof.
  intros H x. rewrite !in_map_iff. split; intros (y & E & Hy); exists y; (split; [exact E|apply H, Hy]).
Qed.
Lemma same_piece_trans p q r : same_piece p q -> same_piece q r -> same_piece p r.
Proof.
  intros (A & B) (C & D). split.
  - intros a Ha. destruct (A a Ha) as (b & Hb & E). destruct (C b Hb) as (c & Hc & F). exists c. split; [exact Hc|exact (same_set_trans _ _ _ E F)].
  - intros c Hc. destruct (D c Hc) as (b & Hb & E). destruct (B b Hb) as (a & Ha & F). exists a. split; [exact Ha|exact (same_set_trans _ _ _ F E)].
Qed.
Lemma same_piece_sym p q : same_piece p q -> same_piece q p.
Proof.
  intros (A & B). split.
  - intros a Ha. destruct (B a Ha) as (b & Hb & E). exists b. split; [exact Hb|apply same_set_sym, E].
  - intros a Ha. destruct (A a Ha) as (b & Hb & E). exists b. split; [exact Hb|apply same_set_sym, E].
Qed.
Lemma same_piece_map s p q : same_piece p q -> same_piece (map (map s) p) (map (map s) q).
Proof.
  intros (A & B). split.
  - intros a Ha. apply in_map_iff in Ha as (a0 & <- & Ha). destruct (A a0 Ha) as (b & Hb & E). exists (map s b). split; [apply in_map, Hb|apply same_set_map, E].
  - intros a Ha. apply in_map_iff in Ha as (a0 & <- & Ha). destruct (B a0 Ha) as (b & Hb & E). exists (map s b). split; [apply in_map, Hb|apply same_set_map, E].
Qed.
Lemma same_pieces_trans p q r : same_pieces p q -> same_pieces q r -> same_pieces p r.
Proof.
  intros (A & B) (C & D). split.
  - intros a Ha. destruct (A a Ha) as (b & Hb & E). destruct (C b Hb) as (c & Hc & F). exists c. split; [exact Hc|exact (same_piece_trans _ _ _ E F)].
  - intros c Hc. destruct (D c Hc) as (b & Hb & E). destruct (B b Hb) as (a & Ha & F). exists a. split; [exact Ha|exact (same_piece_trans _ _ _ F E)].
Qed.
Lemma same_pieces_sym p q : same_pieces p q -> same_pieces q p.
Proof.
  intros (A & B). split.
  - intros a Ha. destruct (B a Ha) as (b & Hb & E). exists b. split; [exact Hb|apply same_piece_sym, E].
  - intros a Ha. destruct (A a Ha) as (b & Hb & E). exists b. split; [exact Hb|apply same_piece_sym, E].
Qed.
Lemma same_pieces_map s p q : same_pieces p q -> same_pieces (map (map (map s)) p) (map (map (map s)) q).
Proof.
  intros (A & B). split.
  - intros a Ha. apply in_map_iff in Ha as (a0 & <- & Ha). destruct (A a0 Ha) as (b & Hb & E). exists (map (map s) b). split; [apply in_map, Hb|apply same_piece_map, E].
  - intros a Ha. apply in_map_iff in Ha as (a0 & <- & Ha). destruct (B a0 Ha) as (b & Hb & E). exists (map (map s) b). split; [apply in_map, Hb|apply same_piece_map, E].
Qed.
(** Deciding it *)
Definition setb (a b : list nat) : bool := forallb (fun x => mem x b) a && forallb (fun x => mem x a) b.
Definition pieceb (p q : list (list nat)) : bool :=
  forallb (fun a => existsb (setb a) q) p && forallb (fun b => existsb (fun a => setb a b) p) q.
Definition piecesb (p q : list (list (list nat))) : bool :=
  forallb (fun a => existsb (pieceb a) q) p && forallb (fun b => existsb (fun a => pieceb a b) p) q.
Lemma setb_ok a b : setb a b = true -> same_set a b.
Proof.
  intro H. apply andb_prop in H as (H1 & H2). rewrite forallb_forall in H1, H2. intro x. split; intro Hx.
  - apply mem_iff, H1, Hx.
  - apply mem_iff, H2, Hx.
Qed.
Lemma pieceb_ok p q : pieceb p q = true -> same_piece p q.
Proof.
  intro H. apply andb_prop in H as (H1 & H2). rewrite forallb_forall in H1, H2. split.
  - intros a Ha. specialize (H1 a Ha). apply existsb_exists in H1 as (b & Hb & E). exists b. split; [exact Hb|apply setb_ok, E].
  - intros b Hb. specialize (H2 b Hb). apply existsb_exists in H2 as (a & Ha & E). exists a. split; [exact Ha|apply setb_ok, E].
Qed.
Lemma piecesb_ok p q : piecesb p q = true -> same_pieces p q.
Proof.
  intro H. apply andb_prop in H as (H1 & H2). rewrite forallb_forall in H1, H2. split.
  - intros a Ha. specialize (H1 a Ha). apply existsb_exists in H1 as (b & Hb & E). exists b. split; [exact Hb|apply pieceb_ok, E].
  - intros b Hb. specialize (H2 b Hb). apply existsb_exists in H2 as (a & Ha & E). exists a. split; [exact Ha|apply pieceb_ok, E].
Qed.

(** ** The division of a facet *)
Definition std (l : list nat) : list (list (list nat)) :=
  match l with
  | [a; b] => [[[a]; [a; b]]; [[a; b]; [b]]]
  | [a; b; c] => [[[a]; [a; b]; [a; c]]; [[b]; [a; b]; [b; c]]; [[c]; [a; c]; [b; c]]; [[a; b]; [a; c]; [b; c]]]
  | [a; b; c; d] => [[[a]; [a; b]; [a; c]; [a; b; c; d]]; [[b]; [a; b]; [b; d]; [a; b; c; d]];
                     [[c]; [a; c]; [c; d]; [a; b; c; d]]; [[d]; [b; d]; [c; d]; [a; b; c; d]]]
  | _ => []
  end.
Lemma std_map s l : std (map s l) = map (map (map s)) (std l).
Proof. destruct l as [|a [|b [|c [|d [|e l]]]]]; reflexivity. Qed.
Lemma pieces_map t cs fv s : pieces t cs fv s = map (map (map s)) (pieces t cs fv (fun v => v)).
Proof.
  unfold pieces. rewrite concat_map, map_map. f_equal. apply map_ext. intro uc. rewrite concat_map, map_map. f_equal. apply map_ext. intro f.
  cbv zeta. destruct (forallb _ _); [|reflexivity]. cbn [map]. f_equal. rewrite !map_map. apply map_ext. intro vs. rewrite map_map. reflexivity.
Qed.
Definition all_types : list cell_type := [Point; Interval; Triangle; Tetrahedron; Quadrilateral; Pyramid; Prism; Hexahedron].
Lemma all_types_in t : In t all_types.
Proof. destruct t; cbn; auto 12. Qed.
Definition table_ok : bool :=
  forallb (fun t => if cell_dim t <? 2 then true else
    forallb (fun f => piecesb (pieces t (children t) (snd f) (fun v => v)) (std (snd f))) (facets t)) all_types.
Lemma pieces_std t f s : 2 <= cell_dim t -> In f (facets t) -> same_pieces (pieces t (children t) (snd f) s) (std (map s (snd f))).
Proof.
  intros Ht Hf. rewrite pieces_map, std_map. apply same_pieces_map.
  assert (H : table_ok = true) by (vm_compute; reflexivity). unfold table_ok in H. rewrite forallb_forall in H. specialize (H t (all_types_in t)).
  destruct (Nat.ltb_spec (cell_dim t) 2); [lia|]. rewrite forallb_forall in H. apply piecesb_ok, H, Hf.
Qed.

(** ** Common facets *)
Definition edges_of (l : list nat) : list (list nat) :=
  match l with
  | [a; b] => [[a; b]]
  | [a; b; c] => [[a; b]; [a; c]; [b; c]]
  | [a; b; c; d] => [[a; b]; [a; c]; [b; d]; [c; d]]
  | _ => []
  end.
Lemma edges_of_map s l : edges_of (map s l) = map (map s) (edges_of l).
Proof. destruct l as [|a [|b [|c [|d [|e l]]]]]; reflexivity. Qed.
Fixpoint inserts (a : nat) (l : list nat) : list (list nat) :=
  match l with [] => [[a]] | b :: l' => (a :: l) :: map (cons b) (inserts a l') end.
Fixpoint perms (l : list nat) : list (list nat) :=
  match l with [] => [[]] | a :: l => concat (map (inserts a) (perms l)) end.
Lemma inserts_in a l m : In (l ++ a :: m) (inserts a (l ++ m)).
Proof.
  induction l as [|b l IH].
  - destruct m; cbn; auto.
  - cbn. right. apply in_map, IH.
Qed.
Lemma perms_in l : forall m, Permutation l m -> In m (perms l).
Proof.
  induction l as [|a l IH]; intros m HP.
  - apply Permutation_nil in HP. subst m. left. reflexivity.
  - assert (Ha : In a m) by (apply (Permutation_in _ HP); left; reflexivity). apply in_split in Ha as (u & v & ->).
    apply Permutation_cons_app_inv in HP. cbn [perms]. apply in_concat. exists (inserts a (u ++ v)). split; [apply in_map, IH, HP|apply inserts_in].
Qed.
Lemma inserts_perm a l m : In m (inserts a l) -> Permutation (a :: l) m.
Proof.
  revert m. induction l as [|b l IH]; intros m H.
  - cbn in H. destruct H as [<-|[]]. apply Permutation_refl.
  - cbn in H. destruct H as [<-|H]; [apply Permutation_refl|]. apply in_map_iff in H as (m' & <- & H).
    apply (perm_trans (perm_swap b a l)). constructor. apply IH, H.
Qed.
Lemma perms_perm l : forall m, In m (perms l) -> Permutation l m.
Proof.
  induction l as [|a l IH]; intros m H.
  - cbn in H. destruct H as [<-|[]]. constructor.
  - cbn [perms] in H. apply in_concat in H as (q & Hq & Hm). apply in_map_iff in Hq as (l' & <- & Hl').
    apply inserts_perm in Hm. apply (perm_trans (perm_skip a (IH l' Hl'))), Hm.
Qed.
Lemma edges_incl l e : In e (edges_of l) -> incl e l.
Proof.
  destruct l as [|a [|b [|c [|d [|x l]]]]]; cbn; intro H; try contradiction; repeat (destruct H as [<-|H]); try contradiction;
  intros y Hy; cbn in Hy |- *; intuition.
Qed.
Definition sym_ok (k : nat) : bool :=
  forallb (fun m => if forallb (fun e => existsb (setb e) (edges_of (seq 0 k))) (edges_of m)
                    then piecesb (std m) (std (seq 0 k)) else true) (perms (seq 0 k)).
Lemma setb_complete a b : same_set a b -> setb a b = true.
Proof.
  intro H. apply andb_true_intro. split; apply forallb_forall; intros x Hx; apply mem_iff, H, Hx.
Qed.
(** Facets with the same vertices and the same edges are divided in the same way. *)
Lemma std_same l m : NoDup l -> Permutation l m -> 2 <= length l <= 4 ->
  (forall e, In e (edges_of m) -> exists e', In e' (edges_of l) /\ same_set e e') -> same_pieces (std l) (std m).
Proof.
  intros Hl HP Hlen He. set (k := length l) in *. set (s := fun i => nth i l 0).
  assert (El : map s (seq 0 k) = l) by (apply map_nth_seq).
  assert (Hm : exists m0, In m0 (perms (seq 0 k)) /\ map s m0 = m).
  { assert (HQ : Permutation m (map s (seq 0 k))) by (rewrite El; apply Permutation_sym, HP).
    apply Permutation_map_inv in HQ as (m0 & E & Hp). exists m0. split; [apply perms_in, Hp|symmetry; exact E]. }
  destruct Hm as (m0 & Hm0 & <-). rewrite <- El, !std_map. apply same_pieces_map, same_pieces_sym.
  assert (Hin : forall i, In i m0 -> i < k).
  { intros i Hi. assert (Hp : Permutation l (map s m0)) by exact HP. rewrite <- El in Hp.
    apply perms_perm in Hm0. apply Permutation_sym in Hm0. apply (Permutation_in _ Hm0) in Hi. apply in_seq in Hi. lia. }
  assert (Hs : forall i j, i < k -> j < k -> s i = s j -> i = j).
  { intros i j Hi Hj E. apply (NoDup_nth l 0); assumption. }
  assert (Hb : forallb (fun e => existsb (setb e) (edges_of (seq 0 k))) (edges_of m0) = true).
  { apply forallb_forall. intros e Hi. destruct (He (map s e)) as (e' & He' & E).
    { rewrite edges_of_map. apply in_map, Hi. }
    rewrite <- El, edges_of_map in He'. apply in_map_iff in He' as (e1 & <- & He1). apply existsb_exists. exists e1. split; [exact He1|].
    apply setb_complete. pose proof (edges_incl _ _ Hi) as I0. pose proof (edges_incl _ _ He1) as I1.
    assert (B0 : forall x, In x e -> x < k) by (intros x Hx; apply Hin, I0, Hx).
    assert (B1 : forall x, In x e1 -> x < k) by (intros x Hx; apply I1, in_seq in Hx; lia).
    intro x. split; intro Hx.
    - assert (K : In (s x) (map s e1)) by (apply E, in_map, Hx). apply in_map_iff in K as (y & Ey & Hy). apply Hs in Ey; [subst y; exact Hy| |]; auto.
    - assert (K : In (s x) (map s e)) by (apply E, in_map, Hx). apply in_map_iff in K as (y & Ey & Hy). apply Hs in Ey; [subst y; exact Hy| |]; auto. }
  assert (Hk : sym_ok k = true).
  { destruct Hlen as (L1 & L2). destruct k as [|[|[|[|[|k']]]]]; try lia; vm_compute; reflexivity. }
  unfold sym_ok in Hk. rewrite forallb_forall in Hk. specialize (Hk m0 Hm0). rewrite Hb in Hk. apply piecesb_ok, Hk.
Qed.

Definition facets_ok : bool :=
  forallb (fun t => if cell_dim t <? 2 then true else
    forallb (fun f => (2 <=? length (snd f)) && (length (snd f) <=? 4) && forallb (fun e => existsb (fun e' => subset e' (snd f) && setb e e') (nth 1 (topology t) [])) (edges_of (snd f))
                      && forallb (fun e => if subset e (snd f) then existsb (fun e' => setb e e') (edges_of (snd f)) else true) (nth 1 (topology t) [])) (facets t)) all_types.
Lemma facet_edges t f : 2 <= cell_dim t -> In f (facets t) ->
  2 <= length (snd f) <= 4 /\
  (forall e, In e (edges_of (snd f)) -> exists e', In e' (nth 1 (topology t) []) /\ subset e' (snd f) = true /\ same_set e e') /\
  (forall e, In e (nth 1 (topology t) []) -> subset e (snd f) = true -> exists e', In e' (edges_of (snd f)) /\ same_set e e').
Proof.
  intros Ht Hf. assert (H : facets_ok = true) by (vm_compute; reflexivity). unfold facets_ok in H. rewrite forallb_forall in H. specialize (H t (all_types_in t)).
  destruct (Nat.ltb_spec (cell_dim t) 2); [lia|]. rewrite forallb_forall in H. specialize (H f Hf).
  apply andb_prop in H as (H & H4). apply andb_prop in H as (H & H3). apply andb_prop in H as (H1 & H2).
  apply Nat.leb_le in H1, H2. rewrite forallb_forall in H3, H4. split; [lia|]. split.
  - intros e He. specialize (H3 e He). apply existsb_exists in H3 as (e' & He' & E). apply andb_prop in E as (E1 & E2). exists e'.
    split; [exact He'|]. split; [exact E1|apply setb_ok, E2].
  - intros e He Hs. specialize (H4 e He). rewrite Hs in H4. apply existsb_exists in H4 as (e' & He' & E). exists e'. split; [exact He'|apply setb_ok, E].
Qed.

Lemma common_facets t t' f f' s s' : 2 <= cell_dim t -> 2 <= cell_dim t' -> In f (facets t) -> In f' (facets t') ->
  glued t t' (snd f) (snd f') s s' -> same_pieces (pieces t (children t) (snd f) s) (pieces t' (children t') (snd f') s').
Proof.
  intros Ht Ht' Hf Hf' (Hn & Hs & Hl & He). apply (same_pieces_trans _ _ _ (pieces_std t f s Ht Hf)).
  apply same_pieces_sym, (same_pieces_trans _ _ _ (pieces_std t' f' s' Ht' Hf')).
  assert (HP : Permutation (map s (snd f)) (map s' (snd f'))).
  { apply NoDup_Permutation_bis; [exact Hn|rewrite !map_length; lia|]. intros x Hx. apply Hs, Hx. }
  destruct (facet_edges t f Ht Hf) as (L & E1 & _). destruct (facet_edges t' f' Ht' Hf') as (L' & _ & E2).
  apply std_same.
  - exact (Permutation_NoDup HP Hn).
  - apply Permutation_sym, HP.
  - rewrite map_length. exact L'.
  - intros e Hi. rewrite edges_of_map in Hi. apply in_map_iff in Hi as (e0 & <- & Hi).
    destruct (E1 e0 Hi) as (e1 & H1 & S1 & Q1). destruct (He e1 H1 S1) as (e2 & H2 & S2 & Q2). destruct (E2 e2 H2 S2) as (e3 & H3 & Q3).
    exists (map s' e3). split; [rewrite edges_of_map; apply in_map, H3|].
    apply (same_set_trans _ _ _ (same_set_map s _ _ Q1)), (same_set_trans _ _ _ Q2), same_set_map, Q3.
Qed.
