(** Proofs for property C88. *)
From Verif Require Import Base BaseProofs Interp InterpSpec InterpWrites InterpProofs PropInterp Expr ExprSpec DiscreteLinear.
Open Scope nat_scope.

Section Proofs.
Variables (T U : Type) (zero : T) (d0 : U).
Variables (kernel : list T -> list T -> list T -> list U -> option (nat * nat) -> list T) (P0 : nat -> nat -> list T -> list T).
Notation cell_coordinates := (cell_coordinates U d0).
Notation array_row := (array_row T zero).
Notation entity_values := (entity_values T U zero d0 kernel P0).
Notation expression_fits := (expression_fits T U kernel P0).
Notation tabulate_entity := (tabulate_entity T U zero kernel P0).
Notation tabulate := (tabulate T U zero kernel P0).

Lemma slice_list {A} (d : A) l a n : a + n <= length l -> slice l a (a + n) = Some (map (fun j => nth (a + j) l d) (seq 0 n)).
Proof.
  intro H. apply slice_some. split; [lia|]. split; [exact H|]. replace (a + n - a) with n by lia.
  apply (list_ext d n); [rewrite map_length, seq_length; reflexivity|rewrite firstn_length, skipn_length; lia|].
  intros i Hi. rewrite nth_map_seq by exact Hi. destruct (nth_error_lt l (a + i) ltac:(lia)) as (y & Ey). rewrite (nth_error_nth _ _ _ Ey). symmetry. apply nth_error_nth. rewrite nth_error_firstn_lt by exact Hi.
  rewrite <- Ey. clear. revert l. induction a as [|a IH]; intro l; [reflexivity|]. destruct l as [|z l]; [destruct i; reflexivity|]. cbn [skipn Nat.add nth_error]. apply IH.
Qed.
Lemma coordinates_ok x_dofmap x c nodes : nth_error x_dofmap c = Some nodes -> (forall d, In d nodes -> 3 * d + 3 <= length x) -> node_coordinates U x_dofmap x c = Some (cell_coordinates x_dofmap x c).
Proof.
  intros E H. unfold node_coordinates, ExprSpec.cell_coordinates. rewrite E. cbn [obind]. rewrite (nth_error_nth _ _ _ E).
  rewrite (omap_map _ (fun d => [nth (3 * d) x d0; nth (3 * d + 1) x d0; nth (3 * d + 2) x d0])); [cbn [obind]; now rewrite flat_map_concat_map|].
  intros d Hd. rewrite (slice_list d0 x (3 * d) 3 (H d Hd)). cbn [seq map]. now rewrite Nat.add_0_r.
Qed.
Lemma entity_ok np vs nargs x_dofmap x coeffs cstride constants perms entities n e : expression_fits (np * vs) nargs x_dofmap x coeffs cstride perms entities -> nth_error entities n = Some e ->
  tabulate_entity np vs nargs x_dofmap x coeffs cstride constants perms n e = Some (entity_values (np * vs) nargs x_dofmap x coeffs cstride constants perms n e) /\
  length (entity_values (np * vs) nargs x_dofmap x coeffs cstride constants perms n e) = np * vs * nargs.
Proof.
  intros (Hc & Hk & HP & He) En. destruct (He e (nth_error_In _ _ En)) as ((nodes & E1 & E2) & Hf). pose proof (nth_error_bound _ _ _ En) as Hn.
  assert (L : length (entity_values (np * vs) nargs x_dofmap x coeffs cstride constants perms n e) = np * vs * nargs) by (unfold ExprSpec.entity_values; apply HP, Hk, repeat_length).
  split; [|exact L]. unfold Expr.tabulate_entity. rewrite (coordinates_ok x_dofmap x (entity_cell e) nodes E1 E2). cbn [obind].
  rewrite (slice_list zero coeffs (n * cstride) cstride) by nia. cbn [obind].
  assert (El : (match e with Cell _ => Some None | Facet c f => match perms with [] => Some (Some (f, 0)) | _ => row <- nth_error perms c ;; p <- nth_error row f ;; Some (Some (f, p)) end end)
    = Some (match e with Cell _ => None | Facet c f => Some (f, nth f (nth c perms []) 0) end)).
  { destruct e as [c|c f]; [reflexivity|]. destruct Hf as [->|(row & Er & Hf)]; [destruct c, f; reflexivity|]. destruct perms as [|r0 perms]; [destruct c; discriminate|]. rewrite Er. cbn [obind].
    rewrite (nth_error_nth' row 0) by exact Hf. cbn [obind]. now rewrite (nth_error_nth _ _ _ Er). }
  rewrite El. cbn [obind]. unfold ExprSpec.entity_values, ExprSpec.array_row in L. rewrite L, Nat.eqb_refl. reflexivity.
Qed.
(** A row is set. *)
Lemma set_row (v : list T) n w values : length v = w -> n * w + w <= length values ->
  exists values', ofold (fun values j => y <- nth_error v j ;; upd values (n * w + j) y) (seq 0 w) values = Some values' /\ length values' = length values /\
  forall q, nth_error values' q = if (n * w <=? q) && (q <? n * w + w) then nth_error v (q - n * w) else nth_error values q.
Proof.
  intros Lv Lw.
  destruct (ofold_prefix_ind (fun values j => y <- nth_error v j ;; upd values (n * w + j) y) (fun done s => length s = length values /\
     forall q, nth_error s q = if (n * w <=? q) && (q <? n * w + length done) then nth_error v (q - n * w) else nth_error values q) (seq 0 w) values) as (s & E & L & H).
  - split; [reflexivity|]. intro q. cbn [length]. destruct (Nat.leb_spec (n * w) q); destruct (Nat.ltb_spec q (n * w + 0)); cbn [andb]; (reflexivity || lia).
  - intros p a q s Es (L & H). assert (La : length p = a /\ a < w).
    { assert (E : nth_error (seq 0 w) (length p) = Some a) by (rewrite Es, nth_error_app2, Nat.sub_diag by lia; reflexivity). pose proof (nth_error_bound _ _ _ E) as Hb. rewrite seq_length in Hb. rewrite nth_error_seq in E by exact Hb. injection E as E. lia. }
    destruct La as [La Hb]. destruct (nth_error_lt v a ltac:(lia)) as (y & Ey). rewrite Ey. cbn [obind]. destruct (upd_some s (n * w + a) y ltac:(lia)) as (s' & Eu). exists s'. split; [exact Eu|]. split; [rewrite (upd_length _ _ _ _ Eu); exact L|].
    intro k. rewrite (upd_nth _ _ _ _ _ Eu), H, app_length. cbn [length]. rewrite La. destruct (Nat.eqb_spec (n * w + a) k) as [<-|N].
    + rewrite (proj2 (Nat.leb_le (n * w) (n * w + a))) by lia. rewrite (proj2 (Nat.ltb_lt (n * w + a) (n * w + (a + 1)))) by lia. cbn [andb]. rewrite <- Ey. f_equal. lia.
    + destruct (Nat.leb_spec (n * w) k); destruct (Nat.ltb_spec k (n * w + a)); destruct (Nat.ltb_spec k (n * w + (a + 1))); cbn [andb]; (reflexivity || lia).
  - exists s. rewrite seq_length in H. now split.
Qed.
Lemma tabulate_ok np vs nargs x_dofmap x coeffs cstride constants perms entities values : expression_fits (np * vs) nargs x_dofmap x coeffs cstride perms entities ->
  length entities * (np * vs * nargs) <= length values ->
  exists values', tabulate np vs nargs x_dofmap x coeffs cstride constants perms entities values = Some values' /\ length values' = length values /\
  (forall n e j, nth_error entities n = Some e -> j < np * vs * nargs -> nth_error values' (n * (np * vs * nargs) + j) = nth_error (entity_values (np * vs) nargs x_dofmap x coeffs cstride constants perms n e) j) /\
  (forall q, length entities * (np * vs * nargs) <= q -> nth_error values' q = nth_error values q).
Proof.
  intros Hfit Lv. set (w := np * vs * nargs) in *.
  destruct (ofold_prefix_ind (fun values ne => let '(n, e) := ne in v <- tabulate_entity np vs nargs x_dofmap x coeffs cstride constants perms n e ;; ofold (fun values j => y <- nth_error v j ;; upd values (n * w + j) y) (seq 0 w) values)
    (fun done s => length s = length values /\
       (forall n e j, n < length done -> nth_error entities n = Some e -> j < w -> nth_error s (n * w + j) = nth_error (entity_values (np * vs) nargs x_dofmap x coeffs cstride constants perms n e) j) /\
       (forall q, length done * w <= q -> nth_error s q = nth_error values q)) (combine (seq 0 (length entities)) entities) values) as (s & E & L & H1 & H2).
  - split; [reflexivity|]. split; [intros; cbn in *; lia|reflexivity].
  - intros p [n e] q s Es (L & H1 & H2). assert (Hp : nth_error (combine (seq 0 (length entities)) entities) (length p) = Some (n, e)) by (rewrite Es, nth_error_app2, Nat.sub_diag by lia; reflexivity).
    assert (Hn : n = length p /\ nth_error entities n = Some e).
    { pose proof (nth_error_bound _ _ _ Hp) as Hb. rewrite combine_length, seq_length, Nat.min_id in Hb. destruct (nth_error_lt entities (length p) Hb) as (e' & Ee).
      assert (Hc : nth_error (combine (seq 0 (length entities)) entities) (length p) = Some (length p, e')).
      { clear -Ee Hb. assert (G : forall (l : list entity) m a e', nth_error l m = Some e' -> nth_error (combine (seq a (length l)) l) m = Some (a + m, e')).
        { induction l as [|z l IH]; intros [|m] a e'' E; try discriminate; cbn [length seq combine nth_error] in *; [injection E as ->; now rewrite Nat.add_0_r|]. rewrite (IH m (S a) e'' E). do 2 f_equal. lia. }
        exact (G entities (length p) 0 e' Ee). }
      rewrite Hc in Hp. injection Hp as <- <-. now split. }
    destruct Hn as [Hn Ee]. destruct (entity_ok np vs nargs x_dofmap x coeffs cstride constants perms entities n e Hfit Ee) as [Et Le]. rewrite Et. cbn [obind].
    pose proof (nth_error_bound _ _ _ Ee) as Hlt. destruct (set_row (entity_values (np * vs) nargs x_dofmap x coeffs cstride constants perms n e) n w s Le) as (s' & E' & L' & H'); [nia|].
    exists s'. split; [exact E'|]. split; [congruence|]. rewrite app_length. cbn [length]. split.
    + intros n' e' j Hn' Ee' Hj. rewrite H'. destruct (Nat.eq_dec n' n) as [->|Nn].
      * rewrite (proj2 (Nat.leb_le (n * w) (n * w + j))), (proj2 (Nat.ltb_lt (n * w + j) (n * w + w))) by lia. cbn [andb]. replace (n * w + j - n * w) with j by lia. congruence.
      * replace ((n * w <=? n' * w + j) && (n' * w + j <? n * w + w)) with false; [apply H1; auto; lia|]. symmetry. apply andb_false_iff. left. apply Nat.leb_gt. nia.
    + intros k Hk. rewrite H'. replace ((n * w <=? k) && (k <? n * w + w)) with false; [apply H2; nia|]. symmetry. apply andb_false_iff. right. apply Nat.ltb_ge. nia.
  - exists s. rewrite combine_length, seq_length, Nat.min_id in H1, H2. split; [exact E|]. split; [exact L|]. split; [intros n e j Ee Hj; apply H1; auto; exact (nth_error_bound _ _ _ Ee)|exact H2].
Qed.
(** The transposition *)
Lemma components_ok nc np vs (f : list T) : length f = nc * np * vs ->
  exists f1, components_first T zero nc np vs f = Some f1 /\ length f1 = nc * np * vs /\
  forall i j k, i < nc -> j < np -> k < vs -> nth_error f1 ((k * nc + i) * np + j) = nth_error f ((i * np + j) * vs + k).
Proof.
  intro Lf. unfold components_first. set (g := fun (x : nat * nat * nat) => (snd x * nc + fst (fst x)) * np + snd (fst x)).
  destruct (ofold_prefix_ind (fun f1 x => let '((i, j), k) := x in y <- nth_error f ((i * np + j) * vs + k) ;; upd f1 ((k * nc + i) * np + j) y)
    (fun done s => length s = nc * np * vs /\ forall i j k, In ((i, j), k) done -> nth_error s ((k * nc + i) * np + j) = nth_error f ((i * np + j) * vs + k))
    (list_prod (list_prod (seq 0 nc) (seq 0 np)) (seq 0 vs)) (repeat zero (nc * np * vs))) as (s & E & L & H).
  - split; [apply repeat_length|]. intros i j k [].
  - intros p [[i j] k] q s Es (L & H).
    assert (Hb : forall i j k, In ((i, j), k) (p ++ ((i, j), k) :: q) -> True) by trivial. clear Hb.
    assert (Hin : forall i' j' k', In ((i', j'), k') (list_prod (list_prod (seq 0 nc) (seq 0 np)) (seq 0 vs)) -> i' < nc /\ j' < np /\ k' < vs).
    { intros i' j' k' Hi. apply in_prod_iff in Hi as [Hi Hk]. apply in_prod_iff in Hi as [Hi Hj]. apply in_seq in Hi, Hj, Hk. lia. }
    destruct (Hin i j k) as (Hi & Hj & Hk); [rewrite Es; apply in_elt|].
    assert (B1 : i * np + j < nc * np) by nia. assert (B2 : k * nc + i < vs * nc) by nia.
    assert (B3 : (k * nc + i) * np + j < vs * nc * np) by nia.
    destruct (nth_error_lt f ((i * np + j) * vs + k)) as (y & Ey); [nia|]. rewrite Ey. cbn [obind]. destruct (upd_some s ((k * nc + i) * np + j) y) as (s' & Eu); [nia|]. exists s'. split; [exact Eu|].
    split; [rewrite (upd_length _ _ _ _ Eu); exact L|]. intros i' j' k' Hi'. rewrite (upd_nth _ _ _ _ _ Eu).
    assert (B' : i' < nc /\ j' < np /\ k' < vs) by (apply in_app_or in Hi' as [Hi'|[Hi'|[]]]; [apply Hin; rewrite Es; apply in_or_app; now left|injection Hi' as <- <- <-; now split]).
    destruct B' as (Hi1 & Hj1 & Hk1). destruct (Nat.eqb_spec ((k * nc + i) * np + j) ((k' * nc + i') * np + j')) as [Eq|Nq].
    + assert (j = j') by (rewrite <- (Nat.mod_small j np Hj), <- (Nat.mod_small j' np Hj1), <- (Nat.mod_add j (k * nc + i) np), <- (Nat.mod_add j' (k' * nc + i') np) by lia; f_equal; lia).
      subst j'. assert (Eq1 : k * nc + i = k' * nc + i') by nia.
      assert (i = i') by (rewrite <- (Nat.mod_small i nc Hi), <- (Nat.mod_small i' nc Hi1), <- (Nat.mod_add i k nc), <- (Nat.mod_add i' k' nc) by lia; f_equal; lia). subst i'.
      assert (k = k') by nia. subst k'. now symmetry.
    + apply H. apply in_app_or in Hi' as [Hi'|[Hi'|[]]]; [exact Hi'|]. injection Hi' as <- <- <-. now elim Nq.
  - exists s. split; [exact E|]. split; [exact L|]. intros i j k Hi Hj Hk. apply H. apply in_prod; [apply in_prod|]; apply in_seq; lia.
Qed.
Lemma mesh_ok meshes mesh m : (meshes = [] -> m = mesh) -> (forall k, In k meshes -> k = m) -> expression_mesh meshes mesh = Some m.
Proof.
  intros H0 H. unfold expression_mesh.
  assert (G : forall l, (forall k, In k l -> k = m) -> ofold (fun m0 k => match m0 with None => Some (Some k) | Some k0 => if k =? k0 then Some m0 else None end) l (Some m) = Some (Some m)).
  { induction l as [|k l IH]; intro Hl; [reflexivity|]. cbn [ofold]. rewrite (Hl k) by now left. rewrite Nat.eqb_refl. cbn [obind]. apply IH. intros; apply Hl; now right. }
  destruct meshes as [|k l]; [cbn [ofold obind]; now rewrite H0|]. cbn [ofold obind]. assert (k = m) as -> by (apply H; now left). rewrite G by (intros; apply H; now right). reflexivity.
Qed.
Lemma mesh_of meshes mesh m : expression_mesh meshes mesh = Some m -> (meshes = [] -> m = mesh) /\ forall k, In k meshes -> k = m.
Proof.
  unfold expression_mesh.
  assert (G : forall l k0 r, ofold (fun m0 k => match m0 with None => Some (Some k) | Some k0 => if k =? k0 then Some m0 else None end) l (Some k0) = Some r -> r = Some k0 /\ forall k, In k l -> k = k0).
  { induction l as [|k l IH]; intros k0 r E; cbn [ofold] in E; [injection E as <-; split; [reflexivity|intros k []]|]. destruct (Nat.eqb_spec k k0) as [->|N]; cbn [obind] in E; [|discriminate].
    destruct (IH _ _ E) as [-> H]. split; [reflexivity|]. intros k' [<-|Hk]; auto. }
  destruct meshes as [|k l]; cbn [ofold obind]; [intro E; injection E as <-; split; [reflexivity|intros k []]|]. intro E. split; [discriminate|].
  destruct (ofold _ l (Some k)) as [r|] eqn:Er; cbn [obind] in E; [|discriminate]. destruct (G _ _ _ Er) as [-> H]. injection E as <-. intros k' [<-|Hk]; auto.
Qed.
(** Values for interpolation *)
Section Interpolate.
Variables (add mul : T -> T -> T) (meshes : list nat) (mesh m : nat) (geometry : nat -> nat * list (list nat) * list U) (hash vs : nat) (X : list (list nat)) (x_dofmap : list (list nat)) (x : list U).
Variables (coeffs : list T) (cstride : nat) (constants : list T) (cells0 cells1 : list nat).
Hypothesis Hm0 : meshes = [] -> m = mesh.
Hypothesis Hm : forall k, In k meshes -> k = m.
Hypothesis Hg : geometry m = (hash, x_dofmap, x).
Hypothesis Hc : length cells0 = length cells1.
Hypothesis Hfit : expression_fits (length X * vs) 1 x_dofmap x coeffs cstride [] (map Cell cells0).
Definition evalue (o p k : nat) : T := nth (p * vs + k) (entity_values (length X * vs) 1 x_dofmap x coeffs cstride constants [] o (Cell (nth o cells0 0))) zero.
Lemma expression_values ebs nsd evs num_sub dbs symmetric ident points Pi dofmap transform array :
  exists f1, length f1 = vs * (length cells0 * length X) /\
  (forall o k, o < length cells0 -> k < vs -> point_values T zero f1 (length cells0 * length X) (length X) k o = map (fun p => evalue o p k) (seq 0 (length X))) /\
  interpolate_expression T U zero kernel P0 add mul meshes mesh geometry hash false vs X X coeffs cstride constants ebs nsd evs num_sub vs dbs symmetric ident points Pi dofmap transform cells0 cells1 array =
  interpolate_values T zero add mul ebs nsd evs num_sub vs dbs symmetric ident points Pi dofmap transform cells1 f1 (vs, length cells0 * length X) array.
Proof.
  unfold interpolate_expression. rewrite (mesh_ok meshes mesh m Hm0 Hm). cbn [obind]. rewrite Hc, Nat.eqb_refl, <- Hc. cbn [negb]. rewrite Nat.eqb_refl. cbn [negb].
  unfold same_points. destruct (list_eq_dec (list_eq_dec Nat.eq_dec) X X) as [_|N]; [|now elim N]. cbn [negb]. rewrite Hg. unfold tabulate_expression. rewrite Nat.eqb_refl. cbn [negb].
  destruct (tabulate_ok (length X) vs 1 x_dofmap x coeffs cstride constants [] (map Cell cells0) (repeat zero (length cells0 * length X * vs)) Hfit) as (f & E & L & H & _); [rewrite repeat_length, map_length; lia|].
  rewrite E. cbn [obind]. rewrite repeat_length in L. destruct (components_ok (length cells0) (length X) vs f L) as (f1 & E1 & L1 & H1). rewrite E1. cbn [obind]. exists f1. split; [lia|]. split; [|reflexivity].
  intros o k Ho Hk. unfold point_values. apply map_ext_in. intros p Hp. apply in_seq in Hp. unfold evalue.
  replace (k * (length cells0 * length X) + o * length X + p) with ((k * length cells0 + o) * length X + p) by lia.
  assert (En : nth_error (map Cell cells0) o = Some (Cell (nth o cells0 0))) by (rewrite nth_error_map, (nth_error_nth' cells0 0 Ho); reflexivity).
  pose proof (H1 o p k Ho ltac:(lia) Hk) as H2. assert (B : p * vs + k < length X * vs * 1) by nia. specialize (H o _ (p * vs + k) En B).
  replace (o * (length X * vs * 1) + (p * vs + k)) with ((o * length X + p) * vs + k) in H by lia. rewrite H in H2.
  destruct (entity_ok (length X) vs 1 x_dofmap x coeffs cstride constants [] (map Cell cells0) o _ Hfit En) as [_ Le].
  destruct (nth_error_lt (entity_values (length X * vs) 1 x_dofmap x coeffs cstride constants [] o (Cell (nth o cells0 0))) (p * vs + k)) as (y & Ey); [lia|].
  rewrite Ey in H2. now rewrite (nth_error_nth _ _ _ H2), (nth_error_nth _ _ _ Ey).
Qed.
End Interpolate.
End Proofs.
