(** Property C88: values of expressions, and their interpolation. *)
From Verif Require Import Base BaseProofs Interp InterpSpec PropInterp Expr ExprSpec ExprProofs.
Open Scope nat_scope.

(** The values of each entity in the list (cells, or facets of cells) are set to what the kernel computes for it, whatever the array held;
    the rest of the array is left as it is. *)
Theorem C88_values : forall (T U : Type) (zero : T) (d0 : U) kernel P0 hash npoints value_size nargs x_dofmap x coeffs cstride constants perms entities (values : list T),
  expression_fits T U kernel P0 (npoints * value_size) nargs x_dofmap x coeffs cstride perms entities ->
  length entities * (npoints * value_size * nargs) <= length values ->
  exists values', tabulate_expression T U zero kernel P0 hash hash npoints value_size nargs x_dofmap x coeffs cstride constants perms entities values = Some values' /\
    length values' = length values /\
    (forall n e j, nth_error entities n = Some e -> j < npoints * value_size * nargs ->
       nth_error values' (n * (npoints * value_size * nargs) + j) = nth_error (entity_values T U zero d0 kernel P0 (npoints * value_size) nargs x_dofmap x coeffs cstride constants perms n e) j) /\
    (forall q, length entities * (npoints * value_size * nargs) <= q -> nth_error values' q = nth_error values q).
Proof.
  intros T U zero d0 kernel P0 hash npoints value_size nargs x_dofmap x coeffs cstride constants perms entities values H1 H2.
  unfold tabulate_expression. rewrite Nat.eqb_refl. exact (tabulate_ok T U zero d0 kernel P0 npoints value_size nargs x_dofmap x coeffs cstride constants perms entities values H1 H2).
Qed.
Print Assumptions C88_values.

(** Interpolation into spaces whose dofs are values at points: the dofs of the [o]-th cell of [cells1] are the values of the expression in
    the [o]-th cell of [cells0], on the mesh of the coefficients (of the function, if there is none). *)
Theorem C88_point_values : forall (T U : Type) (zero : T) (d0 : U) kernel P0 add mul meshes mesh m geometry hash vs X x_dofmap x coeffs cstride constants cells0 cells1 ebs evs num_sub dbs symmetric points Pi dofmap transform (array : list T) n value,
  (meshes = [] -> m = mesh) -> (forall k, In k meshes -> k = m) -> geometry m = (hash, x_dofmap, x) -> length cells0 = length cells1 ->
  expression_fits T U kernel P0 (length X * vs) 1 x_dofmap x coeffs cstride [] (map Cell cells0) ->
  dofmap_fits dbs dofmap (ebs * length X) (length array) cells1 ->
  (forall c xs, In c cells1 -> length xs = length X -> length (transform c xs) = length X) ->
  (num_sub = 0 \/ num_sub = ebs) ->
  (if symmetric : bool then vs = n * n /\ 2 * ebs = n * (n + 1) else vs = ebs) ->
  (forall o c0 c1 i k comp, nth_error cells0 o = Some c0 -> nth_error cells1 o = Some c1 -> i < length X -> k < ebs -> component symmetric n k comp ->
     value o (i * ebs + k) = nth i (transform c1 (map (fun p => nth (p * vs + comp) (entity_values T U zero d0 kernel P0 (length X * vs) 1 x_dofmap x coeffs cstride constants [] o (Cell c0)) zero) (seq 0 (length X)))) zero) ->
  exists array', interpolate_expression T U zero kernel P0 add mul meshes mesh geometry hash false vs X X coeffs cstride constants ebs (length X) evs num_sub vs dbs symmetric true points Pi dofmap transform cells0 cells1 array = Some array' /\
    written dbs dofmap (ebs * length X) cells1 value array array'.
Proof.
  intros T U zero d0 kernel P0 add mul meshes mesh m geometry hash vs X x_dofmap x coeffs cstride constants cells0 cells1 ebs evs num_sub dbs symmetric points Pi dofmap transform array n value H1 H2 H3 H4 H5 H6 H7 H8 H9 H10.
  destruct (expression_values T U zero d0 kernel P0 add mul meshes mesh m geometry hash vs X x_dofmap x coeffs cstride constants cells0 cells1 H1 H2 H3 H4 H5 ebs (length X) evs num_sub dbs symmetric true points Pi dofmap transform array) as (f1 & L & Hv & E).
  rewrite E. rewrite H4 in *. eapply C74_point_values with (n := n); try eassumption; [reflexivity|].
  intros o c1 i k comp Ec Hi Hk Hcomp. pose proof (nth_error_bound _ _ _ Ec) as Ho. assert (Hvs : comp < vs).
  { destruct symmetric; cbn [component] in Hcomp; [destruct Hcomp as (row & col & ? & ? & ? & ->); destruct H9 as [-> _]; nia|]. subst. exact Hk. }
  rewrite (Hv o comp Ho Hvs). apply (H10 o (nth o cells0 0) c1 i k comp); auto. apply nth_error_nth'. lia.
Qed.
Print Assumptions C88_point_values.

(** Interpolation into other spaces with the identity map: the interpolation operator of the element is applied to the values of the expression. *)
Theorem C88_moments : forall (T U : Type) (zero : T) (d0 : U) kernel P0 add mul meshes mesh m geometry hash vs X x_dofmap x coeffs cstride constants cells0 cells1 ebs nsd evs num_sub dbs Pi dofmap transform (array : list T) value,
  (meshes = [] -> m = mesh) -> (forall k, In k meshes -> k = m) -> geometry m = (hash, x_dofmap, x) -> length cells0 = length cells1 ->
  expression_fits T U kernel P0 (length X * vs) 1 x_dofmap x coeffs cstride [] (map Cell cells0) ->
  dofmap_fits dbs dofmap (ebs * nsd) (length array) cells1 ->
  (forall c xs, In c cells1 -> length xs = nsd -> length (transform c xs) = nsd) ->
  (num_sub = 0 \/ num_sub = ebs) -> 0 < evs -> (evs = 1 \/ ebs <= 1) -> vs = evs * ebs ->
  length Pi = nsd -> (forall row, In row Pi -> length row = evs * length X) ->
  (forall o c0 c1 i k, nth_error cells0 o = Some c0 -> nth_error cells1 o = Some c1 -> i < nsd -> k < ebs ->
     value o (i * ebs + k) = nth i (transform c1 (map (fun row => dot T zero add mul row (concat (map (fun j =>
         map (fun p => nth (p * vs + (j + k)) (entity_values T U zero d0 kernel P0 (length X * vs) 1 x_dofmap x coeffs cstride constants [] o (Cell c0)) zero) (seq 0 (length X))) (seq 0 evs)))) Pi)) zero) ->
  exists array', interpolate_expression T U zero kernel P0 add mul meshes mesh geometry hash false vs X X coeffs cstride constants ebs nsd evs num_sub vs dbs false false (evs * length X) Pi dofmap transform cells0 cells1 array = Some array' /\
    written dbs dofmap (ebs * nsd) cells1 value array array'.
Proof.
  intros T U zero d0 kernel P0 add mul meshes mesh m geometry hash vs X x_dofmap x coeffs cstride constants cells0 cells1 ebs nsd evs num_sub dbs Pi dofmap transform array value H1 H2 H3 H4 H5 H6 H7 H8 H9 H10 H11 H12 H13 H14.
  destruct (expression_values T U zero d0 kernel P0 add mul meshes mesh m geometry hash vs X x_dofmap x coeffs cstride constants cells0 cells1 H1 H2 H3 H4 H5 ebs nsd evs num_sub dbs false false (evs * length X) Pi dofmap transform array) as (f1 & L & Hv & E).
  rewrite E. rewrite H4 in *. eapply C74_moments; try eassumption; [reflexivity|].
  intros o c1 i k Ec Hi Hk. pose proof (nth_error_bound _ _ _ Ec) as Ho.
  rewrite (H14 o (nth o cells0 0) c1 i k) by (auto; apply nth_error_nth'; lia). do 2 f_equal. apply map_ext. intro row. do 2 f_equal. apply map_ext_in. intros j Hj. apply in_seq in Hj.
  symmetry. apply (Hv o (j + k) Ho). nia.
Qed.
Print Assumptions C88_moments.

(** Nothing is interpolated from expressions that do not match: coefficients on different meshes, lists of cells of different
    lengths, an argument, another number of components, other points, or a mesh of cells of another kind. *)
Theorem C88_rejected : forall (T U : Type) (zero : T) kernel P0 add mul meshes mesh geometry hash0 has_argument vs X0 X1 coeffs cstride constants ebs nsd evs num_sub fvs dbs symmetric ident points Pi dofmap transform cells0 cells1 (array : list T),
  (exists k k', In k meshes /\ In k' meshes /\ k <> k') \/ length cells0 <> length cells1 \/ has_argument = true \/ vs <> fvs \/ X0 <> X1 \/
  (forall m, In m (mesh :: meshes) -> fst (fst (geometry m)) <> hash0) ->
  interpolate_expression T U zero kernel P0 add mul meshes mesh geometry hash0 has_argument vs X0 X1 coeffs cstride constants ebs nsd evs num_sub fvs dbs symmetric ident points Pi dofmap transform cells0 cells1 array = None.
Proof.
  intros T U zero kernel P0 add mul meshes mesh geometry hash0 has_argument vs X0 X1 coeffs cstride constants ebs nsd evs num_sub fvs dbs symmetric ident points Pi dofmap transform cells0 cells1 array H.
  unfold interpolate_expression. destruct (expression_mesh meshes mesh) as [m|] eqn:Em; cbn [obind]; [|reflexivity]. destruct (mesh_of meshes mesh m Em) as [Hm0 Hm].
  destruct (Nat.eqb_spec (length cells0) (length cells1)) as [E1|]; cbn [negb]; [|reflexivity]. destruct has_argument; [reflexivity|].
  destruct (Nat.eqb_spec vs fvs) as [E2|]; cbn [negb]; [|reflexivity]. unfold same_points. destruct (list_eq_dec (list_eq_dec Nat.eq_dec) X0 X1) as [E3|]; cbn [negb]; [|reflexivity].
  destruct (geometry m) as [[hash1 x_dofmap] x] eqn:Eg. unfold tabulate_expression. destruct (Nat.eqb_spec hash0 hash1) as [E4|]; cbn [negb]; [|reflexivity]. exfalso.
  destruct H as [(k & k' & Hk & Hk' & N)|[H|[H|[H|[H|H]]]]]; try congruence; [rewrite (Hm k Hk), (Hm k' Hk') in N; congruence|].
  apply (H m); [destruct meshes as [|k l]; [left; symmetry; now apply Hm0|right; rewrite <- (Hm k); now left]|]. rewrite Eg. now symmetry.
Qed.
Print Assumptions C88_rejected.

(** Two intervals; the kernel adds the first coordinate of the first node, coefficients and constants: two points, two components. *)
Definition case_kernel (v w k : list nat) (xs : list nat) (l : option (nat * nat)) : list nat :=
  map (fun jy => snd jy + fst jy + nth 0 xs 0 + 10 * nth 0 w 0 + 100 * nth 0 k 0 + match l with None => 0 | Some (f, p) => 1000 * S f + p end) (combine (seq 0 (length v)) v).
Definition case_x : list nat := [1; 0; 0; 2; 0; 0; 3; 0; 0].
Example case_expression_fits : expression_fits nat nat case_kernel (fun _ _ v => v) 4 1 [[0; 1]; [1; 2]] case_x [5; 6] 1 [[0; 0]; [7; 8]] [Facet 1 1; Facet 0 0].
Proof.
  split; [cbn; lia|]. split; [intros v w k xs l H; unfold case_kernel; rewrite map_length, combine_length, seq_length; lia|]. split; [trivial|].
  intros e [<-|[<-|[]]]; (split; [eexists; split; [reflexivity|]; intros d Hd; cbn in *; lia|right; eexists; split; [reflexivity|cbn; lia]]).
Qed.
Example case_values : tabulate_expression nat nat 0 case_kernel (fun _ _ v => v) 3 3 2 2 1 [[0; 1]; [1; 2]] case_x [5; 6] 1 [1] [[0; 0]; [7; 8]] [Facet 1 1; Facet 0 0] (repeat 9 9)
  = Some [2160; 2161; 2162; 2163; 1161; 1162; 1163; 1164; 9].
Proof. vm_compute. reflexivity. Qed.
(** From cells 1 and 0 of mesh 4 to cells 0 and 1: blocks of two dofs at two points. *)
Example case_interpolation : interpolate_expression nat nat 0 case_kernel (fun _ _ v => v) Nat.add Nat.mul [4; 4] 2 (fun m => if m =? 4 then (3, [[0; 1]; [1; 2]], case_x) else (3, [], [])) 3 false 2 [[0]; [1]] [[0]; [1]] [5; 6] 1 [1]
    2 2 1 2 2 2 false true 2 [] [[0; 1]; [1; 2]] (fun _ v => v) [1; 0] [0; 1] (repeat 0 7)
  = Some [152; 153; 161; 162; 163; 164; 0].
Proof. vm_compute. reflexivity. Qed.
Example case_interpolation_fits : expression_fits nat nat case_kernel (fun _ _ v => v) (length [[0]; [1]] * 2) 1 [[0; 1]; [1; 2]] case_x [5; 6] 1 [] (map Cell [1; 0]) /\
  dofmap_fits 2 [[0; 1]; [1; 2]] (2 * length [[0]; [1]]) (length (repeat 0 7)) [0; 1].
Proof.
  split.
  - split; [cbn; lia|]. split; [intros v w k xs l H; unfold case_kernel; rewrite map_length, combine_length, seq_length; cbn in *; lia|]. split; [trivial|].
    intros e [<-|[<-|[]]]; (split; [eexists; split; [reflexivity|]; intros d Hd; cbn in *; lia|exact I]).
  - split; [lia|]. intros c [<-|[<-|[]]]; (eexists; split; [reflexivity|]; split; [reflexivity|]; intros d Hd; cbn in *; lia).
Qed.
