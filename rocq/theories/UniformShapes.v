(** The divisions of triangles, quadrilaterals, tetrahedra, prisms and hexahedra. *)
From Coq Require Import Reals Lra.
From Verif Require Import Base BaseProofs Algo AlgoProofs CellTypes GenerationSpec GridTiling GridShapes Uniform UniformSpec.
Open Scope nat_scope.

(** ** Weights of the vertices of the parent *)
Definition ind (u v : nat) : R := if v =? u then 1%R else 0%R.
Definition pw (t : cell_type) (c : list nat) (m : list R) : list R :=
  map (fun v => comb (fun i => mean (ind v) (nth i (new_vertices t) [])) c m) (seq 0 (num_cell_vertices t)).

Lemma rsum_map_plus {A} (f g : A -> R) l : rsum (map (fun a => f a + g a)%R l) = (rsum (map f l) + rsum (map g l))%R.
Proof. unfold rsum. induction l as [|a l IH]; cbn; [lra|]. rewrite IH. lra. Qed.
Lemma rsum_map_scale {A} (f : A -> R) k l : rsum (map (fun a => k * f a)%R l) = (k * rsum (map f l))%R.
Proof. unfold rsum. induction l as [|a l IH]; cbn; [lra|]. rewrite IH. lra. Qed.
Lemma rsum_map_ext {A} (f g : A -> R) l : (forall a, In a l -> f a = g a) -> rsum (map f l) = rsum (map g l).
Proof. intro H. rewrite (map_ext_in f g l H). reflexivity. Qed.
Lemma rsum_map_zero {A} (f : A -> R) l : (forall a, In a l -> f a = 0%R) -> rsum (map f l) = 0%R.
Proof.
  unfold rsum. induction l as [|a l IH]; intro H; [reflexivity|]. cbn. rewrite (H a) by (left; reflexivity). rewrite IH; [lra|].
  intros b Hb. apply H. right. exact Hb.
Qed.
Lemma rsum_pick (f : nat -> R) n v : v < n -> rsum (map (fun u => f u * ind u v)%R (seq 0 n)) = f v.
Proof.
  intro Hv. replace n with (v + S (n - v - 1)) by lia. rewrite seq_app, map_app, rsum_app. cbn [seq map plus].
  change (rsum (?a :: ?l)) with (a + rsum l)%R. unfold ind at 2. rewrite Nat.eqb_refl.
  rewrite !rsum_map_zero; [lra| |]; intros a Ha; apply in_seq in Ha; unfold ind; destruct (Nat.eqb_spec v a); try lia; lra.
Qed.
Lemma mean_share (f : nat -> R) n vs : (forall v, In v vs -> v < n) ->
  mean f vs = rsum (map (fun u => f u * mean (ind u) vs)%R (seq 0 n)).
Proof.
  intro H. unfold mean, Rdiv. set (k := (/ INR (length vs))%R). clearbody k.
  assert (E : rsum (map f vs) = rsum (map (fun u => f u * rsum (map (ind u) vs))%R (seq 0 n))).
  { induction vs as [|v vs IH].
    - cbn [map]. symmetry. apply rsum_map_zero. intros a _. change (rsum []) with 0%R. lra.
    - cbn [map]. change (rsum (?a :: ?l)) with (a + rsum l)%R. rewrite IH by (intros w Hw; apply H; right; exact Hw).
      rewrite <- (rsum_pick f n v) by (apply H; left; reflexivity). rewrite <- rsum_map_plus. apply rsum_map_ext. intros u _.
      change (rsum (?a :: ?l)) with (a + rsum l)%R. lra. }
  rewrite E, Rmult_comm, <- rsum_map_scale. apply rsum_map_ext. intros u _. lra.
Qed.
Lemma comb_plus {A} (f g : A -> R) c l : comb (fun a => f a + g a)%R c l = (comb f c l + comb g c l)%R.
Proof.
  revert l. induction c as [|a c IH]; intros [|x l]; try (unfold comb, rsum; cbn; lra). rewrite !comb_cons, IH. lra.
Qed.
Lemma comb_scale {A} k (f : A -> R) c l : comb (fun a => k * f a)%R c l = (k * comb f c l)%R.
Proof.
  revert l. induction c as [|a c IH]; intros [|x l]; try (unfold comb, rsum; cbn; lra). rewrite !comb_cons, IH. lra.
Qed.
Lemma comb_swap {A B} (f : B -> R) (s : B -> A -> R) U c l :
  comb (fun i => rsum (map (fun u => f u * s u i)%R U)) c l = rsum (map (fun u => f u * comb (s u) c l)%R U).
Proof.
  induction U as [|u U IH]; [apply comb_zero; reflexivity|]. cbn [map]. change (rsum (?a :: ?l)) with (a + rsum l)%R.
  rewrite comb_plus, comb_scale, IH. reflexivity.
Qed.
Lemma comb_self {A} (f g : A -> R) l : comb f l (map g l) = rsum (map (fun u => f u * g u)%R l).
Proof. induction l as [|a l IH]; [reflexivity|]. cbn [map]. rewrite comb_cons, IH. reflexivity. Qed.
Lemma pw_place t (f : nat -> R) c m : (forall i v, In v (nth i (new_vertices t) []) -> v < num_cell_vertices t) ->
  comb (fun i => mean f (nth i (new_vertices t) [])) c m = comb f (seq 0 (num_cell_vertices t)) (pw t c m).
Proof.
  intro H. unfold pw. rewrite comb_self.
  rewrite <- (comb_swap f (fun u i => mean (ind u) (nth i (new_vertices t) []))). apply comb_ext. intros i _.
  apply mean_share, H.
Qed.

(** ** From weights to places *)
Fixpoint nodupb (l : list nat) : bool := match l with [] => true | a :: l => negb (mem a l) && nodupb l end.
Lemma nodupb_ok l : nodupb l = true -> NoDup l.
Proof.
  induction l as [|a l IH]; [constructor|]. cbn [nodupb]. intro H. apply andb_prop in H as (H1 & H2). constructor; [|exact (IH H2)].
  intro Ha. apply mem_iff in Ha. rewrite Ha in H1. discriminate.
Qed.
Definition ok_cells (t : cell_type) (cs : list (list nat)) : bool :=
  forallb (fun c => nodupb c && (length c =? num_cell_vertices t)
                    && forallb (fun i => i <? length (new_vertices t)) c) cs
  && forallb (fun i => existsb (fun c => mem i c) cs) (seq 0 (length (new_vertices t)))
  && forallb (fun vs => forallb (fun v => v <? num_cell_vertices t) vs) (new_vertices t).
Fixpoint all_apart (cs : list (list nat)) : bool :=
  match cs with
  | [] => true
  | c :: cs => forallb (fun c' => existsb (fun i => negb (mem i c')) c) cs && all_apart cs
  end.
Lemma all_apart_ok cs : all_apart cs = true -> ForallOrdPairs (fun c c' => ~ Permutation c c') cs.
Proof.
  induction cs as [|c cs IH]; [constructor|]. cbn [all_apart]. intro H. apply andb_prop in H as (H1 & H2). constructor; [|exact (IH H2)].
  apply Forall_forall. intros c' Hc' HP. rewrite forallb_forall in H1. specialize (H1 c' Hc'). apply existsb_exists in H1 as (i & Hi & Hn).
  apply (Permutation_in _ HP) in Hi. apply mem_iff in Hi. rewrite Hi in Hn. discriminate.
Qed.

Lemma divide t cs : ok_cells t cs = true -> all_apart cs = true ->
  (forall l, cell_weights t l -> length l = num_cell_vertices t) ->
  (forall c m, In c cs -> cell_weights t m -> cell_weights t (pw t c m)) ->
  (forall l, cell_weights t l -> exists c m, In c cs /\ cell_weights t m /\ pw t c m = l) ->
  (forall c c' m m', In c cs -> In c' cs -> cell_weights t m -> cell_weights t m' -> pw t c m = pw t c' m' ->
     forall i, i < length (new_vertices t) -> weight i c m = weight i c' m') ->
  divides t cs.
Proof.
  intros Hok Ha HL A B C. unfold ok_cells in Hok. apply andb_prop in Hok as (Hok & H3). apply andb_prop in Hok as (H1 & H2).
  rewrite forallb_forall in H1, H2, H3.
  assert (HN : forall i v, In v (nth i (new_vertices t) []) -> v < num_cell_vertices t).
  { intros i v Hv. destruct (nth_in_or_default i (new_vertices t) []) as [Hi|E]; [|rewrite E in Hv; contradiction].
    specialize (H3 _ Hi). rewrite forallb_forall in H3. apply Nat.ltb_lt, H3, Hv. }
  assert (HV : forall c, In c cs -> NoDup c /\ length c = num_cell_vertices t /\ forall i, In i c -> i < length (new_vertices t)).
  { intros c Hc. specialize (H1 c Hc). apply andb_prop in H1 as (H1 & H5). apply andb_prop in H1 as (H1 & H4). rewrite forallb_forall in H5.
    split; [apply nodupb_ok, H1|]. split; [apply Nat.eqb_eq, H4|]. intros i Hi. apply Nat.ltb_lt, H5, Hi. }
  constructor.
  - exact HV.
  - intros i Hi. specialize (H2 i). rewrite in_seq in H2. specialize (H2 ltac:(lia)). apply existsb_exists in H2 as (c & Hc & Hm).
    exists c. split; [exact Hc|apply mem_iff, Hm].
  - apply all_apart_ok, Ha.
  - intros X x. split.
    + intros (l & Hl & E). destruct (B l Hl) as (c & m & Hc & Hm & <-). exists c, m. split; [exact Hc|]. split; [exact Hm|].
      intro j. rewrite pw_place by exact HN. apply E.
    + intros (c & m & Hc & Hm & E). exists (pw t c m). split; [exact (A c m Hc Hm)|]. intro j. rewrite <- pw_place by exact HN. apply E.
  - intros X HP c c' m m' x Hc Hc' (Hm & E) (Hm' & E') i.
    assert (Ew : pw t c m = pw t c' m').
    { apply (HP _ _ x); (split; [apply A; assumption|]); intro j; rewrite <- pw_place by exact HN; auto. }
    destruct (Nat.lt_ge_cases i (length (new_vertices t))) as [L|G]; [exact (C c c' m m' Hc Hc' Hm Hm' Ew i L)|].
    assert (Z : forall c m, In c cs -> weight i c m = 0%R).
    { intros d k Hd. apply comb_zero. intros u Hu. apply (HV d Hd) in Hu. destruct (Nat.eqb_spec u i); [lia|reflexivity]. }
    rewrite !Z by assumption. reflexivity.
Qed.

(** ** Triangles *)
Definition tri_cs : list (list nat) := [[0; 4; 5]; [1; 5; 3]; [2; 3; 4]; [3; 4; 5]].
(** Their vertices in the orders in which they appear in prisms *)
Definition tri_all : list (list nat) := tri_cs ++ [[0; 5; 4]; [5; 1; 3]; [4; 3; 2]; [5; 3; 4]; [2; 3; 4]; [1; 5; 3]].
(** Coordinates in which the children have edges with directions in {0,1}^2 *)
Definition tri_co (i : nat) : R * R :=
  (match i with 0 => 0 | 4 | 5 => 1 | _ => 2 end, match i with 2 => 2 | 3 | 4 => 1 | _ => 0 end)%R.
Ltac comp x := let y := eval vm_compute in x in change x with y.
Ltac pwc := unfold pw;
  repeat match goal with |- context [num_cell_vertices ?t] => comp (num_cell_vertices t) end;
  repeat match goal with |- context [new_vertices ?t] => comp (new_vertices t) end;
  unfold weight, comb, mean, rsum, ind;
  cbn [map combine fold_right fst snd Nat.eqb seq nth app length INR tri_co].

Lemma weights3' k : simplex_weights 3 k -> exists a b c, k = [a; b; c] /\ (0 <= a)%R /\ (0 <= b)%R /\ (0 <= c)%R /\ (a + b + c = 1)%R.
Proof.
  intros (L & P & E). apply three in L as (a & b & c & ->). exists a, b, c. split; [reflexivity|].
  split; [apply P; cbn; auto|]. split; [apply P; cbn; auto|]. split; [apply P; cbn; auto|]. cbn in E. lra.
Qed.
Lemma weights3_of a b c : (0 <= a)%R -> (0 <= b)%R -> (0 <= c)%R -> (a + b + c = 1)%R -> simplex_weights 3 [a; b; c].
Proof. intros. split; [reflexivity|]. split; [|cbn; lra]. intros x Hx. cases0 Hx; assumption. Qed.
Lemma tri_in c m : In c tri_all -> simplex_weights 3 m -> simplex_weights 3 (pw Triangle c m).
Proof.
  intros Hc Hm. apply weights3' in Hm as (x & y & z & -> & Hx & Hy & Hz & E). unfold tri_all, tri_cs in Hc. cbn [app] in Hc.
  cases0 Hc; pwc; apply weights3_of; lra.
Qed.
Lemma tri_hat c m i : In c tri_all -> simplex_weights 3 m -> i < 6 ->
  hat [ (2 * (nth 1 (pw Triangle c m) 0 + nth 2 (pw Triangle c m) 0) - fst (tri_co i))%R;
        (2 * nth 2 (pw Triangle c m) 0 - snd (tri_co i))%R ] (weight i c m).
Proof.
  intros Hc Hm Hi. apply weights3' in Hm as (x & y & z & -> & Hx & Hy & Hz & E). unfold tri_all, tri_cs in Hc. cbn [app] in Hc.
  do 6 (destruct i as [|i]; [cases0 Hc; pwc; hat_go2|]). lia.
Qed.
Lemma tri_cover l : simplex_weights 3 l ->
  (exists c m, In c tri_cs /\ simplex_weights 3 m /\ pw Triangle c m = l) /\
  (exists c m, In c [[0; 5; 4]; [5; 1; 3]; [4; 3; 2]; [5; 3; 4]] /\ simplex_weights 3 m /\ pw Triangle c m = l) /\
  exists c m, In c [[0; 5; 4]; [1; 5; 3]; [2; 3; 4]; [5; 3; 4]] /\ simplex_weights 3 m /\ pw Triangle c m = l.
Proof.
  intro Hl. apply weights3' in Hl as (x & y & z & -> & Hx & Hy & Hz & E).
  assert (F : forall a b c : R, a = x -> b = y -> c = z -> [a; b; c] = [x; y; z]) by (intros; subst; reflexivity).
  destruct (Rle_dec (/ 2) x) as [L|L]; [|destruct (Rle_dec (/ 2) y) as [L'|L']; [|destruct (Rle_dec (/ 2) z) as [L''|L'']]].
  - split; [|split]; [exists [0; 4; 5], [2 * x - 1; 2 * z; 2 * y]%R | exists [0; 5; 4], [2 * x - 1; 2 * y; 2 * z]%R | exists [0; 5; 4], [2 * x - 1; 2 * y; 2 * z]%R];
      (split; [cbn; auto 10|]); (split; [apply weights3_of; lra|]); pwc; apply F; lra.
  - split; [|split]; [exists [1; 5; 3], [2 * y - 1; 2 * x; 2 * z]%R | exists [5; 1; 3], [2 * x; 2 * y - 1; 2 * z]%R | exists [1; 5; 3], [2 * y - 1; 2 * x; 2 * z]%R];
      (split; [cbn; auto 10|]); (split; [apply weights3_of; lra|]); pwc; apply F; lra.
  - split; [|split]; [exists [2; 3; 4], [2 * z - 1; 2 * y; 2 * x]%R | exists [4; 3; 2], [2 * x; 2 * y; 2 * z - 1]%R | exists [2; 3; 4], [2 * z - 1; 2 * y; 2 * x]%R];
      (split; [cbn; auto 10|]); (split; [apply weights3_of; lra|]); pwc; apply F; lra.
  - split; [|split]; [exists [3; 4; 5], [1 - 2 * x; 1 - 2 * y; 1 - 2 * z]%R | exists [5; 3; 4], [1 - 2 * z; 1 - 2 * x; 1 - 2 * y]%R | exists [5; 3; 4], [1 - 2 * z; 1 - 2 * x; 1 - 2 * y]%R];
      (split; [cbn; auto 10|]); (split; [apply weights3_of; lra|]); pwc; apply F; lra.
Qed.
Lemma tri_divides : divides Triangle tri_cs.
Proof.
  assert (I : incl tri_cs tri_all) by (intros c Hc; apply in_or_app; left; exact Hc).
  apply divide; [vm_compute; reflexivity|vm_compute; reflexivity|..]; cbn [cell_weights].
  - intros l (L & _). exact L.
  - intros c m Hc. apply tri_in, I, Hc.
  - intros l Hl. apply (proj1 (tri_cover l Hl)).
  - intros c c' m m' Hc Hc' Hm Hm' Ew i Hi. pose proof (tri_hat c m i (I c Hc) Hm Hi) as H. pose proof (tri_hat c' m' i (I c' Hc') Hm' Hi) as H'.
    rewrite Ew in H. exact (hat_fun _ _ _ H H').
Qed.

(** ** Tetrahedra *)
Definition tet_cs : list (list nat) :=
  [[0; 7; 8; 9]; [1; 5; 6; 9]; [2; 4; 6; 8]; [3; 4; 5; 7]; [9; 4; 6; 8]; [9; 4; 8; 7]; [9; 4; 7; 5]; [9; 4; 5; 6]].
Definition tet_co (i : nat) : R * R * R :=
  (match i with 0 => 0 | 7 | 8 | 9 => 1 | _ => 2 end, match i with 1 | 3 | 5 => 2 | 4 | 6 | 7 | 9 => 1 | _ => 0 end,
   match i with 3 => 2 | 4 | 5 | 7 => 1 | _ => 0 end)%R.
Lemma weights4 k : simplex_weights 4 k ->
  exists a b c d, k = [a; b; c; d] /\ (0 <= a)%R /\ (0 <= b)%R /\ (0 <= c)%R /\ (0 <= d)%R /\ (a + b + c + d = 1)%R.
Proof.
  intros (L & P & E). apply four in L as (a & b & c & d & ->). exists a, b, c, d. split; [reflexivity|].
  split; [apply P; cbn; auto|]. split; [apply P; cbn; auto|]. split; [apply P; cbn; auto|]. split; [apply P; cbn; auto|]. cbn in E. lra.
Qed.
Lemma weights4_of a b c d : (0 <= a)%R -> (0 <= b)%R -> (0 <= c)%R -> (0 <= d)%R -> (a + b + c + d = 1)%R -> simplex_weights 4 [a; b; c; d].
Proof. intros. split; [reflexivity|]. split; [|cbn; lra]. intros x Hx. cases0 Hx; assumption. Qed.
Lemma tet_hat c m i : In c tet_cs -> simplex_weights 4 m -> i < 10 ->
  let l := pw Tetrahedron c m in
  hat [ (2 * (nth 2 l 0 + nth 1 l 0 + nth 3 l 0) - fst (fst (tet_co i)))%R;
        (2 * (nth 1 l 0 + nth 3 l 0) - snd (fst (tet_co i)))%R;
        (2 * nth 3 l 0 - snd (tet_co i))%R ] (weight i c m).
Proof.
  intros Hc Hm Hi. apply weights4 in Hm as (x & y & z & w & -> & Hx & Hy & Hz & Hw & E). unfold tet_cs in Hc.
  do 10 (destruct i as [|i]; [cases0 Hc; cbv zeta; pwc; cbn [tet_co fst snd]; hat_go|]). lia.
Qed.
Lemma tet_in4 c m : In c tet_cs -> simplex_weights 4 m -> simplex_weights 4 (pw Tetrahedron c m).
Proof.
  intros Hc Hm. apply weights4 in Hm as (x & y & z & w & -> & Hx & Hy & Hz & Hw & E). unfold tet_cs in Hc.
  cases0 Hc; pwc; apply weights4_of; lra.
Qed.
Lemma tet_cover4 l : simplex_weights 4 l -> exists c m, In c tet_cs /\ simplex_weights 4 m /\ pw Tetrahedron c m = l.
Proof.
  intro Hl. apply weights4 in Hl as (x & y & z & w & -> & Hx & Hy & Hz & Hw & E).
  assert (F : forall a b c d : R, a = x -> b = y -> c = z -> d = w -> [a; b; c; d] = [x; y; z; w]) by (intros; subst; reflexivity).
  destruct (Rle_dec (/ 2) x) as [L|L]; [exists [0; 7; 8; 9], [2 * x - 1; 2 * w; 2 * z; 2 * y]%R|].
  2: destruct (Rle_dec (/ 2) y) as [L1|L1]; [exists [1; 5; 6; 9], [2 * y - 1; 2 * w; 2 * z; 2 * x]%R|].
  3: destruct (Rle_dec (/ 2) z) as [L2|L2]; [exists [2; 4; 6; 8], [2 * z - 1; 2 * w; 2 * y; 2 * x]%R|].
  4: destruct (Rle_dec (/ 2) w) as [L3|L3]; [exists [3; 4; 5; 7], [2 * w - 1; 2 * z; 2 * y; 2 * x]%R|].
  5: destruct (Rle_dec (/ 2) (x + z)) as [L4|L4]; destruct (Rle_dec (/ 2) (y + z)) as [L5|L5];
    [exists [9; 4; 6; 8], [1 - 2 * z; 2 * w; 2 * y + 2 * z - 1; 2 * x + 2 * z - 1]%R
    |exists [9; 4; 8; 7], [2 * y; 1 - 2 * x; 2 * x + 2 * z - 1; 2 * w + 2 * x - 1]%R
    |exists [9; 4; 5; 6], [2 * x; 1 - 2 * y; 2 * w + 2 * y - 1; 2 * z + 2 * y - 1]%R
    |exists [9; 4; 7; 5], [1 - 2 * w; 2 * z; 2 * x + 2 * w - 1; 2 * y + 2 * w - 1]%R].
  all: split; [cbn; auto 12|]; (split; [apply weights4_of; lra|]); pwc; apply F; lra.
Qed.
Lemma tet_divides : divides Tetrahedron tet_cs.
Proof.
  apply divide; [vm_compute; reflexivity|vm_compute; reflexivity|..]; cbn [cell_weights].
  - intros l (L & _). exact L.
  - exact tet_in4.
  - exact tet_cover4.
  - intros c c' m m' Hc Hc' Hm Hm' Ew i Hi. pose proof (tet_hat c m i Hc Hm Hi) as H. pose proof (tet_hat c' m' i Hc' Hm' Hi) as H'.
    cbv zeta in H, H'. rewrite Ew in H. exact (hat_fun _ _ _ H H').
Qed.

(** ** Halves of segments *)
(** Where [a] is in the first half, from the begin, or in the second half, from the end, or
    from the middle *)
Inductive half := Lower | Upper | Upper'.
Definition at_half (h : half) (a : R) : R := match h with Lower => a / 2 | Upper => 1 - a / 2 | Upper' => (1 + a) / 2 end%R.
Definition half_weight (h : half) (a : R) (i : nat) : R :=
  match h, i with
  | Lower, 0 => 1 - a | Lower, 1 => a
  | Upper, 1 => a | Upper, 2 => 1 - a
  | Upper', 1 => 1 - a | Upper', 2 => a
  | _, _ => 0
  end%R.
Lemma unit_half h a : unit a -> unit (at_half h a).
Proof. unfold unit. destruct h; cbn; lra. Qed.
Lemma hat_half h a i : unit a -> i < 3 -> hat [(2 * at_half h a - INR i)%R] (half_weight h a i).
Proof.
  intros (H1 & H2) Hi. destruct h; (destruct i as [|[|[|i]]]; [..|lia]); cbn [at_half half_weight INR];
  (split; [lra|split; [first [left; lra | right; intros b d Hb Hd; cbn [In] in Hb, Hd; destruct Hb as [<-|[<-|[]]]; destruct Hd as [<-|[<-|[]]]; lra]
          | first [ apply (hat_wit _ _ 0 1); [cbn; lia|cbn; lia|cbn [nth]; lra] | apply (hat_wit _ _ 1 0); [cbn; lia|cbn; lia|cbn [nth]; lra] ]]]).
Qed.
Lemma some_half s : unit s -> (exists a, unit a /\ at_half Lower a = s) \/ exists a, unit a /\ at_half Upper a = s.
Proof.
  intros (H1 & H2). destruct (Rle_dec s (/ 2)) as [L|L].
  - left. exists (2 * s)%R. split; [split; lra|]. cbn. lra.
  - right. exists (2 - 2 * s)%R. split; [split; lra|]. cbn. lra.
Qed.

(** ** Quadrilaterals *)
Definition quad_cs : list (list nat) := [[0; 4; 5; 8]; [1; 6; 4; 8]; [2; 7; 5; 8]; [3; 7; 6; 8]].
Definition quad_w (s t : R) : list R := times (segment s) (segment t).
(** The child [c] with parameters [a] and [b]: the parameters in the parent *)
Definition quad_map (k : nat) (a b : R) : half * R * (half * R) :=
  match k with
  | 0 => ((Lower, a), (Lower, b)) | 1 => ((Upper, b), (Lower, a)) | 2 => ((Lower, a), (Upper, b)) | _ => ((Upper, a), (Upper, b))
  end.
Definition quad_co (i : nat) : nat * nat :=
  match i with 0 => (0, 0) | 1 => (2, 0) | 2 => (0, 2) | 3 => (2, 2) | 4 => (1, 0) | 5 => (0, 1) | 6 => (2, 1) | 7 => (1, 2) | _ => (1, 1) end.
Ltac lists := repeat (match goal with |- _ :: _ = _ :: _ => apply f_equal2 end); try reflexivity.
Ltac prodw := unfold quad_w, times, segment; cbn [map concat app]; pwc; cbn [at_half half_weight fst snd quad_co quad_map].
Lemma quad_child k a b : k < 4 -> let '((h, p), (g, q)) := quad_map k a b in
  pw Quadrilateral (nth k quad_cs []) (quad_w a b) = quad_w (at_half h p) (at_half g q) /\
  forall i, i < 9 -> weight i (nth k quad_cs []) (quad_w a b) = (half_weight h p (fst (quad_co i)) * half_weight g q (snd (quad_co i)))%R.
Proof.
  intro Hk. unfold quad_cs. do 4 (destruct k as [|k]; [cbn [quad_map nth]; split;
   [prodw; lists; field | intros i Hi; do 9 (destruct i as [|i]; [prodw; ring|]); lia]|]). lia.
Qed.
