(** C77: the arrays of coefficients and constants that are passed to kernels. *)
From Coq Require Import ZArith.
From Verif Require Import Base BaseProofs Algo MatrixCSR Assemble AssembleSpec FormData FormSpec Pack PackSpec PackProofs PackForm PackEnts.
Open Scope nat_scope.

(** Packing succeeds and gives, for every integral and every entity, the values of all
    coefficients one after the other: those of the coefficients in the integral on the cell
    of the entity (on both cells for interior facets), zero for the others. *)
Theorem C77_packed {T} (zero : T) (us : list (func T)) cell interior exterior ccells icells ecells :
  (forall u, In u us -> func_ok u) ->
  integrals_ok us cell cells_of ccells -> (forall e k u, In e cell -> In k (ig_active (snd e)) -> nth_error us k = Some u -> same_dim u) ->
  integrals_ok us interior pairs_of icells ->
  (forall t igs, nth_error exterior t = Some igs -> integrals_ok us igs cells_of (ecells t)) ->
  pack_coefficients zero (mkCform (map Some us) cell interior exterior) = Some (mkCoefs
    (map (fun e => (fst (fst e), (concat (map (packed_row zero us (ig_active (snd e)) (ccells (fst (fst e)))) (seq 0 (ig_num (snd e)))), stride us))) cell)
    (map (fun e => (fst (fst e), (concat (map (packed_pair_row zero us (ig_active (snd e)) (icells (fst (fst e)))) (seq 0 (ig_num (snd e)))), stride us))) interior)
    (map (fun '(t, igs) => map (fun e => (fst (fst e), (concat (map (packed_row zero us (ig_active (snd e)) (ecells t (fst (fst e)))) (seq 0 (ig_num (snd e)))), stride us))) igs) (enum exterior))).
Proof. intros Hu Hc Hd Hi He. exact (form_packed zero us Hu cell interior exterior ccells icells ecells Hc Hd Hi He). Qed.
Print Assumptions C77_packed.

(** The arrays have the sizes that assembly checks, and an assembler that reads the row of
    entity [e] reads the row of that entity; cell, facet, ridge and vertex integrals *)
Theorem C77_rows {T} (zero : T) (us : list (func T)) igs cells i ig e : (forall u, In u us -> func_ok u) ->
  integrals_ok us igs cells_of cells -> In ((i, 0), ig) igs -> e < ig_num ig ->
  let flat := concat (map (packed_row zero us (ig_active ig) (cells i)) (seq 0 (ig_num ig))) in
  length flat = ig_num ig * stride us /\ coeff_row flat (stride us) e = Some (packed_row zero us (ig_active ig) (cells i) e).
Proof. intro Hu. exact (cell_read zero us Hu igs cells i ig e). Qed.
Print Assumptions C77_rows.
(** interior facets *)
Theorem C77_facet_rows {T} (zero : T) (us : list (func T)) igs cells i ig e : (forall u, In u us -> func_ok u) ->
  integrals_ok us igs pairs_of cells -> In ((i, 0), ig) igs -> e < ig_num ig ->
  let flat := concat (map (packed_pair_row zero us (ig_active ig) (cells i)) (seq 0 (ig_num ig))) in
  length flat = ig_num ig * 2 * stride us /\ coeff_row flat (2 * stride us) e = Some (packed_pair_row zero us (ig_active ig) (cells i) e).
Proof. intro Hu. exact (pair_read zero us Hu igs cells i ig e). Qed.
Print Assumptions C77_facet_rows.

(** A coefficient that is not set, and a cell integral with a coefficient on a mesh of lower
    dimension, are refused. *)
Theorem C77_unset {T} (zero : T) (f : cform T) : In None (fc_coefs f) -> pack_coefficients zero f = None.
Proof. exact (unset_fails zero f). Qed.
Print Assumptions C77_unset.
Theorem C77_lower_dim {T} (zero : T) us cell interior exterior cells i ig k (u : func T) : (forall u, In u us -> func_ok u) ->
  integrals_ok us cell cells_of cells -> In ((i, 0), ig) cell -> In k (ig_active ig) -> nth_error us k = Some u -> 0 < fn_codim u ->
  pack_coefficients zero (mkCform (map Some us) cell interior exterior) = None.
Proof. exact (codim_fails zero us cell interior exterior cells i ig k u). Qed.
Print Assumptions C77_lower_dim.

(** Entities that the caller gives, as for an expression: slot [k] of row [i] has the values of
    coefficient [k] on the cell that belongs to entity [i], other places do not change. *)
Theorem C77_entities {T} (zero : T) (coeffs : list (func T * cmesh)) c_to_e e c :
  let dims := map (fun um => fn_dim (fst um)) coeffs in
  let st := lsum dims in
  (forall u m, In (u, m) coeffs -> func_ok u /\ map_ok (fn_codim u) m (c_to_e (fn_codim u)) e /\
     forall p x, In p (ents_list e) -> on_cell (fn_codim u) m (conn_of c_to_e (fn_codim u)) p (Some x) -> x < length (cd_rows (fn_dm u))) ->
  num_ents e * st <= length c ->
  exists c', pack_entities coeffs c_to_e e (psums dims) c = Some c' /\ length c' = length c /\ skipn (num_ents e * st) c' = skipn (num_ents e * st) c /\
    forall i k u m p, nth_error (ents_list e) i = Some p -> nth_error coeffs k = Some (u, m) -> exists x, on_cell (fn_codim u) m (conn_of c_to_e (fn_codim u)) p x /\
      firstn (fn_dim u) (skipn (i * st + lsum (firstn k dims)) c') = slot_values zero u x (firstn (fn_dim u) (skipn (i * st + lsum (firstn k dims)) c)).
Proof. exact (entities_packed zero coeffs c_to_e e c). Qed.
Print Assumptions C77_entities.
(** An array that is too small is refused. *)
Theorem C77_entities_small {T} (coeffs : list (func T * cmesh)) c_to_e e offsets c : length c < num_ents e * last offsets 0 -> pack_entities coeffs c_to_e e offsets c = None.
Proof. exact (too_small coeffs c_to_e e offsets c). Qed.
Print Assumptions C77_entities_small.

(** Constants: one after the other *)
Theorem C77_constants {T} (zero : T) (l : list (list T)) : pack_constants zero l = Some (concat l).
Proof. exact (constants_packed zero l). Qed.
Print Assumptions C77_constants.

(** * Examples *)
Section Example.
(** Two cells; a continuous scalar with a sign change on cell 1, a vector that is constant on
    cells, and a function on the two ends of cell 1 (a mesh of points). *)
Definition u0 : func Z := mkFn (mkCd [[0; 1]; [1; 2]] 2 1) 2 [10; 11; 12]%Z (fun l c _ => if c =? 1 then map Z.opp l else l) 0.
Definition u1 : func Z := mkFn (mkCd [[0]; [1]] 1 2) 2 [20; 21; 22; 23]%Z (fun l _ _ => l) 0.
Definition u2 : func Z := mkFn (mkCd [[1]; [0]] 1 1) 1 [30; 31]%Z (fun l _ _ => l) 1.
Definition ex_us : list (func Z) := [u0; u1; u2].
Definition ex_cell : list ((nat * nat) * cint (list (option nat))) :=
  [((0, 0), mkCint 2 [0; 1] [(0, [Some 0; Some 1]); (1, [Some 0; Some 1])]); ((1, 0), mkCint 1 [1] [(1, [Some 1])])].
Definition ex_int : list ((nat * nat) * cint (list (option nat * option nat))) :=
  [((0, 0), mkCint 1 [0; 2] [(0, [(Some 0, Some 1)]); (2, [(None, Some 1)])])].
Definition ex_ext : list (list ((nat * nat) * cint (list (option nat)))) := [[((0, 0), mkCint 2 [2; 0] [(0, [Some 0; Some 1]); (2, [None; Some 0])])]].
Definition of_igs {D} (d : D) (igs : list ((nat * nat) * cint D)) (i k : nat) : D :=
  match find (fun e => fst (fst e) =? i) igs with Some e => match find (fun x => fst x =? k) (ig_cells (snd e)) with Some x => snd x | None => d end | None => d end.

Example C77_packed_hyps : (forall u, In u ex_us -> func_ok u) /\
  integrals_ok ex_us ex_cell cells_of (of_igs [] ex_cell) /\ (forall e k u, In e ex_cell -> In k (ig_active (snd e)) -> nth_error ex_us k = Some u -> same_dim u) /\
  integrals_ok ex_us ex_int pairs_of (of_igs [] ex_int) /\
  (forall t igs, nth_error ex_ext t = Some igs -> integrals_ok ex_us igs cells_of (of_igs [] igs)).
Proof.
  split; [|split; [|split; [|split]]].
  - intros u Hu. cbn in Hu. destruct Hu as [<-|[<-|[<-|[]]]]; (split; [intros row Hr; cbn in Hr; repeat (destruct Hr as [<-|Hr]; [split; [reflexivity|intros d Hd; cbn in *; lia]|]); destruct Hr|intros c n l]); cbn [u0 u1 u2 fn_tr].
    + destruct (c =? 1); [apply map_length|reflexivity].
    + reflexivity.
    + reflexivity.
  - split; [intros e He; cbn in He; repeat (destruct He as [<-|He]; [reflexivity|]); destruct He|]. split; [reflexivity|].
    intros i ig He. cbn in He. repeat (destruct He as [He|He]; [injection He as <- <-; split; [repeat constructor; cbn; intuition discriminate|intros k Hk; cbn in Hk; repeat (destruct Hk as [<-|Hk]; [eexists; split; [reflexivity|split; [cbn; tauto|split; [reflexivity|cbn; intros c Hc; repeat (destruct Hc as [Hc|Hc]; [try discriminate; injection Hc as <-; lia|]); destruct Hc]]]|]); destruct Hk]|]). destruct He.
  - intros e k u He Hk Eu. cbn in He. destruct He as [<-|[<-|[]]]; cbn in Hk; repeat (destruct Hk as [<-|Hk]; [cbn in Eu; injection Eu as <-; reflexivity|]); destruct Hk.
  - split; [intros e He; cbn in He; repeat (destruct He as [<-|He]; [reflexivity|]); destruct He|]. split; [reflexivity|].
    intros i ig He. cbn in He. repeat (destruct He as [He|He]; [injection He as <- <-; split; [repeat constructor; cbn; intuition discriminate|intros k Hk; cbn in Hk; repeat (destruct Hk as [<-|Hk]; [eexists; split; [reflexivity|split; [cbn; tauto|split; (split; [reflexivity|cbn; intros c Hc; repeat (destruct Hc as [Hc|Hc]; [try discriminate; injection Hc as <-; lia|]); destruct Hc])]]|]); destruct Hk]|]). destruct He.
  - intros [|[|t]] igs Et; try discriminate. injection Et as <-. split; [intros e He; cbn in He; repeat (destruct He as [<-|He]; [reflexivity|]); destruct He|]. split; [reflexivity|].
    intros i ig He. cbn in He. repeat (destruct He as [He|He]; [injection He as <- <-; split; [repeat constructor; cbn; intuition discriminate|intros k Hk; cbn in Hk; repeat (destruct Hk as [<-|Hk]; [eexists; split; [reflexivity|split; [cbn; tauto|split; [reflexivity|cbn; intros c Hc; repeat (destruct Hc as [Hc|Hc]; [try discriminate; injection Hc as <-; lia|]); destruct Hc]]]|]); destruct Hk]|]). destruct He.
Qed.
Example C77_packed_case : pack_coefficients 0%Z (mkCform (map Some ex_us) ex_cell ex_int ex_ext) = Some (mkCoefs
  [(0, ([10; 11; 20; 21; 0; -11; -12; 22; 23; 0]%Z, 5)); (1, ([0; 0; 22; 23; 0]%Z, 5))]
  [(0, ([10; 11; -11; -12; 0; 0; 0; 0; 0; 30]%Z, 5))]
  [[(0, ([10; 11; 0; 0; 0; -11; -12; 0; 0; 31]%Z, 5))]]).
Proof. vm_compute. reflexivity. Qed.
Example C77_refused_case : pack_coefficients 0%Z (mkCform [Some u0; None] ex_cell [] []) = None /\
  pack_coefficients 0%Z (mkCform (map Some ex_us) [((0, 0), mkCint 1 [2] [(2, [Some 0])])] [] []) = None.
Proof. split; vm_compute; reflexivity. Qed.

(** Facets given as pairs: [u0] lives on the mesh, [u2] on a mesh of points with an entity map
    (point 0 is facet 2, point 1 is facet 1); the facet of the first pair is not a point. *)
Definition ex_coeffs : list (func Z * cmesh) := [(u0, SameMesh); (u2, MappedMesh (Some ([2; 1], true)))].
Definition ex_conn (d : nat) : option (list (list nat)) := if d =? 1 then Some [[0; 1]; [1; 2]] else None.
Definition ex_ents : ents := Pairs [(0, 0); (1, 0); (1, 1)].
Example C77_entities_hyps : forall u m, In (u, m) ex_coeffs -> func_ok u /\ map_ok (fn_codim u) m (ex_conn (fn_codim u)) ex_ents /\
  forall p x, In p (ents_list ex_ents) -> on_cell (fn_codim u) m (conn_of ex_conn (fn_codim u)) p (Some x) -> x < length (cd_rows (fn_dm u)).
Proof.
  destruct C77_packed_hyps as (Hu & _). intros u m Hin. cbn in Hin. destruct Hin as [E|[E|[]]]; injection E as <- <-.
  - split; [apply Hu; cbn; tauto|]. split; [exact I|]. intros p x Hp Hx. cbn in Hx. injection Hx as ->. cbn in Hp. destruct Hp as [<-|[<-|[<-|[]]]]; cbn; lia.
  - split; [apply Hu; cbn; tauto|]. split.
    + split; [repeat constructor; cbn; intuition discriminate|]. split; [reflexivity|]. split; [eexists; reflexivity|]. exists [[0; 1]; [1; 2]]. split; [reflexivity|].
      intros p Hp. cbn in Hp. destruct Hp as [<-|[<-|[<-|[]]]]; cbn [fst snd]; do 3 eexists; split; [reflexivity|split; reflexivity|reflexivity|split; reflexivity|reflexivity|split; reflexivity].
    + intros p x Hp (k & row & f & _ & _ & _ & Hs). cbn in Hs. destruct x as [|[|x]]; cbn; try lia. destruct x; discriminate.
Qed.
Example C77_entities_case : pack_entities ex_coeffs ex_conn ex_ents [0; 2; 3] [1; 2; 3; 4; 5; 6; 7; 8; 9; 99]%Z = Some [10; 11; 3; -11; -12; 30; -11; -12; 31; 99]%Z.
Proof. vm_compute. reflexivity. Qed.
Example C77_small_case : pack_entities ex_coeffs ex_conn ex_ents [0; 2; 3] [1; 2; 3; 4; 5; 6; 7; 8]%Z = None.
Proof. vm_compute. reflexivity. Qed.
Example C77_constants_case : pack_constants 0%Z [[1; 2]; []; [3]]%Z = Some [1; 2; 3]%Z.
Proof. vm_compute. reflexivity. Qed.
End Example.
