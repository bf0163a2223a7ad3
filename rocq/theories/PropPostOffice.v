(** Property C09.  Rank [q] passes the rows [x q]; the communicator of the data has the
    ranks [comm1], in this order, so that the global array is the concatenation of
    their rows.  [nbx0], [nbx1]: any results of the consensus allowed by C07. *)
From Verif Require Import Base Algo World Nbx Ranges PostOffice PostOfficeProofs.
Open Scope nat_scope.

(** C09: every rank gets, for each index it asked for, that row of the global array. *)
Theorem C09_distribute_data :
  forall (A : Type) (zero : A) P nbx0 nbx1 (comm1 : list nat) (x : nat -> list A) (indices : nat -> list nat) r,
    nbx_oracle P nbx0 -> nbx_oracle P nbx1 ->
    NoDup comm1 -> (forall q, In q comm1 -> q < P) -> (forall q, q < P -> ~ In q comm1 -> x q = []) ->
    (forall q g, q < P -> In g (indices q) -> g < length (concat (map x comm1))) ->
    r < P ->
    distribute_data zero P nbx0 nbx1 comm1 x indices r
    = Some (map (fun g => nth g (concat (map x comm1)) zero) (indices r)).
Proof. exact (fun A zero P nbx0 nbx1 comm1 x indices r Hn0 Hn1 Hc1 Hc2 Hc3 Hi Hr =>
  distribute_data_ok zero P x comm1 Hc1 Hc2 Hc3 nbx0 nbx1 indices r Hn0 Hn1 Hr Hi). Qed.
Print Assumptions C09_distribute_data.

(** C09: rows on a rank outside the communicator of the data are refused. *)
Theorem C09_rows_outside_refused :
  forall (A : Type) (zero : A) P nbx0 nbx1 comm1 (x : nat -> list A) indices q r,
    q < P -> ~ In q comm1 -> x q <> [] ->
    distribute_data zero P nbx0 nbx1 comm1 x indices r = None.
Proof. exact (fun A zero P nbx0 nbx1 comm1 x indices q r => distribute_data_throws zero P x comm1 nbx0 nbx1 q indices r). Qed.
Print Assumptions C09_rows_outside_refused.

(** C09: sending to the post offices delivers to every rank, once each, the rows of its
    share of [0, number of rows) that it did not hold, with their positions there. *)
Theorem C09_distribute_to_postoffice :
  forall (A : Type) (zero : A) P nbx0 (comm1 : list nat) (x : nat -> list A) r,
    nbx_oracle P nbx0 ->
    NoDup comm1 -> (forall q, In q comm1 -> q < P) -> (forall q, q < P -> ~ In q comm1 -> x q = []) ->
    r < P ->
    let X := concat (map x comm1) in
    let off := exscan_on comm1 (fun q => length (x q)) 0 in
    exists idx rows,
      distribute_to_postoffice zero P nbx0 x off (length X) r = Some (idx, rows) /\
      length rows = length idx /\ NoDup idx /\
      forall l row, In (l, row) (combine idx rows) <->
        let g := fst (po_range P r (length X)) + l in
        g < snd (po_range P r (length X)) /\ nth_error X g = Some row /\
        ~ (exists o, off r = Some o /\ o <= g < o + length (x r)).
Proof. exact (fun A zero P nbx0 comm1 x r Hn0 Hc1 Hc2 Hc3 Hr => to_postoffice_ok zero P x comm1 Hc1 Hc2 Hc3 nbx0 r Hn0 Hr). Qed.
Print Assumptions C09_distribute_to_postoffice.

(** Four ranks; ranks 2, 0 and 1 hold the array [10..16], rank 3 holds nothing. *)
Definition po_x (q : nat) : list nat := match q with 2 => [10; 11; 12] | 0 => [13] | 1 => [14; 15; 16] | _ => [] end.
Definition po_ind (q : nat) : list nat := match q with 0 => [6; 3; 0; 6] | 1 => [] | 2 => [5; 2; 4; 1; 0] | _ => [3; 3; 6] end.
Example C09_ex :
  NoDup [2; 0; 1] /\ (forall q, In q [2; 0; 1] -> q < 4) /\ (forall q, q < 4 -> ~ In q [2; 0; 1] -> po_x q = []) /\
  (forall q g, q < 4 -> In g (po_ind q) -> g < length (concat (map po_x [2; 0; 1]))) /\
  map (distribute_data 0 4 (senders 4) (senders 4) [2; 0; 1] po_x po_ind) (seq 0 4)
  = [Some [16; 13; 10; 16]; Some []; Some [15; 12; 14; 11; 10]; Some [13; 13; 16]].
Proof.
  split; [repeat first [apply NoDup_nil | apply NoDup_cons; [cbn; lia|]]|]. split; [cbn; lia|]. split.
  - intros [|[|[|[|q]]]] Hq Hn; try reflexivity; try lia; exfalso; apply Hn; cbn; auto.
  - split; [|vm_compute; reflexivity]. intros [|[|[|[|q]]]] g Hq Hg; cbn in *; lia.
Qed.
Example C09_ex_bag :
  map (distribute_to_postoffice 0 4 (senders 4) po_x (exscan_on [2; 0; 1] (fun q => length (po_x q)) 0) 7) (seq 0 4)
  = [Some ([0; 1], [10; 11]); Some ([1; 0], [13; 12]); Some ([0; 1], [14; 15]); Some ([0], [16])].
Proof. vm_compute. reflexivity. Qed.
