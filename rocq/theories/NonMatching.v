(** Model of the interpolation of a function on another mesh, on any number of processes
    (cpp/dolfinx/fem/interpolate.h): [interpolation_coords], [create_interpolation_data],
    [scatter_values] and [interpolate] with interpolation data.

    Simplifications: numbers are of any type with [zero], [add] and [mul]; a rank that is -1 is
    [None]; the result of determine_point_ownership is that of the model PointOwner.v, with
    points as triples; evaluation and local interpolation are those of Interp.v. *)
From Verif Require Import Base Algo World Interp PointOwner.

(** ** interpolation_coords (interpolate.h:46-106) and create_interpolation_data (1110-1128) *)
Section Coords.
Variables (T : Type) (zero : T) (add mul : T -> T -> T).

(** interpolate.h:87-91: [copy_n(x_g + 3 * x_dofs[i], gdim, coordinate_dofs + i * gdim)] *)
Definition coordinate_dofs (gdim : nat) (x_g : list T) (x_dofs : list nat) : option (list T) :=
  rows <- omap (fun d => slice x_g (3 * d) (3 * d + gdim)) x_dofs ;; Some (concat rows).
(** interpolate.h:81-105; [phi]: the values of the coordinate basis functions at each point of the
    reference cell. *)
Definition interpolation_coords (gdim : nat) (phi : list (list T)) (x_dofmap : list (list nat)) (x_g : list T) (cells : list nat) : option (list T) :=
  let n := length phi in
  ofold (fun x oc => let '(offset, c) := oc in
      x_dofs <- nth_error x_dofmap c ;;
      cd <- coordinate_dofs gdim x_g x_dofs ;;
      ofold (fun x pj => let '(p, j) := pj in
          row <- nth_error phi p ;;
          acc <- ofold (fun s k => f <- nth_error row k ;; y <- nth_error cd (k * gdim + j) ;; Some (add s (mul f y))) (seq 0 (length row)) zero ;;
          upd x (j * (length cells * n) + offset * n + p) acc)
        (list_prod (seq 0 n) (seq 0 gdim)) x)
    (combine (seq 0 (length cells)) cells) (repeat zero (3 * (length cells * n))).
(** interpolate.h:1117-1123: the points, three coordinates each. *)
Definition data_points (coords : list T) : option (list (T * T * T)) :=
  let n := length coords / 3 in
  x <- ofold (fun x ij => let '(i, j) := ij in v <- nth_error coords (i + j * n) ;; upd x (3 * i + j) v) (list_prod (seq 0 n) (seq 0 3)) (repeat zero (length coords)) ;;
  omap (fun i => a <- nth_error x (3 * i) ;; b <- nth_error x (3 * i + 1) ;; c <- nth_error x (3 * i + 2) ;; Some (a, b, c)) (seq 0 n).
End Coords.

(** ** scatter_values (interpolate.h:157-290) *)
Section Scatter.
Variables (P : nat) (T : Type) (zero : T) (bs : nat).
Variables (src_ranks : nat -> list nat) (dest_ranks : nat -> list (option nat)) (send_values : nat -> list T).

(** interpolate.h:166-186 *)
Definition sc_out (q : nat) : list nat := unique Nat.eqb (src_ranks q).
Definition sc_in (r : nat) : list nat := sort_uniq (concat (map (fun o : option nat => match o with Some q => [q] | None => [] end) (dest_ranks r))).

(** interpolate.h:198-223 *)
Definition recv_sizes (r : nat) : option (list nat) :=
  ofold (fun sizes (o : option nat) => match o with
      | Some rank => k <- find_sorted (sc_in r) rank ;; modify sizes k (fun n => n + bs)
      | None => Some sizes
      end) (dest_ranks r) (repeat 0 (length (sc_in r))).
(** interpolate.h:225-246 *)
Definition comm_to_output (r : nat) : option (list nat) :=
  sizes <- recv_sizes r ;;
  let offsets := psums sizes in
  '(_, output) <- ofold (fun st io => let '(counter, output) := st in
      match snd io with
      | Some rank =>
        k <- find_sorted (sc_in r) rank ;;
        a <- nth_error offsets k ;; b <- nth_error counter k ;;
        output' <- upd output ((a + b) / bs) (fst io * bs) ;;
        counter' <- upd counter k (b + bs) ;;
        Some (counter', output')
      | None => Some st
      end) (combine (seq 0 (length (dest_ranks r))) (dest_ranks r)) (repeat 0 (length sizes), repeat 0 (last offsets 0 / bs)) ;;
  Some output.
(** interpolate.h:249-272: the search starts at the last rank found. *)
Definition send_sizes (q : nat) : option (list nat) :=
  '(_, sizes) <- ofold (fun st rank => let '(start, sizes) := st in
      let k := start + lower_bound (skipn start (sc_out q)) rank in
      y <- nth_error (sc_out q) k ;;
      if y =? rank then sizes' <- modify sizes k (fun n => n + bs) ;; Some (k, sizes') else None)
    (src_ranks q) (0, repeat 0 (length (sc_out q))) ;;
  Some sizes.
(** [std::copy_n(vs, bs, recv_values + at)] *)
Definition copy_to (recv : list T) (vs : list T) (at_ : nat) : option (list T) :=
  ofold (fun a iv => upd a (fst iv) (snd iv)) (combine (seq at_ (length vs)) vs) recv.
(** interpolate.h:161-164, 274-290 *)
Definition scatter_values (r : nat) : option (list T) :=
  if bs =? 0 then None else
  values <- neigh_alltoallv P sc_in sc_out
      (fun q => if length (src_ranks q) * bs =? length (send_values q) then
                  sizes <- send_sizes q ;; Some (send_values q, (sizes, psums sizes))
                else None) recv_sizes r ;;
  output <- comm_to_output r ;;
  ofold (fun recv ia => vs <- slice values (fst ia * bs) (fst ia * bs + bs) ;; copy_to recv vs (snd ia))
    (combine (seq 0 (length output)) output) (repeat zero (length (dest_ranks r) * bs)).
End Scatter.

(** ** interpolate (interpolate.h:1215-1275) *)
Section Interpolate.
Variables (P : nat) (nbx : (nat -> list nat) -> nat -> list nat).
Variables (T : Type) (zero : T) (add mul : T -> T -> T) (X : Type).
(** The points of each rank and what finds their owners (PointOwner.v). *)
Variables (zero_x : X) (points : nat -> list X) (box_ranks : nat -> X -> list nat) (candidates : nat -> X -> list nat) (dist2 : nat -> nat -> X -> Z) (tol max_val : Z).
(** The function to interpolate from, on each rank. *)
Variables (basis : nat -> nat -> X -> list (list T)) (bs0 dim0 vs0 bs_dof0 : nat) (symmetric0 : bool) (dofmap0 : nat -> list (list nat)) (v0 : nat -> list T).
(** The space to interpolate into: a point evaluation element. *)
Variables (ebs nsd num_sub value_size dbs : nat) (symmetric : bool) (dofmap : nat -> list (list nat)) (transform : nat -> nat -> list T -> list T) (cells : nat -> list nat).

Definition ownership (r : nat) := determine_point_ownership P nbx X zero_x points box_ranks candidates dist2 tol max_val r.
(** interpolate.h:1246-1251 *)
Definition evaluated (q : nat) : option (list T) :=
  '(_, (_, pts, cs)) <- ownership q ;;
  eval T zero add mul X (basis q) bs0 dim0 vs0 bs_dof0 symmetric0 (dofmap0 q) (v0 q) pts cs (repeat zero (length pts * value_size)) value_size.
(** interpolate.h:1262-1268 *)
Definition transposed (n : nat) (values : list T) : option (list T) :=
  ofold (fun t ij => let '(i, j) := ij in v <- nth_error values (i * value_size + j) ;; upd t (j * n + i) v)
    (list_prod (seq 0 n) (seq 0 value_size)) (repeat zero (value_size * n)).
(** All ranks have to get as far as the exchange. *)
Definition interpolate_nonmatching (r : nat) (u : list T) : option (list T) :=
  world <- omap (fun q => '(owners, (srcs, _, _)) <- ownership q ;; vs <- evaluated q ;; Some (owners, srcs, vs)) (seq 0 P) ;;
  values <- scatter_values P T zero value_size
      (fun q => match nth_error world q with Some (_, srcs, _) => srcs | None => [] end)
      (fun q => match nth_error world q with Some (owners, _, _) => owners | None => [] end)
      (fun q => match nth_error world q with Some (_, _, vs) => vs | None => [] end) r ;;
  '(owners, _) <- ownership r ;;
  f <- transposed (length owners) values ;;
  interpolate_values T zero add mul ebs nsd 1 num_sub value_size dbs symmetric true 0 [] (dofmap r) (transform r) (cells r) f (value_size, length owners) u.
End Interpolate.
