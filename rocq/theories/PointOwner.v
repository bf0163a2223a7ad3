(** Model of geometry::determine_point_ownership (cpp/dolfinx/geometry/utils.h:683-982) and
    compute_first_colliding_cell (utils.h:521-558).

    Simplifications: points are items of any type (not three numbers in an array, so sizes are
    not scaled by 3); the bounding box trees are the lists of ranks and of candidate cells they
    return for a point ([box_ranks], [candidates]: any functions); the squared distance between
    a point and a cell (GJK algorithm) is any function with integer values (only compared);
    -1 for ranks and cells is [None]; the owner and the smallest distance of a point are one
    array of pairs.  Exceptions, failing [assert]s and accesses outside arrays are [None]. *)
From Verif Require Import Base Algo World IndexMap.

Section Ownership.
Variables (P : nat) (nbx : (nat -> list nat) -> nat -> list nat).
Variables (A : Type) (zero : A) (points : nat -> list A).
(** utils.h:705-710: ranks whose padded box contains the point, as seen by a rank. *)
Variable box_ranks : nat -> A -> list nat.
(** utils.h:783-785: cells of a rank whose box contains the point. *)
Variable candidates : nat -> A -> list nat.
(** rank, cell, point *)
Variable dist2 : nat -> nat -> A -> Z.
(** utils.h:797: [10 * epsilon]; largest number of the type. *)
Variables (tol max_val : Z).

(** utils.h:712-720 *)
Definition out_ranks (r : nat) : list nat := sort_uniq (concat (map (box_ranks r) (points r))).
Definition in_ranks (r : nat) : list nat := isort Nat.leb (nbx out_ranks r).

(** utils.h:728-738, 749-770 and 938-949: a value for each point, to every rank of the point;
    the send buffer and the sizes. *)
Definition packed {V} (zero_v : V) (vs : list V) (r : nat) : option (list V * list nat) :=
  kvs <- omap (fun xv => omap (fun p => k <- index_in p (out_ranks r) ;; Some (k, snd xv)) (box_ranks r (fst xv))) (combine (points r) vs) ;;
  let kvs := concat kvs in
  send_sizes <- count_keys (length (out_ranks r)) (map fst kvs) ;;
  let send_offsets := psums send_sizes in
  '(_, buf) <- ofold place kvs (send_offsets, repeat zero_v (last send_offsets 0)) ;;
  Some (buf, send_sizes).

(** utils.h:749-770: points to send and [unpack_map]. *)
Definition send_points (r : nat) : option (sbuf A * list nat) :=
  '(buf, send_sizes) <- packed (zero, 0) (combine (points r) (seq 0 (length (points r)))) r ;;
  Some ((map fst buf, (send_sizes, psums send_sizes)), map snd buf).
(** utils.h:740-747, 772-782: received points and sizes. *)
Definition received_points (r : nat) : option (list A * list nat) :=
  exchange P in_ranks out_ranks (fun q => '(s, _) <- send_points q ;; Some s) r.
(** Answers to the received points, sent back (utils.h:809-838, 904-912). *)
Definition send_back {V} (data : nat -> option (list V)) (r : nat) : option (list V) :=
  neigh_alltoallv P out_ranks in_ranks
    (fun q => buf <- data q ;; '(_, sizes) <- received_points q ;; Some (buf, (sizes, psums sizes)))
    (fun q => '((_, (sizes, _)), _) <- send_points q ;; Some sizes) r.
(** Data for the sent points (utils.h:855-863, 951-956). *)
Definition send_forward {V} (data : nat -> option (list V)) (r : nat) : option (list V) :=
  neigh_alltoallv P in_ranks out_ranks
    (fun q => buf <- data q ;; '((_, (sizes, _)), _) <- send_points q ;; Some (buf, (sizes, psums sizes)))
    (fun q => '(_, sizes) <- received_points q ;; Some sizes) r.

(** utils.h:521-558 *)
Definition first_colliding_cell (r : nat) (x : A) : option nat :=
  find (fun c => (dist2 r c x <? tol)%Z) (candidates r x).
(** utils.h:787-807 *)
Definition cell_indicator (r : nat) : option (list (option nat)) :=
  '(pts, _) <- received_points r ;;
  Some (map (fun x => match first_colliding_cell r x with Some _ => Some r | None => None end) pts).

(** utils.h:840-847 *)
Definition set_owner (owners : list (option nat)) (po : nat * option nat) : option (list (option nat)) :=
  old <- nth_error owners (fst po) ;;
  match snd po, old with
  | Some q, None => upd owners (fst po) (Some q)
  | _, _ => Some owners
  end.
Definition first_owners (r : nat) : option (list (option nat)) :=
  '(_, unpack_map) <- send_points r ;;
  recv_ranks <- send_back cell_indicator r ;;
  ofold set_owner (combine unpack_map recv_ranks) (repeat None (length (points r))).

(** utils.h:849-857 *)
Definition extrapolate (r : nat) : option (list bool) :=
  '(_, unpack_map) <- send_points r ;;
  owners <- first_owners r ;;
  omap (fun pos => o <- nth_error owners pos ;; Some (match o with None => true | Some _ => false end)) unpack_map.

(** utils.h:877-895 *)
Definition closest (r : nat) (x : A) : Z * option nat :=
  fold_left (fun best c => if (dist2 r c x <? fst best)%Z then (dist2 r c x, Some c) else best) (candidates r x) (max_val, None).
(** utils.h:864-899: the cells and squared distances of the received points. *)
Definition extrapolated (r : nat) : option (list (option nat * Z)) :=
  '(pts, _) <- received_points r ;;
  dest_extrapolate <- send_forward extrapolate r ;;
  omap (fun xf => let '(x, f) := xf in
    if f : bool then
      match first_colliding_cell r x with
      | Some _ => None
      | None => let '(d, c) := closest r x in Some (c, d)
      end
    else Some (first_colliding_cell r x, (-1)%Z)) (combine pts dest_extrapolate).

(** utils.h:914-932 *)
Definition update_owner (rank : nat) (st : list (option nat * Z)) (pd : nat * Z) : option (list (option nat * Z)) :=
  old <- nth_error st (fst pd) ;;
  if ((0 <? snd pd) && (snd pd <? snd old))%Z then upd st (fst pd) (Some rank, snd pd) else Some st.
Definition point_owners (r : nat) : option (list (option nat)) :=
  '((_, (sizes, _)), unpack_map) <- send_points r ;;
  owners <- first_owners r ;;
  recv_distances <- send_back (fun q => l <- extrapolated q ;; Some (map snd l)) r ;;
  st <- ofold (fun st i =>
      rank <- nth_error (out_ranks r) i ;;
      us <- slice_at unpack_map (psums sizes) i ;;
      ds <- slice_at recv_distances (psums sizes) i ;;
      ofold (update_owner rank) (combine us ds) st)
    (seq 0 (length (out_ranks r))) (map (fun o => (o, max_val)) owners) ;;
  Some (map fst st).

(** utils.h:934-982: owners of the points of this rank; source ranks, points and cells of the
    points this rank owns. *)
Definition determine_point_ownership (r : nat) : option (list (option nat) * (list nat * list A * list (option nat))) :=
  owners <- point_owners r ;;
  '(pts, sizes) <- received_points r ;;
  cells <- extrapolated r ;;
  dest_ranks <- send_forward (fun q => os <- point_owners q ;; '(buf, _) <- packed None os q ;; Some buf) r ;;
  owned <- omap (fun i =>
      src <- nth_error (in_ranks r) i ;;
      ps <- slice_at pts (psums sizes) i ;;
      cs <- slice_at (map fst cells) (psums sizes) i ;;
      os <- slice_at dest_ranks (psums sizes) i ;;
      Some (map (fun pco => (src, fst pco))
                (filter (fun pco => match snd pco with Some q => q =? r | None => false end) (combine (combine ps cs) os))))
    (seq 0 (length (in_ranks r))) ;;
  let owned := concat owned in
  Some (owners, (map fst owned, map (fun o => fst (snd o)) owned, map (fun o => snd (snd o)) owned)).
End Ownership.
