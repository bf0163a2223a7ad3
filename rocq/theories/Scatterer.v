(** Model of cpp/dolfinx/common/Scatterer.h and of the scatter functions of
    cpp/dolfinx/la/Vector.h.

    Simplifications: a non-blocking scatter is one step (begin followed by end); the
    buffers are recreated in every scatter. *)
From Verif Require Import Base Algo World IndexMap.

(** Scatterer.h private members. *)
Record scatterer := mkSc {
  sc_src : list nat; sc_dest : list nat;
  sc_remote_inds : list nat; sc_sizes_remote : list nat; sc_displs_remote : list nat;
  sc_local_inds : list nat; sc_sizes_local : list nat; sc_displs_local : list nat }.

(** Scatterer.h:97-101: positions of the ghosts sorted by owner.  [radix_sort] is a
    stable sort (theorem C03), so equal owners keep their order. *)
Definition sc_perm (m : imap) : list nat :=
  map snd (isort pair_leb (combine (im_owners m) (seq 0 (length (im_owners m))))).

(** Scatterer.h:122-133: the loop with [upper_bound]. *)
Fixpoint upper_sizes (src : list nat) (rest : list nat) : list nat :=
  match src with
  | [] => []
  | s :: t => let k := prefix_len (fun o => o <=? s) rest in k :: upper_sizes t (skipn k rest)
  end.

(** [idx[i * bs + j] = v[i] * bs + j] *)
Definition expand (bs : nat) (v : list nat) : list nat :=
  concat (map (fun p => map (fun j => p * bs + j) (seq 0 bs)) v).

Section Scatter.
Variable P : nat.
Variable maps : nat -> imap.
Variable bs : nat.

(** Scatterer.h:103-133: send buffer of ghost indices with sizes and displacements. *)
Definition sc_send (q : nat) : option (sbuf nat) :=
  let m := maps q in
  owners_sorted <- omap (nth_error (im_owners m)) (sc_perm m) ;;
  ghosts_sorted <- omap (nth_error (im_ghosts m)) (sc_perm m) ;;
  let sizes := upper_sizes (im_src m) owners_sorted in
  if length ghosts_sorted =? last (psums sizes) 0                       (* assert, :150 *)
  then Some (ghosts_sorted, (sizes, psums sizes)) else None.

(** Scatterer.h:65-197.  One rank: everything empty.  The assert that received
    indices are in the owned range is [None]. *)
Definition sc_make (r : nat) : option scatterer :=
  let m := maps r in
  if P =? 1 then
    Some (mkSc (im_src m) (im_dest m) [] (repeat 0 (length (im_src m))) (repeat 0 (length (im_src m) + 1))
               [] (repeat 0 (length (im_dest m))) (repeat 0 (length (im_dest m) + 1)))
  else
    '(_, (sizes_remote, displs_remote)) <- sc_send r ;;
    '(recv_buffer, sizes_local) <- exchange P (fun q => im_dest (maps q)) (fun q => im_src (maps q)) sc_send r ;;
    if forallb (fun g => (im_lo m <=? g) && (g <? im_hi m)) recv_buffer then
      let scale := map (fun e => e * bs) in
      Some (mkSc (im_src m) (im_dest m)
                 (expand bs (sc_perm m)) (scale sizes_remote) (scale displs_remote)
                 (map (fun i => i - im_lo m * bs) (expand bs recv_buffer))
                 (scale sizes_local) (scale (psums sizes_local)))
    else None.

Section Data.
Variable T : Type.

(** Vector.h:61-72 *)
Definition pack_buf (idx : list nat) (x : list T) : option (list T) := omap (nth_error x) idx.

(** Vector.h:98-116: [out[idx[i]] = op(out[idx[i]], in[i])], where [out] starts at
    [off]; with [op a b = b] this is Vector.h:78-92. *)
Definition unpack_op (op : T -> T -> T) (idx : list nat) (buf : list T) (off : nat) (x : list T)
  : option (list T) :=
  if length idx =? length buf then
    ofold (fun x ib => modify x (off + fst ib) (fun v => op v (snd ib))) (combine idx buf) x
  else None.
Definition unpack_set := unpack_op (fun _ v => v).

(** Scatterer.h:251-264: owner to ghosts.  [bufs] gives every rank's send
    buffer.  A rank without neighbours returns early. *)
Definition sc_fwd (sc : nat -> option scatterer) (bufs : nat -> option (list T)) (r : nat)
  : option (list T) :=
  s <- sc r ;;
  match sc_sizes_local s, sc_sizes_remote s with
  | [], [] => Some []
  | _, _ =>
    neigh_alltoallv P (fun q => im_src (maps q)) (fun q => im_dest (maps q))
      (fun q => b <- bufs q ;; s <- sc q ;; Some (b, (sc_sizes_local s, sc_displs_local s)))
      (fun q => s <- sc q ;; Some (sc_sizes_remote s)) r
  end.
(** Scatterer.h:336-349: ghosts to owner. *)
Definition sc_rev (sc : nat -> option scatterer) (bufs : nat -> option (list T)) (r : nat)
  : option (list T) :=
  s <- sc r ;;
  match sc_sizes_local s, sc_sizes_remote s with
  | [], [] => Some []
  | _, _ =>
    neigh_alltoallv P (fun q => im_dest (maps q)) (fun q => im_src (maps q))
      (fun q => b <- bufs q ;; s <- sc q ;; Some (b, (sc_sizes_remote s, sc_displs_remote s)))
      (fun q => s <- sc q ;; Some (sc_sizes_local s)) r
  end.

(** Vector.h:292-299 (222-262): [x q] is the local array of rank [q]. *)
Definition vec_scatter_fwd (x : nat -> list T) (r : nat) : option (list T) :=
  s <- sc_make r ;;
  buf <- sc_fwd sc_make (fun q => s <- sc_make q ;; pack_buf (sc_local_inds s) (x q)) r ;;
  unpack_set (sc_remote_inds s) buf (bs * size_local (maps r)) (x r).

(** Vector.h:375-379 (317-358) *)
Definition vec_scatter_rev (op : T -> T -> T) (x : nat -> list T) (r : nat) : option (list T) :=
  s <- sc_make r ;;
  buf <- sc_rev sc_make (fun q => s <- sc_make q ;;
                                  pack_buf (map (fun i => bs * size_local (maps q) + i) (sc_remote_inds s)) (x q)) r ;;
  unpack_op op (sc_local_inds s) buf 0 (x r).
End Data.
End Scatter.
