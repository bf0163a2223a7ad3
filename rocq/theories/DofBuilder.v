(** Model of cpp/dolfinx/fem/dofmapbuilder.cpp.  A flat dofmap array of fixed width is a list
    of rows.  Exceptions, failing asserts and accesses out of bounds are [None]. *)
From Verif Require Import Base Algo Nbx World IndexMap CellTypes.
Open Scope nat_scope.

(** [ElementDofLayout::entity_dofs_all], [num_dofs] *)
Record layout := { ly_dofs : list (list (list nat)); ly_num : nat }.
(** What the builder asks of [mesh::Topology] on one rank: [dim], [entity_types(d)],
    [index_maps(d)[et]], [connectivity({D, i}, {d, et})] (null is [None]). *)
Record topo := { tp_dim : nat; tp_types : nat -> list cell_type; tp_map : nat -> nat -> imap;
                 tp_conn : nat -> nat -> nat -> option (list (list nat)) }.
Definition map_size (m : imap) : nat := size_local m + num_ghosts m.

(** [std::find] *)
Fixpoint find_type (t : cell_type) (l : list cell_type) : option nat :=
  match l with [] => None | x :: r => if cell_eqb x t then Some 0 else i <- find_type t r ;; Some (S i) end.
(** A required entity: (dimension, type), number of dofs *)
Notation req := ((nat * nat) * nat)%type.
Definition find_req (de : nat * nat) (rq : list req) : option nat :=
  option_map snd (find (fun r => pair_eqb (fst r) de) rq).

(** dofmapbuilder.cpp:186-230, entity [e] with dofs [ds] *)
Definition require (tp : topo) (i : nat) (ct : cell_type) (d : nat) (rq : list req) (eds : nat * list nat) : option (list req) :=
  match snd eds with
  | [] => Some rq
  | _ =>
    et <- find_type (cell_entity_type ct d (fst eds)) (tp_types tp d) ;;
    match find_req (d, et) rq with
    | None =>
      let rq := rq ++ [((d, et), length (snd eds))] in
      if (d <? tp_dim tp) && match tp_conn tp i d et with None => true | _ => false end then None else Some rq
    | Some n => if n =? length (snd eds) then Some rq else None
    end
  end.
(** dofmapbuilder.cpp:166-232 *)
Definition required (tp : topo) (lys : list layout) : option (list req) :=
  ofold (fun rq i =>
           ct <- nth_error (tp_types tp (tp_dim tp)) i ;; ly <- nth_error lys i ;;
           ofold (fun rq d => eds <- nth_error (ly_dofs ly) d ;; ofold (require tp i ct d) (combine (seq 0 (length eds)) eds) rq)
                 (seq 0 (S (tp_dim tp))) rq)
        (seq 0 (length (tp_types tp (tp_dim tp)))) [].
Definition req_size (tp : topo) (r : req) : nat := snd r * map_size (tp_map tp (fst (fst r)) (snd (fst r))).
(** [local_entity_offsets] *)
Definition offsets_of (tp : topo) (rq : list req) : list nat := psums (map (req_size tp) rq).

(** dofmapbuilder.cpp:310-349: the dofs of a cell on the entities of one dimension and type *)
Definition fill_entities (ct : cell_type) (ly : layout) (d : nat) (type : cell_type) (n off : nat) (c_to_e : list nat) (row : list nat) : option (list nat) :=
  eds <- nth_error (ly_dofs ly) d ;;
  num <- cell_num_entities ct d ;;
  '(row, _) <- ofold (fun st eds =>
     let '(row, w) := st in
     if fst eds <? num then
       if cell_eqb type (cell_entity_type ct d (fst eds)) then
         if length (snd eds) =? n then
           ei <- nth_error c_to_e w ;;
           row <- ofold (fun row jl => upd row (snd jl) (off + n * ei + fst jl)) (combine (seq 0 n) (snd eds)) row ;;
           Some (row, S w)
         else None
       else Some st
     else None) (combine (seq 0 (length eds)) eds) (row, 0) ;;
  Some row.
(** dofmapbuilder.cpp:270-349: the dofs of cell [c] of type [i] *)
Definition fill_cell (tp : topo) (i : nat) (ct : cell_type) (ly : layout) (rq : list req) (c : nat) : option (list nat) :=
  ofold (fun row ro =>
     let '(((d, et), n), off) := ro in
     type <- nth_error (tp_types tp d) et ;;
     if d <? tp_dim tp then
       match tp_conn tp i d et with
       | None => Some row
       | Some links => c_to_e <- nth_error links c ;; fill_entities ct ly d type n off c_to_e row
       end
     else fill_entities ct ly d type n off [c] row)
   (combine rq (offsets_of tp rq)) (repeat 0 (ly_num ly)).
(** dofmapbuilder.cpp:248-352 *)
Definition cell_dofs (tp : topo) (lys : list layout) (rq : list req) : option (list (list (list nat))) :=
  omap (fun i =>
          ct <- nth_error (tp_types tp (tp_dim tp)) i ;; ly <- nth_error lys i ;;
          omap (fill_cell tp i ct ly rq) (seq 0 (map_size (tp_map tp (tp_dim tp) i))))
       (seq 0 (length (tp_types tp (tp_dim tp)))).

(** dofmapbuilder.cpp:362-397: the loops visit the dofs in increasing order, so that the
    assignments append. *)
Definition req_map (tp : topo) (r : req) : imap := tp_map tp (fst (fst r)) (snd (fst r)).
Definition old_globals (tp : topo) (rq : list req) : list nat :=
  let goff := psums (map (fun r => snd r * im_size_global (req_map tp r)) rq) in
  concat (map (fun ro => concat (map (fun g => map (fun count => snd ro + snd (fst ro) * g + count) (seq 0 (snd (fst ro)))) (global_indices (req_map tp (fst ro))))) (combine rq goff)).
Definition dof_entities (tp : topo) (rq : list req) : list (nat * nat) :=
  concat (map (fun kr => concat (map (fun e => repeat (fst kr, e) (snd (snd kr))) (seq 0 (length (global_indices (req_map tp (snd kr))))))) (combine (seq 0 (length rq)) rq)).
Definition global_start (tp : topo) (rq : list req) : nat := lsum (map (fun r => snd r * im_lo (req_map tp r)) rq).

(** ** Reordering *)
Definition is_owned (sizes : list nat) (de : list (nat * nat)) (dof : nat) : option bool :=
  e <- nth_error de dof ;; o <- nth_error sizes (fst e) ;; Some (snd e <? o).
(** dofmapbuilder.cpp:434-438 *)
Definition owned_size (sizes : list nat) (de : list (nat * nat)) : option nat :=
  ofold (fun a e => o <- nth_error sizes (fst e) ;; Some (if snd e <? o then S a else a)) de 0.
(** dofmapbuilder.cpp:450-456, 466-472 *)
Definition number_dof (sizes : list nat) (de : list (nat * nat)) (st : list (option nat) * nat * nat) (dof : nat) : option (list (option nat) * nat * nat) :=
  let '(o2c, co, cu) := st in
  x <- nth_error o2c dof ;;
  match x with
  | Some _ => Some st
  | None =>
    b <- is_owned sizes de dof ;;
    if b then o2c <- upd o2c dof (Some co) ;; Some (o2c, S co, cu)
    else o2c <- upd o2c dof (Some cu) ;; Some (o2c, co, S cu)
  end.
(** dofmapbuilder.cpp:440-473 *)
Definition contiguous (sizes : list nat) (de : list (nat * nat)) (dofmaps : list (list (list nat))) : option (list nat * nat) :=
  owned <- owned_size sizes de ;;
  let st := (repeat None (length de), 0, owned) in
  st <- ofold (number_dof sizes de) (concat (concat dofmaps)) st ;;
  st <- ofold (number_dof sizes de) (seq 0 (length de)) st ;;
  o2c <- omap (fun x => x) (fst (fst st)) ;;
  Some (o2c, owned).

(** dofmapbuilder.cpp:69-76, 93-100 *)
Definition node_temp (o2c : list nat) (owned : nat) (row : list nat) : option (list nat) :=
  nodes <- omap (nth_error o2c) row ;; Some (filter (fun n => n <? owned) nodes).
(** dofmapbuilder.cpp:102-111: the pairs in the order of the writes *)
Fixpoint edge_pairs (l : list nat) : list (nat * nat) :=
  match l with [] => [] | x :: t => concat (map (fun y => [(x, y); (y, x)]) t) ++ edge_pairs t end.
(** dofmapbuilder.cpp:53-132: the graph passed to the reordering function, as its rows *)
Definition dof_graph (o2c : list nat) (owned : nat) (dofmaps : list (list (list nat))) : option (list (list nat)) :=
  temps <- omap (node_temp o2c owned) (concat dofmaps) ;;
  num_edges <- ofold (fun ne temp => ofold (fun ne node => modify ne node (fun x => x + (length temp - 1))) temp ne) temps (repeat 0 owned) ;;
  let offsets := psums num_edges in
  '(_, edges) <- ofold (fun st temp => ofold place (edge_pairs temp) st) temps (offsets, repeat 0 (last offsets 0)) ;;
  omap (fun i => b <- slice_at edges (psums num_edges) i ;; Some (sort_uniq b)) (seq 0 owned).
(** dofmapbuilder.cpp:421-490; an empty [std::function] is [None]. *)
Definition reordering_map (sizes : list nat) (de : list (nat * nat)) (dofmaps : list (list (list nat))) (reorder : option (list (list nat) -> list nat)) : option (list nat * nat) :=
  '(o2c, owned) <- contiguous sizes de dofmaps ;;
  match reorder with
  | None => Some (o2c, owned)
  | Some f =>
    g <- dof_graph o2c owned dofmaps ;;
    o2n <- omap (fun i => if i <? owned then nth_error (f g) i else Some i) o2c ;;
    Some (o2n, owned)
  end.

(** ** Global indices *)
(** What one rank passes to [get_global_indices] *)
Record gi_input := { gi_owned : nat; gi_offset : nat; gi_old : list nat; gi_o2n : list nat; gi_de : list (nat * nat) }.
Definition tri_leb (a b : nat * (nat * nat)) : bool :=
  (fst a <? fst b) || (fst a =? fst b) && pair_leb (snd a) (snd b).
Section World.
Variables (P K : nat) (maps : nat -> nat -> imap) (inp : nat -> option gi_input).  (* maps k r *)
(** dofmapbuilder.cpp:520-534 *)
Definition shared_entity (k q : nat) : option (list bool) :=
  fwd <- shared_indices P (maps k) q ;;
  ofold (fun s i => upd s i true) fwd (repeat false (size_local (maps k q))).
(** dofmapbuilder.cpp:539-554: (old, new) pairs for map [k] *)
Definition global_pairs (k q : nat) : option (list (nat * nat)) :=
  i <- inp q ;;
  shared <- shared_entity k q ;;
  ps <- omap (fun x : (nat * nat) * (nat * nat) =>
                let '((d, entity), (old, new)) := x in
                Some (if (d =? k) && match nth_error shared entity with Some b => b | None => false end then [(old, new + gi_offset i)] else []))
             (combine (gi_de i) (combine (gi_old i) (gi_o2n i))) ;;
  Some (concat ps).
(** dofmapbuilder.cpp:562-593: what arrives, by source *)
Definition received_pairs (k q : nat) : option (list (list (nat * nat))) :=
  neigh_alltoall P (fun s => im_src (maps k s)) (fun s => im_dest (maps k s))
    (fun s => b <- global_pairs k s ;; Some (repeat b (length (im_dest (maps k s))))) q.
(** [std::ranges::upper_bound] *)
Definition upper_bound (l : list nat) (x : nat) : nat := prefix_len (fun y => y <=? x) l.
(** dofmapbuilder.cpp:624-635 *)
Definition old_new (k q : nat) : option (list (nat * (nat * nat))) :=
  blocks <- received_pairs k q ;;
  let disp := psums (map (@length _) blocks) in
  l <- omap (fun jx : nat * (nat * nat) => s <- nth_error (im_src (maps k q)) (upper_bound disp (fst jx) - 1) ;; Some (fst (snd jx), (snd (snd jx), s)))
            (combine (seq 0 (length (concat blocks))) (concat blocks)) ;;
  Some (isort tri_leb l).
(** dofmapbuilder.cpp:595-609: (old, new - owned) pairs for map [k] *)
Definition unowned_pairs (k : nat) (i : gi_input) : list (nat * nat) :=
  concat (map (fun x : (nat * nat) * (nat * nat) =>
                let '((d, _), (old, new)) := x in
                if (d =? k) && (gi_owned i <=? new) then [(old, new - gi_owned i)] else [])
             (combine (gi_de i) (combine (gi_old i) (gi_o2n i)))).
(** dofmapbuilder.cpp:611-655; [order] is the order in which [MPI_Waitany] completes the
    requests. *)
Definition global_indices_of (order : list nat) (q : nat) : option (list nat * list nat) :=
  i <- inp q ;;
  let n := length (gi_o2n i) - gi_owned i in
  ofold (fun st k =>
     tab <- old_new k q ;;
     ofold (fun st ol =>
        let '(l2g, own) := st in
        x <- nth_error tab (prefix_len (fun a => fst a <? fst ol) tab) ;;
        if fst x =? fst ol then
          l2g <- upd l2g (snd ol) (fst (snd x)) ;; own <- upd own (snd ol) (snd (snd x)) ;; Some (l2g, own)
        else None) (unowned_pairs k i) st) order (repeat 0 n, repeat 0 n).
End World.

(** ** The whole builder *)
Section Build.
Variables (P : nat) (nbx : (nat -> list nat) -> nat -> list nat) (tps : nat -> topo) (lys : list layout)
          (reorder : nat -> option (list (list nat) -> list nat)) (order : nat -> list nat).
(** dofmapbuilder.cpp:668-687 on rank [q] *)
Definition basic (q : nat) : option (list req * list (list (list nat)) * list nat * nat) :=
  rq <- required (tps q) lys ;;
  dofs <- cell_dofs (tps q) lys rq ;;
  '(o2n, owned) <- reordering_map (map (fun r => size_local (req_map (tps q) r)) rq) (dof_entities (tps q) rq) dofs (reorder q) ;;
  Some (rq, dofs, o2n, owned).
Definition gi_of (q : nat) : option gi_input :=
  '(rq, _, o2n, owned) <- basic q ;;
  Some {| gi_owned := owned; gi_offset := global_start (tps q) rq; gi_old := old_globals (tps q) rq; gi_o2n := o2n; gi_de := dof_entities (tps q) rq |}.
(** The index maps of the required entities, [topo_index_maps] *)
Definition entity_map (k q : nat) : imap :=
  match required (tps q) lys with
  | Some rq => match nth_error rq k with Some r => req_map (tps q) r | None => mkIM 0 0 0 [] [] [] [] end
  | None => mkIM 0 0 0 [] [] [] []
  end.
Definition unowned_of (q : nat) : option (list nat * list nat) := global_indices_of P entity_map gi_of (order q) q.
(** dofmapbuilder.cpp:660-710 *)
Definition build_dofmap_data (q : nat) : option (imap * list (list (list nat))) :=
  '(rq, dofs, o2n, owned) <- basic q ;;
  _ <- unowned_of q ;;
  m <- imap_make P nbx (fun s => match basic s with Some (_, n) => n | None => 0 end)
         (fun s => match unowned_of s with Some (g, _) => g | None => [] end)
         (fun s => match unowned_of s with Some (_, o) => o | None => [] end) q ;;
  dofmaps <- omap (omap (omap (nth_error o2n))) dofs ;;
  Some (m, dofmaps).
End Build.

(** ** The real element *)
Section Real.
Variables (P : nat) (nbx : (nat -> list nat) -> nat -> list nat) (cells : nat -> imap).
(** dofmapbuilder.cpp:721-722 *)
Definition real_is_owner (q : nat) : bool := (im_lo (cells q) =? 0) && (0 <? size_local (cells q)).
(** MPI_Allreduce(MPI_MAXLOC) of the values [f] 0, ..., P-1: the rank that holds the largest
    value, the lowest such rank in case of a tie *)
Definition maxloc (f : nat -> nat) : nat := fold_left (fun b q => if f b <? f q then q else b) (seq 0 P) 0.
(** dofmapbuilder.cpp:713-751 *)
Definition real_num (q : nat) : nat := if real_is_owner q then 1 else 0.
Definition real_ghosts (q : nat) : list nat := repeat 0 (if real_is_owner q then 0 else 1).
Definition real_owners (q : nat) : list nat := repeat (maxloc (fun q => if real_is_owner q then 1 else 0)) (if real_is_owner q then 0 else 1).
Definition build_real_element_dofmap (q : nat) : option (imap * list (list nat)) :=
  m <- imap_make P nbx real_num real_ghosts real_owners q ;;
  Some (m, repeat [0] (map_size (cells q))).
End Real.
