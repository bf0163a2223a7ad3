(** Model of cpp/dolfinx/graph/ordering.cpp.  The graph is the list of the links of its
    nodes.  [srt] is [std::ranges::sort] by degree, whose result is not unique; -1 is
    [None]. *)
From Verif Require Import Base AdjList.
Open Scope nat_scope.

(** The loops over the links of a node (ordering.cpp:46-52, 119-126): unlabelled nodes are
    labelled and appended. *)
Definition visit (g : list (list nat)) (node : nat) (st : list bool * list nat) : option (list bool * list nat) :=
  ls <- nth_error g node ;;
  ofold (fun '(labelled, acc) w => b <- nth_error labelled w ;;
           if (b : bool) then Some (labelled, acc) else l' <- upd labelled w true ;; Some (l', acc ++ [w])) ls st.

(** ordering.cpp:40-56; the fuel is the number of nodes. *)
Fixpoint levels (fuel : nat) (g : list (list nat)) (labelled : list bool) (structure offsets : list nat) : option (adjlist nat) :=
  let a := last offsets 0 in
  let b := length structure in
  if a <? b then
    match fuel with
    | 0 => None
    | S f =>
      '(labelled, structure) <- ofold (fun '(labelled, st) i => node <- nth_error st i ;; visit g node (labelled, st)) (seq a (b - a)) (labelled, structure) ;;
      levels f g labelled structure (offsets ++ [b])
    end
  else Some (mkAdj structure offsets).
(** ordering.cpp:22-60 *)
Definition create_level_structure (g : list (list nat)) (s : nat) : option (adjlist nat) :=
  labelled <- upd (repeat false (length g)) s true ;;
  levels (length g) g labelled [s] [0].

(** [graph.num_links] *)
Definition degree (g : list (list nat)) (i : nat) : nat := length (nth i g []).
(** [std::ranges::min_element] with [cmp_degree]: the first of the minimal elements *)
Fixpoint min_degree (g : list (list nat)) (best : nat) (l : list nat) : nat :=
  match l with [] => best | x :: t => min_degree g (if degree g x <? degree g best then x else best) t end.

(** ordering.cpp:76-86 *)
Definition pick (g : list (list nat)) (rlabel : list (option nat)) : option nat :=
  '(v, _) <- ofold (fun '(v, dmin) i => l <- nth_error rlabel i ;;
      let d := Z.of_nat (degree g i) in
      match l with None => if (d <? dmin)%Z then Some (i, d) else Some (v, dmin) | Some _ => Some (v, dmin) end)
    (seq 0 (length g)) (0, 2147483647%Z) ;;
  Some v.
(** ordering.cpp:92-105; the fuel is the number of nodes. *)
Fixpoint peripheral (fuel : nat) (g : list (list nat)) (v : nat) (lv : adjlist nat) : option nat :=
  match fuel with
  | 0 => None
  | S f =>
    lv_final <- links lv (num_nodes lv - 1) ;;
    match lv_final with
    | [] => None
    | x :: t =>
      let s := min_degree g x t in
      lstmp <- create_level_structure g s ;;
      if num_nodes lv <? num_nodes lstmp then peripheral f g s lstmp else Some v
    end
  end.

Section Rcm.
Variable srt : list nat -> list nat.
(** ordering.cpp:114-132; the fuel is the number of nodes. *)
Fixpoint cuthill_mckee (fuel : nat) (g : list (list nat)) (labelled : list bool) (rv : list nat) (current : nat) : option (list nat) :=
  if current <? length rv then
    match fuel with
    | 0 => None
    | S f =>
      node <- nth_error rv current ;;
      '(labelled, nbr) <- visit g node (labelled, []) ;;
      cuthill_mckee f g labelled (rv ++ srt nbr) (S current)
    end
  else Some rv.
(** ordering.cpp:62-140 *)
Definition rcm_reorder_unlabelled (g : list (list nat)) (rlabel : list (option nat)) : option (list nat) :=
  v <- pick g rlabel ;;
  lv <- create_level_structure g v ;;
  v <- peripheral (length g) g v lv ;;
  labelled <- upd (repeat false (length g)) v true ;;
  rv <- cuthill_mckee (length g) g labelled [v] 0 ;;
  Some (rev rv).

(** ordering.cpp:154-163; the fuel is the number of nodes. *)
Fixpoint rcm_loop (fuel : nat) (g : list (list nat)) (r : list (option nat)) (count : nat) : option (list (option nat)) :=
  if count <? length g then
    match fuel with
    | 0 => None
    | S f =>
      rv <- rcm_reorder_unlabelled g r ;;
      '(r, count) <- ofold (fun '(r, count) q => r' <- upd r q (Some count) ;; Some (r', S count)) rv (r, count) ;;
      rcm_loop f g r count
    end
  else Some r.
(** ordering.cpp:146-168 *)
Definition reorder_rcm (g : list (list nat)) : option (list (option nat)) := rcm_loop (length g) g (repeat None (length g)) 0.
End Rcm.
