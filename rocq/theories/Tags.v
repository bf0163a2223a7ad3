(** Model of cpp/dolfinx/mesh/EntityMap.h, cpp/dolfinx/mesh/MeshTags.h and of
    [entities_to_index] (cpp/dolfinx/mesh/Topology.cpp:1603-1655).
    Simplifications: tag values are integers; of the topology only the number of entities
    and the vertices of the entities are kept; [-1] of [EntityMap] is [None]. *)
From Verif Require Import Base Algo Sort.
Open Scope nat_scope.

(** EntityMap.h:38-60: [n] is the number of entities of the index map of the sub-topology,
    [None] if there is no index map. *)
Definition em_make (n : option nat) (m : list nat) : option (list nat) :=
  k <- n ;; if k =? length m then Some m else None.
(** EntityMap.h:107-118 *)
Definition em_forward (m : list nat) (es : list nat) : option (list nat) := omap (nth_error m) es.
(** [std::unordered_map::insert]: keeps an existing entry. *)
Definition map_insert (t : list (nat * nat)) (kv : nat * nat) : list (nat * nat) :=
  if existsb (fun x => fst x =? fst kv) t then t else kv :: t.
(** EntityMap.h:119-151 *)
Definition em_table (m : list nat) : list (nat * nat) := fold_left map_insert (combine m (seq 0 (length m))) [].
Definition em_inverse (m : list nat) (es : list nat) : list (option nat) :=
  let t := em_table m in map (fun e => option_map snd (find (fun x => fst x =? e) t)) es.

(** MeshTags.h:47-69, without the checks of debug builds *)
Definition tags_make (indices values : list Z) : option (list Z * list Z) :=
  if length indices =? length values then Some (indices, values) else None.
(** MeshTags.h:88-99 *)
Definition tags_find (t : list Z * list Z) (value : Z) : option (list Z) :=
  ofold (fun found i => v <- nth_error (snd t) i ;;
           if (v =? value)%Z then k <- nth_error (fst t) i ;; Some (found ++ [k]) else Some found)
        (seq 0 (length (snd t))) [].

(** Topology.cpp:1623-1635: a duplicate entity throws. *)
Fixpoint list_eqb (a b : list nat) : bool :=
  match a, b with [], [] => true | x :: a', y :: b' => (x =? y) && list_eqb a' b' | _, _ => false end.
Definition build_keys (e2v : list (list nat)) (nv : nat) : option (list (list nat * nat)) :=
  ofold (fun t e => v <- nth_error e2v e ;;
           if length v =? nv then
             let key := isort Nat.leb v in
             if existsb (fun x => list_eqb (fst x) key) t then None else Some ((key, e) :: t)
           else None) (seq 0 (length e2v)) [].
(** Topology.cpp:1637-1655 *)
Definition entities_to_index (e2v : list (list nat)) (nv : nat) (entities : list nat) : option (list Z) :=
  t <- build_keys e2v nv ;;
  omap (fun i => v <- slice entities (i * nv) (i * nv + nv) ;;
          let key := isort Nat.leb v in
          Some (match find (fun x => list_eqb (fst x) key) t with Some (_, e) => Z.of_nat e | None => (-1)%Z end))
       (seq 0 ((length entities + nv - 1) / nv)).
(** MeshTags.h:146-178; [srt] is the sort inside [sort_unique]. *)
Definition create_meshtags (srt : list (Z * Z) -> list (Z * Z)) (e2v : list (list nat)) (nv : nat) (entities : list nat) (values : list Z) : option (list Z * list Z) :=
  indices <- entities_to_index e2v nv entities ;;
  if negb (length indices =? length values) then None else
  '(is, vs) <- sort_unique srt indices values ;;
  let pos0 := prefix_len (fun i => (i <? 0)%Z) is in
  tags_make (skipn pos0 is) (skipn pos0 vs).
