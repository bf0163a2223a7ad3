(** Model of tables of values and their reduction over processes (cpp/dolfinx/common/Table.cpp).

    Simplifications: a character is a natural number and 0 is the end character; the map of values is a list of pairs with different keys, in
    any order; the lists of names of rows and columns and the title, which only str() uses, are left out; numbers are of any type with the operations used.  All lines of a string are
    read before they are used as keys.  Accesses outside arrays and failed assertions are [None]. *)
From Verif Require Import Base.
Open Scope nat_scope.

Definition text := list nat.
Definition key : Type := text * text.
Definition text_eqb (a b : text) : bool := if list_eq_dec Nat.eq_dec a b then true else false.
Definition key_eqb (a b : key) : bool := text_eqb (fst a) (fst b) && text_eqb (snd a) (snd b).
(** std::map: find, and assignment *)
Fixpoint lookup {V} (l : list (key * V)) (k : key) : option V :=
  match l with [] => None | (k', v) :: l' => if key_eqb k' k then Some v else lookup l' k end.
Fixpoint assign {V} (l : list (key * V)) (k : key) (v : V) : list (key * V) :=
  match l with [] => [(k, v)] | (k', v') :: l' => if key_eqb k' k then (k', v) :: l' else (k', v') :: assign l' k v end.

(** std::getline with the end character until the stream is empty *)
Fixpoint getlines (cur s : text) : list text :=
  match s with
  | [] => match cur with [] => [] | _ => [rev cur] end
  | 0 :: s' => rev cur :: getlines [] s'
  | c :: s' => getlines (c :: cur) s'
  end.
Fixpoint key_pairs (l : list text) : list key := match l with a :: b :: l' => (a, b) :: key_pairs l' | _ => [] end.

Inductive reduction := Average | Min | Max.
Section Values.
Variables (T : Type) (add mul rmin rmax : T -> T -> T) (inverse : nat -> T).
Inductive value := VStr (s : text) | VInt (z : Z) | VDouble (x : T).
Definition table := list (key * value).
(** Table.cpp:41-55 and 57-69 *)
Definition table_set (t : table) (row col : text) (v : value) : table := assign t (row, col) v.
Definition table_get (t : table) (row col : text) : option value := lookup t (row, col).
(** Table.cpp:107-117: keys and values that are sent *)
Definition doubles (t : table) : list (key * T) := flat_map (fun kv => match snd kv with VDouble x => [(fst kv, x)] | _ => [] end) t.
Definition pack_keys (l : list (key * T)) : text := concat (map (fun kv => fst (fst kv) ++ [0] ++ snd (fst kv) ++ [0]) l).
(** Table.cpp:75-94 *)
Definition op_impl (r : reduction) : T -> T -> T := match r with Average => add | Min => rmin | Max => rmax end.
(** Table.cpp:168-171: one key, with the next of the values *)
Definition reduce_key (r : reduction) (st : list (key * T) * list T) (k : key) : option (list (key * T) * list T) :=
  match snd st with
  | [] => None
  | x :: rest => Some (match lookup (fst st) k with Some y => assign (fst st) k (op_impl r y x) | None => assign (fst st) k x end, rest)
  end.
(** Table.cpp:71-200, on process [rank]; [tables] are those of all processes *)
Definition table_reduce (r : reduction) (tables : list table) (rank : nat) : option table :=
  t <- nth_error tables rank ;;
  if length tables =? 1 then Some t else
  let strings := map (fun t => pack_keys (doubles t)) tables in
  let out_str := concat strings in
  let values_all := concat (map (fun t => map snd (doubles t)) tables) in
  if 0 <? rank then Some [] else
  keys_all <- omap (slice_at out_str (psums (map (@length nat) strings))) (seq 0 (length tables)) ;;
  st <- ofold (fun st s => ofold (reduce_key r) (key_pairs (getlines [] s)) st) keys_all ([], values_all) ;;
  match snd st with
  | _ :: _ => None
  | [] =>
    let dvalues := match r with Average => map (fun kv => (fst kv, mul (snd kv) (inverse (length tables)))) (fst st) | _ => fst st end in
    let ints := fold_left (fun acc kv => match snd kv with VInt z => table_set acc (fst (fst kv)) (snd (fst kv)) (VInt z) | _ => acc end) t [] in
    Some (fold_left (fun acc kv => table_set acc (fst (fst kv)) (snd (fst kv)) (VDouble (snd kv))) dvalues ints)
  end.
End Values.
