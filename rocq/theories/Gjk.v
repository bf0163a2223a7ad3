(** Model of cpp/dolfinx/geometry/gjk.h.

    Simplifications: real numbers for both floating point types, so casts are the identity;
    division by zero is [None].  The arrays [s] and [coordinates] are lists of the entries in
    use, and [eps] is a parameter.  [d[i][i]] in [nearest_simplex] is never written; its value is
    the parameter [diag i] (zero for the multi-precision types, which are zero by default).
    In [compute_distances_gjk] the steps of the threads are the calls for one body each, in the
    order [schedule]; an exception is [None]; indices do not overflow. *)
From Coq Require Import Reals.
From Verif Require Import Base Ranges.
Open Scope R_scope.

Record vec := mkV { vx : R; vy : R; vz : R }.
Definition zero_vec : vec := mkV 0 0 0.
Definition minus (a b : vec) : vec := mkV (vx a - vx b) (vy a - vy b) (vz a - vz b).
Definition lt (a b : R) : bool := if Rlt_dec a b then true else false.
Definition le (a b : R) : bool := if Rle_dec a b then true else false.
Definition quotient (a b : R) : option R := if Req_EM_T b 0 then None else Some (a / b).

(** gjk.h:34-55 *)
Definition det4 (s0 s1 s2 s3 : vec) : R * R * R * R :=
  let c0 := vy s2 * vz s3 - vz s2 * vy s3 in
  let c1 := vx s2 * vz s3 - vz s2 * vx s3 in
  let c2 := vx s2 * vy s3 - vy s2 * vx s3 in
  let w2 := - vx s0 * c0 + vy s0 * c1 - vz s0 * c2 in
  let w3 := vx s1 * c0 - vy s1 * c1 + vz s1 * c2 in
  let c0 := vy s0 * vz s1 - vz s0 * vy s1 in
  let c1 := vx s0 * vz s1 - vz s0 * vx s1 in
  let c2 := vx s0 * vy s1 - vy s0 * vx s1 in
  let w0 := - vx s2 * c0 + vy s2 * c1 - vz s2 * c2 in
  let w1 := vx s3 * c0 - vy s3 * c1 + vz s3 * c2 in
  (w0, w1, w2, w3).
(** gjk.h:61-65 *)
Definition dot3 (a b : vec) : R := vx a * vx b + vy a * vy b + vz a * vz b.

(** gjk.h:80-111 *)
Definition nearest2 (s0 s1 : vec) : option (list R) :=
  let lm := dot3 s0 s0 - dot3 s0 s1 in
  if lt lm 0 then Some [1; 0]
  else
    let mu := dot3 s1 s1 - dot3 s1 s0 in
    if lt mu 0 then Some [0; 1]
    else f1 <- quotient 1 (lm + mu) ;; Some [mu * f1; lm * f1].
(** gjk.h:112-206 *)
Definition nearest3 (a b c : vec) : option (list R) :=
  let aa := dot3 a a in let ab := dot3 a b in let ac := dot3 a c in
  let d1 := aa - ab in let d2 := aa - ac in
  if lt d1 0 && lt d2 0 then Some [1; 0; 0]
  else
    let bb := dot3 b b in let bc := dot3 b c in
    let d3 := bb - ab in let d4 := bb - bc in
    if lt d3 0 && lt d4 0 then Some [0; 1; 0]
    else
      let cc := dot3 c c in
      let d5 := cc - ac in let d6 := cc - bc in
      if lt d5 0 && lt d6 0 then Some [0; 0; 1]
      else
        let vc := d4 * d1 - d1 * d3 + d3 * d2 in
        if lt vc 0 && lt 0 d1 && lt 0 d3 then f1 <- quotient 1 (d1 + d3) ;; Some [d3 * f1; d1 * f1; 0]
        else
          let vb := d1 * d5 - d5 * d2 + d2 * d6 in
          if lt vb 0 && lt 0 d2 && lt 0 d5 then f1 <- quotient 1 (d2 + d5) ;; Some [d5 * f1; 0; d2 * f1]
          else
            let va := d3 * d6 - d6 * d4 + d4 * d5 in
            if lt va 0 && lt 0 d4 && lt 0 d6 then f1 <- quotient 1 (d4 + d6) ;; Some [0; d6 * f1; d4 * f1]
            else f1 <- quotient 1 (va + vb + vc) ;; Some [va * f1; vb * f1; vc * f1].

Section Tetrahedron.
Variable diag : nat -> R.
Variable s : nat -> vec.
(** gjk.h:213-222 *)
Definition d (i j : nat) : R := if Nat.eqb i j then diag i else dot3 (s i) (s i) - dot3 (s i) (s j).
(** gjk.h:218-233: vertex [i] is the nearest point. *)
Definition out (i : nat) : bool := forallb (fun j => negb (lt 0 (d i j))) (seq 0 4).
(** gjk.h:239 *)
Definition edges : list (nat * nat) := [(2, 3); (1, 3); (1, 2); (0, 3); (0, 2); (0, 1)]%nat.
Definition edge (i : nat) : nat * nat := nth i edges (0, 0)%nat.
(** gjk.h:240-251 *)
Definition v (i k : nat) : R :=
  let '(j0, j1) := edge i in
  let j := if Nat.eqb k 0 then fst (edge (5 - i)) else snd (edge (5 - i)) in
  d j1 j * d j0 j1 - d j0 j1 * d j1 j0 + d j1 j0 * d j0 j.
(** gjk.h:254-262 *)
Definition on_edge (i : nat) : bool :=
  let '(j0, j1) := edge i in le (v i 0) 0 && le (v i 1) 0 && le 0 (d j0 j1) && le 0 (d j1 j0).
Definition unit_at (i : nat) (x : R) (j : nat) : R := if Nat.eqb i j then x else 0.
(** gjk.h:207-319 *)
Definition nearest4 : option (list R) :=
  match find out (seq 0 4) with
  | Some i => Some (map (unit_at i 1) (seq 0 4))
  | None =>
    match find on_edge (seq 0 6) with
    | Some i =>
      let '(j0, j1) := edge i in
      f1 <- quotient 1 (d j0 j1 + d j1 j0) ;;
      Some (map (fun j => unit_at j0 (f1 * d j1 j0) j + unit_at j1 (f1 * d j0 j1) j) (seq 0 4))
    | None =>
      let '(w0, w1, w2, w3) := det4 (s 0) (s 1) (s 2) (s 3) in
      let neg := lt (w0 + w1 + w2 + w3) 0 in
      let sg := fun w => if neg then - w else w in
      let w0 := sg w0 in let w1 := sg w1 in let w2 := sg w2 in let w3 := sg w3 in
      let wsum := w0 + w1 + w2 + w3 in
      if lt w0 0 && lt 0 (v 2 0) && lt 0 (v 4 0) && lt 0 (v 5 0) then
        f1 <- quotient 1 (v 2 0 + v 4 0 + v 5 0) ;; Some [v 2 0 * f1; v 4 0 * f1; v 5 0 * f1; 0]
      else if lt w1 0 && lt 0 (v 1 0) && lt 0 (v 3 0) && lt 0 (v 5 1) then
        f1 <- quotient 1 (v 1 0 + v 3 0 + v 5 1) ;; Some [v 1 0 * f1; v 3 0 * f1; 0; v 5 1 * f1]
      else if lt w2 0 && lt 0 (v 0 0) && lt 0 (v 3 1) && lt 0 (v 4 1) then
        f1 <- quotient 1 (v 0 0 + v 3 1 + v 4 1) ;; Some [v 0 0 * f1; 0; v 3 1 * f1; v 4 1 * f1]
      else if lt w3 0 && lt 0 (v 0 1) && lt 0 (v 1 1) && lt 0 (v 2 1) then
        f1 <- quotient 1 (v 0 1 + v 1 1 + v 2 1) ;; Some [0; v 0 1 * f1; v 1 1 * f1; v 2 1 * f1]
      else omap (fun w => quotient w wsum) [w3; w2; w1; w0]
    end
  end.
End Tetrahedron.

(** gjk.h:335-350: index and value of the largest product *)
Definition support (bd : list vec) (dir : vec) : option vec :=
  match bd with
  | [] => None
  | b0 :: bs => Some (fst (fold_left (fun st b => if lt (snd st) (dot3 b dir) then (b, dot3 b dir) else st) bs (b0, dot3 b0 dir)))
  end.
Definition scale (c : R) (a : vec) : vec := mkV (vx a * c) (vy a * c) (vz a * c).
Definition same (a b : vec) : bool :=
  (if Req_EM_T (vx a) (vx b) then true else false) && (if Req_EM_T (vy a) (vy b) then true else false)
  && (if Req_EM_T (vz a) (vz b) then true else false).

Inductive result : Type :=
| Distance (x : vec)
| Max_iterations
| Invalid_simplex
| Undefined.

Section Gjk.
Variable diag : nat -> R.
Variable eps : R.
Variables p0 q0 : list vec.
(** gjk.h:396-427 *)
Definition support_point (x_k : vec) : option vec :=
  let x_norm2 := dot3 x_k x_k in
  let x_normalized := if lt (eps * eps) x_norm2 then scale (1 / sqrt x_norm2) x_k else x_k in
  p <- support p0 (scale (-1) x_normalized) ;; q <- support q0 x_normalized ;; Some (minus p q).
(** gjk.h:455-469 *)
Definition nearest (s : list vec) : option (option (list R)) :=
  match s with
  | [a; b] => Some (nearest2 a b)
  | [a; b; c] => Some (nearest3 a b c)
  | [a; b; c; e] => Some (nearest4 diag (fun i => nth i s zero_vec))
  | _ => None
  end.
(** gjk.h:472-487 *)
Definition reduce (s : list vec) (lmn : list R) : vec * list vec :=
  fold_left (fun st al =>
    if lt 0 (snd al) then (mkV (vx (fst st) + snd al * vx (fst al)) (vy (fst st) + snd al * vy (fst al)) (vz (fst st) + snd al * vz (fst al)),
                           snd st ++ [fst al])
    else st) (combine s lmn) (zero_vec, []).
(** gjk.h:391-498: [k] more iterations are allowed. *)
Fixpoint iterate (k : nat) (x_k : vec) (s : list vec) : result :=
  match k with
  | O => Max_iterations
  | S k =>
    let x_norm2 := dot3 x_k x_k in
    match support_point x_k with
    | None => Undefined
    | Some s_k =>
      if existsb (fun a => same a s_k) s then Distance x_k
      else
        let xs_diff := x_norm2 - dot3 x_k s_k in
        if lt xs_diff (eps * x_norm2) || lt xs_diff eps then Distance x_k
        else
          let s := s ++ [s_k] in
          match nearest s with
          | None => Invalid_simplex
          | Some None => Undefined
          | Some (Some lmn) =>
            let '(x_k, s) := reduce s lmn in
            let x_next_norm2 := dot3 x_k x_k in
            if le x_norm2 x_next_norm2 then Distance x_k
            else if lt x_next_norm2 (eps * eps) then Distance x_k
            else iterate k x_k s
          end
    end
  end.
(** gjk.h:369-504 *)
Definition compute_distance_gjk : result :=
  match p0, q0 with
  | p :: _, q :: _ => iterate 15 (minus p q) [minus p q]
  | _, _ => Undefined
  end.
End Gjk.

Section Distances.
Variable diag : nat -> R.
Variable eps : R.
Variable bodies : list (list vec).
Variable q : list vec.
(** gjk.h:523-530 *)
Definition num_threads_used (n : Z) : Z := Z.max 1 (Z.min n (Z.of_nat (length bodies))).
(** gjk.h:531-542, 547, 551: the bodies of thread [t] of [n] *)
Definition chunk (n : Z) (t : nat) : list nat :=
  let '(c0, c1) := local_range (Z.of_nat t) (Z.of_nat (length bodies)) n in seq (Z.to_nat c0) (Z.to_nat (c1 - c0)).
(** gjk.h:545-552 *)
Definition chunks (n : Z) : list (list nat) := map (chunk n) (seq 0 (Z.to_nat n)).
(** gjk.h:537-540 *)
Definition compute_one (results : list vec) (i : nat) : option (list vec) :=
  b <- nth_error bodies i ;;
  match compute_distance_gjk diag eps b q with
  | Distance x => upd results i x
  | _ => None
  end.
(** gjk.h:520-555 *)
Definition compute_distances_gjk (num_threads : Z) (schedule : list nat) : option (list vec) :=
  if (num_threads <=? 0)%Z then None
  else ofold compute_one schedule (repeat zero_vec (length bodies)).
End Distances.
