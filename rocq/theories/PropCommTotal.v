(** Property C96: totals in the communication graph. *)
From Verif Require Import Base BaseProofs AdjList AdjListSpec IndexMap IndexMapSpec CommGraph CommGraphSpec CommGraphProofs CommTotalProofs PropCommGraph.

(** The weights of all edges into a rank add up to its number of ghosts, the second entry of its node data. *)
Theorem C96_total : forall P maps node root, maps_ok P maps -> root < P -> exists g nd rows,
  comm_graph P maps node root root = Some (g, nd) /\ stores g rows /\
  forall q, q < P -> fold_right Nat.add 0 (map (fun e => snd (fst e)) (filter (fun e => fst (fst e) =? q) (concat rows))) = snd (nth q nd (0, 0)) /\
    snd (nth q nd (0, 0)) = length (im_ghosts (maps q)).
Proof.
  intros P maps node root H Hr. destruct (comm_graph_ok P maps node H root Hr) as (g & E & S). do 3 eexists. split; [exact E|]. split; [exact S|].
  intros q Hq. assert (En : nth q (map (fun r => (im_hi (maps r) - im_lo (maps r), length (im_ghosts (maps r)))) (seq 0 P)) (0, 0) = (im_hi (maps q) - im_lo (maps q), length (im_ghosts (maps q)))).
  { apply nth_error_nth. rewrite nth_error_map, (nth_error_nth' _ 0) by (rewrite seq_length; exact Hq). rewrite seq_nth by exact Hq. reflexivity. }
  rewrite En. split; [|reflexivity]. exact (into_ok P maps H node q Hq).
Qed.
Print Assumptions C96_total.
(** In the world of C96_root_example rank 1 has two ghosts, both from rank 0. *)
Example C96_total_example : match comm_graph 3 three box 2 2 with
  | Some (g, nd) => map (fun q => fold_right Nat.add 0 (map (fun e => snd (fst e)) (filter (fun e => fst (fst e) =? q) (al_array g)))) [0; 1; 2] = map snd nd /\ map snd nd = [1; 2; 1]
  | None => False end.
Proof. split; reflexivity. Qed.
