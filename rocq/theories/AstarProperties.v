From Verif Require Import Base VecModel VecSpec AstarModel AstarSpec AstarProofs.

(* ---- C16 : astar_find ------------------------------------------------------- *)

(* it always ends; it answers true with a nearest true cell, or false when there is none *)
Theorem C16_astar_find : forall (m : vec bool) d0 d1 x y,
  wf m -> v_dims m = [d0; d1] -> 0 < d0 -> 0 < d1 ->
  exists b c, astar_find m x y = Ok (b, c) /\
  (b = true -> true_cell m d0 d1 c /\
     forall p, true_cell m d0 d1 p ->
       manhattan (clamped d0 d1 x y) c <= manhattan (clamped d0 d1 x y) p) /\
  (b = false -> forall p, ~ true_cell m d0 d1 p).
Proof. exact astar_ok. Qed.
Print Assumptions C16_astar_find.

Theorem C16_empty_map : forall (m : vec bool) d0 d1 x y,
  wf m -> v_dims m = [d0; d1] -> d0 = 0 \/ d1 = 0 -> astar_find m x y = CheckFail.
Proof. exact astar_empty. Qed.
Print Assumptions C16_empty_map.

(* the arguments x and y are overwritten even when nothing is found, here by a position
   outside of the map *)
Theorem C16_start_lost_refuted : exists m x y x' y',
  wf m /\ astar_find m x y = Ok (false, (x', y')) /\ (x', y') <> (x, y).
Proof.
  exists (mk_vec [1;2] [false; false]), 0, 1, 1, 0. split; [split; [reflexivity|vm_compute; discriminate]|].
  split; [vm_compute; reflexivity|discriminate].
Qed.
Print Assumptions C16_start_lost_refuted.

Example C16_ex : 
  let m := mk_vec [3;4] [false;false;false;true; false;false;false;false; true;false;false;false] in
  wf m /\ astar_find m 1 1 = Ok (true, (2, 0)) /\ astar_find m 0 9 = Ok (true, (0, 3)) /\
  astar_find m 0 2 = Ok (true, (0, 3)) /\ manhattan (1, 1) (2, 0) = 2 /\ manhattan (1, 1) (0, 3) = 3.
Proof. repeat split; vm_compute; try discriminate. Qed.
