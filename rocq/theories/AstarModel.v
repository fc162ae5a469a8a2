(* Breadth-first search on a boolean map.
   Source: include/vif/utility/bits/generic-find.hpp 434-487 (astar_find). *)
From Verif Require Import Base VecModel.

Definition cell : Type := nat * nat.

(* the variables of the search: x, y (reference arguments, overwritten by every
   neighbour that is looked at), open and visit *)
Record astate := mk_astate { as_x : nat; as_y : nat; as_open : list cell; as_visit : list bool }.

(* generic-find.hpp 457-468: the four neighbours in the order of d = 0,1,2,3 *)
Definition neighbours (p : cell) : list (Z * Z) :=
  let ox := Z.of_nat (fst p) in
  let oy := Z.of_nat (snd p) in
  [(ox, oy + 1); (ox + 1, oy); (ox, oy - 1); (ox - 1, oy)]%Z.

(* generic-find.hpp 470-482: one neighbour; the flag is set when the function has
   returned true, after which nothing more happens *)
Definition astar_visit (d0 d1 : nat) (m : list bool) (acc : bool * astate) (t : Z * Z)
  : outcome (bool * astate) :=
  let '(found, s) := acc in
  if found : bool then Ok acc
  else if ((fst t <? 0) || (snd t <? 0))%Z then Ok (false, s)
  else
    let x := Z.to_nat (fst t) in
    let y := Z.to_nat (snd t) in
    if (d0 <=? x) || (d1 <=? y) then Ok (false, mk_astate x y (as_open s) (as_visit s))
    else
      seen <- oget (as_visit s) (x * d1 + y) ;;
      if seen : bool then Ok (false, mk_astate x y (as_open s) (as_visit s))
      else
        b <- oget m (x * d1 + y) ;;
        if b : bool then Ok (true, mk_astate x y (as_open s) (as_visit s))
        else
          visit <- oset (as_visit s) (x * d1 + y) true ;;
          Ok (false, mk_astate x y (as_open s ++ [(x, y)]) visit).

(* generic-find.hpp 451-484: while (!open.empty()); old_open takes the content of
   open, which is left empty by the move constructor.  fuel bounds the number of
   rounds (see C16_astar_find: it never runs out). *)
Fixpoint astar_loop (fuel : nat) (d0 d1 : nat) (m : list bool) (s : astate) : outcome (bool * cell) :=
  match as_open s with
  | [] => Ok (false, (as_x s, as_y s))
  | old_open =>
      match fuel with
      | O => Diverge
      | S fuel' =>
          '(found, s') <- ofold (astar_visit d0 d1 m) (flat_map neighbours old_open)
                            (false, mk_astate (as_x s) (as_y s) [] (as_visit s)) ;;
          if found : bool then Ok (true, (as_x s', as_y s'))
          else astar_loop fuel' d0 d1 m s'
      end
  end.

(* generic-find.hpp 434-449: returns (result, (x, y)) *)
Definition astar_find (map : vec bool) (x y : nat) : outcome (bool * cell) :=
  match v_dims map with
  | [d0; d1] =>
      _ <- check (negb (v_empty map)) ;;
      let x := if d0 <=? x then d0 - 1 else x in
      let y := if d1 <=? y then d1 - 1 else y in
      b <- oget (v_data map) (x * d1 + y) ;;
      if b : bool then Ok (true, (x, y))
      else
        visit <- oset (repeat false (d0 * d1)) (x * d1 + y) true ;;
        astar_loop (d0 + d1) d0 d1 (v_data map) (mk_astate x y [(x, y)] visit)
  | _ => UB (* vec2b *)
  end.
