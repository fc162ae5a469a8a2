(* Searching, sorting and rearranging.
   Sources: include/vif/utility/bits/generic-find.hpp, generic-rearrange.hpp 6-116,
   include/vif/core/bits/helpers.hpp 390-441, include/vif/core/vec.hpp 59-76.
   A vector is its flat data (these functions use flat indices only, except where a
   shape is mentioned).  Element comparisons are parameters:
     lt : comparator_less, used by the sorting and binary search functions;
     ne, eq, rlt : the operators != == < of the element type.
   npos is None.  Both operands of a two-vector function have the same element type. *)
From Verif Require Import Base VecModel.

Section Find.
Context {A : Type}.

(* generic-find.hpp 9-20 *)
Definition where_ (v : list bool) : list nat :=
  map fst (filter snd (combine (seq 0 (length v)) v)).

(* generic-find.hpp 26-38 *)
Fixpoint where_first_from (i : nat) (v : list bool) : option nat :=
  match v with
  | [] => None
  | b :: t => if b then Some i else where_first_from (S i) t
  end.
Definition where_first (v : list bool) : option nat := where_first_from 0 v.

(* generic-find.hpp 42-54: i runs upwards, the element tested is size-1-i *)
Fixpoint where_last_loop (v : list bool) (is : list nat) : outcome (option nat) :=
  match is with
  | [] => Ok None
  | i :: t =>
      b <- oget v (length v - 1 - i) ;;
      if b : bool then Ok (Some (length v - 1 - i)) else where_last_loop v t
  end.
Definition where_last (v : list bool) : outcome (option nat) :=
  where_last_loop v (seq 0 (length v)).

(* generic-find.hpp 59-77.  sel[i] is a checked subscript; sel starts all false. *)
Definition complement (v : list A) (ids : list nat) : outcome (list nat) :=
  if length ids =? length v then Ok []
  else
    _ <- check (length ids <? length v) ;;
    sel <- ofold (fun s i => _ <- check (i <? length s) ;; oset s i true) ids (repeat false (length v)) ;;
    Ok (map fst (filter (fun p => negb (snd p)) (combine (seq 0 (length v)) sel))).

(* generic-find.hpp 170-180, 183-195 *)
Definition is_any_of1 (eq : A -> A -> bool) (x : A) (v2 : list A) : bool := existsb (fun y => eq x y) v2.
Definition is_any_of (eq : A -> A -> bool) (v1 v2 : list A) : list bool :=
  map (fun x => is_any_of1 eq x v2) v1.

(* std::stable_sort, see C17_stable_unique: every stable sort returns this list
   when lt is a strict weak order *)
Fixpoint insert (lt : A -> A -> bool) (x : A) (l : list A) : list A :=
  match l with
  | [] => [x]
  | y :: t => if lt y x then y :: insert lt x t else x :: l
  end.
Definition stable_sort (lt : A -> A -> bool) (l : list A) : list A :=
  fold_right (insert lt) [] l.
End Find.

Section Find2.
Context {A : Type}.

(* generic-rearrange.hpp 79-96: sorts the indices 0,1,... comparing the elements they
   point to; here every index travels with its element *)
Definition indexed (v : list A) : list (nat * A) := combine (seq 0 (length v)) v.
Definition sort_pairs (lt : A -> A -> bool) (v : list A) : list (nat * A) :=
  stable_sort (fun p q => lt (snd p) (snd q)) (indexed v).
Definition sort (lt : A -> A -> bool) (v : list A) : list nat := map fst (sort_pairs lt v).

(* generic-rearrange.hpp 98-106 *)
Definition inplace_sort (lt : A -> A -> bool) (v : list A) : list A := stable_sort lt v.

(* generic-rearrange.hpp 108-116.  range(1, n) is 1,...,n-1, but range(1, 0) counts
   downwards and yields the index 1 (C01), so an empty vector is read at 0. *)
Definition is_sorted (lt : A -> A -> bool) (v : list A) : outcome bool :=
  let idx := match length v with O => [1] | n => seq 1 (n - 1) end in
  ofold (fun acc i =>
    if acc : bool then x <- oget v (i - 1) ;; y <- oget v i ;; Ok (lt x y) else Ok false) idx true.

(* generic-find.hpp 81-98, 102-122, 128-146: the loop keeps the positions whose value
   differs from the last kept one *)
Fixpoint unique_loop (ne : A -> A -> bool) (v : list A) (last : A) (sid : list nat) : outcome (list nat) :=
  match sid with
  | [] => Ok []
  | i :: t =>
      x <- oget v i ;;
      if ne x last then r <- unique_loop ne v x t ;; Ok (i :: r)
      else unique_loop ne v last t
  end.
Definition unique_ids_sorted (ne : A -> A -> bool) (v : list A) : outcome (list nat) :=
  match v with
  | [] => Ok []
  | x :: _ => r <- unique_loop ne v x (seq 1 (length v - 1)) ;; Ok (0 :: r)
  end.
Definition unique_ids (lt ne : A -> A -> bool) (v : list A) : outcome (list nat) :=
  match v with
  | [] => Ok []
  | _ =>
      s0 <- oget (sort lt v) 0 ;;
      x <- oget v s0 ;;
      r <- unique_loop ne v x (skipn 1 (sort lt v)) ;;
      Ok (s0 :: r)
  end.
(* the version with sort indices given by the caller: v[...] is checked *)
Fixpoint unique_loop_checked (ne : A -> A -> bool) (v : list A) (last : A) (sid : list nat) : outcome (list nat) :=
  match sid with
  | [] => Ok []
  | i :: t =>
      _ <- check (i <? length v) ;;
      x <- oget v i ;;
      if ne x last then r <- unique_loop_checked ne v x t ;; Ok (i :: r)
      else unique_loop_checked ne v last t
  end.
Definition unique_ids_with (ne : A -> A -> bool) (v : list A) (sid : list nat) : outcome (list nat) :=
  match sid with
  | [] => Ok []
  | s0 :: t =>
      _ <- check (s0 <? length v) ;;
      x <- oget v s0 ;;
      r <- unique_loop_checked ne v x t ;; Ok (s0 :: r)
  end.
(* generic-find.hpp 149-165 *)
Definition at_ids (v : list A) (ids : list nat) : outcome (list A) := omapl (oget v) ids.
Definition unique_values_sorted ne v := ids <- unique_ids_sorted ne v ;; at_ids v ids.
Definition unique_values lt ne v := ids <- unique_ids lt ne v ;; at_ids v ids.
Definition unique_values_with ne v sid := ids <- unique_ids_with ne v sid ;; at_ids v ids.

(* generic-find.hpp 200-249: the brute force path ... *)
Fixpoint first_match (eq : A -> A -> bool) (x : A) (j : nat) (v2 : list A) : option nat :=
  match v2 with
  | [] => None
  | y :: t => if eq y x then Some j else first_match eq x (S j) t
  end.
Definition match_brute (eq : A -> A -> bool) (v1 v2 : list A) : list (nat * nat) :=
  flat_map (fun '(i, x) => match first_match eq x 0 v2 with Some j => [(i, j)] | None => [] end)
    (indexed v1).
(* ... and the sort + merge path, which compares with the < and > of the type *)
Fixpoint match_merge (rlt : A -> A -> bool) (s1 : list (nat * A)) : list (nat * A) -> list (nat * nat) :=
  fix inner (s2 : list (nat * A)) : list (nat * nat) :=
    match s1, s2 with
    | (i, x) :: t1, (j, y) :: t2 =>
        if rlt x y then match_merge rlt t1 s2
        else if rlt y x then inner t2
        else (i, j) :: match_merge rlt t1 t2
    | _, _ => []
    end.
(* id1 and id2 are the components of the returned list of pairs *)
Definition match_ (lt rlt eq : A -> A -> bool) (v1 v2 : list A) : list (nat * nat) :=
  if Nat.min (length v1) (length v2) <? 64 then match_brute eq v1 v2
  else match_merge rlt (sort_pairs lt v1) (sort_pairs lt v2).

(* std::set_intersection and std::set_union with comparator lt (libstdc++
   bits/stl_algo.h), called by generic-find.hpp 255-316 *)
Fixpoint set_intersection_sorted (lt : A -> A -> bool) (v1 : list A) : list A -> list A :=
  fix inner (v2 : list A) : list A :=
    match v1, v2 with
    | x :: t1, y :: t2 =>
        if lt x y then set_intersection_sorted lt t1 v2
        else if lt y x then inner t2
        else x :: set_intersection_sorted lt t1 t2
    | _, _ => []
    end.
Fixpoint set_union_sorted (lt : A -> A -> bool) (v1 : list A) : list A -> list A :=
  fix inner (v2 : list A) : list A :=
    match v1, v2 with
    | x :: t1, y :: t2 =>
        if lt x y then x :: set_union_sorted lt t1 v2
        else if lt y x then y :: inner t2
        else x :: set_union_sorted lt t1 t2
    | [], _ => v2
    | _, [] => v1
    end.
Definition set_intersection lt v1 v2 := set_intersection_sorted lt (inplace_sort lt v1) (inplace_sort lt v2).
Definition set_union lt v1 v2 := set_union_sorted lt (inplace_sort lt v1) (inplace_sort lt v2).

(* std::upper_bound / std::lower_bound (libstdc++ bits/stl_algo.h) on v[first..first+len) *)
Fixpoint std_upper (fuel : nat) (lt : A -> A -> bool) (v : list A) (x : A) (first len : nat) : outcome nat :=
  match fuel with
  | O => Diverge
  | S f =>
      match len with
      | O => Ok first
      | _ =>
          let half := len / 2 in
          y <- oget v (first + half) ;;
          if lt x y then std_upper f lt v x first half
          else std_upper f lt v x (first + half + 1) (len - half - 1)
      end
  end.
Fixpoint std_lower (fuel : nat) (lt : A -> A -> bool) (v : list A) (x : A) (first len : nat) : outcome nat :=
  match fuel with
  | O => Diverge
  | S f =>
      match len with
      | O => Ok first
      | _ =>
          let half := len / 2 in
          y <- oget v (first + half) ;;
          if lt y x then std_lower f lt v x (first + half + 1) (len - half - 1)
          else std_lower f lt v x first half
      end
  end.
Definition upper_iter lt v x first := std_upper (S (length v)) lt v x first (length v - first).
Definition lower_iter lt v x first := std_lower (S (length v)) lt v x first (length v - first).

(* generic-find.hpp 322-333 *)
Definition lower_bound (lt : A -> A -> bool) (v : list A) (x : A) : outcome (option nat) :=
  if length v =? 0 then Ok None
  else
    it <- upper_iter lt v x 0 ;;
    Ok (if it =? 0 then None else Some (it - 1)).
(* generic-find.hpp 339-350 *)
Definition upper_bound (lt : A -> A -> bool) (v : list A) (x : A) : outcome (option nat) :=
  if length v =? 0 then Ok None
  else
    it <- upper_iter lt v x 0 ;;
    Ok (if it =? length v then None else Some it).
(* generic-find.hpp 356-379 *)
Definition bounds1 (lt : A -> A -> bool) (v : list A) (x : A) : outcome (option nat * option nat) :=
  if length v =? 0 then Ok (None, None)
  else
    it <- upper_iter lt v x 0 ;;
    Ok (if it =? length v then (Some (length v - 1), None)
        else if it =? 0 then (None, Some 0)
        else (Some (it - 1), Some it)).
(* generic-find.hpp 387-414: the second search starts where the first ended *)
Definition bounds2 (lt : A -> A -> bool) (v : list A) (x1 x2 : A) : outcome (option nat * option nat) :=
  if length v =? 0 then Ok (None, None)
  else
    it <- upper_iter lt v x1 0 ;;
    it2 <- upper_iter lt v x2 it ;;
    Ok (if it =? 0 then None else Some (it - 1), if it2 =? length v then None else Some it2).
(* generic-find.hpp 419-432; std::equal_range is the pair of lower and upper bound *)
Definition equal_range (lt : A -> A -> bool) (v : list A) (x : A) : outcome (option (nat * nat)) :=
  a <- lower_iter lt v x 0 ;;
  b <- upper_iter lt v x a ;;
  Ok (if a =? length v then None else Some (a, b)).

(* generic-rearrange.hpp 6-10 *)
Definition reverse (v : list A) : list A := rev v.

(* generic-rearrange.hpp 14-28.  % truncates (Z.rem); n is a 64-bit signed integer, so
   -n overflows for the smallest one, and a vector of size 0 makes the remainder UB.
   v.size() < 2^63 is assumed. *)
Definition inplace_shift (v : list A) (n : Z) : outcome (list A) :=
  if (n =? - two63)%Z then UB
  else if (Z.of_nat (length v) =? 0)%Z then UB
  else
    let m := Z.rem (- n) (Z.of_nat (length v)) in
    let m := if (m <? 0)%Z then (Z.of_nat (length v) + m)%Z else m in
    Ok (if (m =? 0)%Z then v else skipn (Z.to_nat m) v ++ firstn (Z.to_nat m) v).

End Find2.

(* helpers.hpp 390-441: floating point elements.  Finite and infinite values are
   represented by an integer in the same order (only comparisons are used here; -0 and
   +0 share a representation), NaN is separate. *)
Inductive fnum := NaN | Num (z : Z).
Definition fl_less (a b : fnum) : bool :=      (* comparator_less *)
  match a, b with
  | NaN, _ => false
  | Num _, NaN => true
  | Num x, Num y => (x <? y)%Z
  end.
Definition fl_greater (a b : fnum) : bool :=   (* comparator_greater *)
  match a, b with
  | NaN, _ => false
  | Num _, NaN => true
  | Num x, Num y => (y <? x)%Z
  end.
Definition fl_lt (a b : fnum) : bool :=        (* operator < *)
  match a, b with Num x, Num y => (x <? y)%Z | _, _ => false end.
Definition fl_eq (a b : fnum) : bool :=        (* operator == *)
  match a, b with Num x, Num y => (x =? y)%Z | _, _ => false end.
Definition fl_ne (a b : fnum) : bool := negb (fl_eq a b).

(* lower_bound and upper_bound of a vector of integers with a non-integer argument
   num/den: the comparator takes both arguments as elements (helpers.hpp 397-399 through
   vec.hpp 59-73), so the argument is first converted to an integer, towards zero. *)
Definition to_int (num : Z) (den : positive) : Z := Z.quot num (Zpos den).
Definition lower_bound_int (v : list Z) (num : Z) (den : positive) : outcome (option nat) :=
  lower_bound Z.ltb v (to_int num den).
Definition upper_bound_int (v : list Z) (num : Z) (den : positive) : outcome (option nat) :=
  upper_bound Z.ltb v (to_int num den).
