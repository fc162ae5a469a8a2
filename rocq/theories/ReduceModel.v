(* Reductions: sums, means, medians, percentiles, extrema, and reductions along one
   dimension.  Source: include/vif/math/reduce.hpp 19-662, math/base.hpp 90-92.
   Floating-point values are exact; where only comparisons matter they are [fnum]
   (OrderModel.v), otherwise rationals. *)
From Verif Require Import Base VecModel OrderModel.
From Coq Require Import QArith.
Local Open Scope nat_scope.

(* ---------------------------------------------------------------------------
   reduce.hpp 23-30: total, in exact integer arithmetic (overflow not modelled) *)
Definition total (v : list Z) : Z := fold_left Z.add v 0%Z.
(* reduce.hpp 34-41 *)
Definition count (v : list bool) : nat := fold_left (fun n (b : bool) => if b then n + 1 else n) v 0.
(* reduce.hpp 46-53: 0/0 gives NaN (None) *)
Definition mean (v : list Q) : option Q :=
  if length v =? 0 then None
  else Some (Qdiv (fold_left Qplus v 0%Q) (inject_Z (Z.of_nat (length v)))).
(* reduce.hpp 58-70: the sums of v*w and of w; the function returns their quotient *)
Definition weighted_sums (vdims wdims : list nat) (v w : list Q) : outcome (Q * Q) :=
  _ <- check (if list_eq_dec Nat.eq_dec vdims wdims then true else false) ;;
  ofold (fun '(t, tw) i =>
      x <- oget v i ;; y <- oget w i ;; Ok (Qplus t (Qmult x y), Qplus tw y))
    (seq 0 (length v)) (0%Q, 0%Q).

(* ---------------------------------------------------------------------------
   Reductions along dimension [dim].  reduce.hpp 479-487 and 616-624: dimensions of
   the result *)
Definition reduced_dims (dims : list nat) (dim : nat) : list nat :=
  firstn dim dims ++ skipn (dim + 1) dims.
(* reduce.hpp 490-493: mpitch *)
Definition mpitch (dims : list nat) (dim : nat) : nat := nprod (skipn (dim + 1) dims).
(* reduce.hpp 517-527 (run_index_) and 543-564 (run_dim_final_): the elements given to
   the function for result number i; i % 0 is UB *)
Definition slice_of {A} (dims : list nat) (data : list A) (dim i : nat) : outcome (list A) :=
  n <- oget dims dim ;;
  let m := mpitch dims dim in
  if m =? 0 then UB
  else omapl (fun j => oget data (i mod m + i / m * n * m + j * m)) (seq 0 n).

(* partial_f(dim, v) (631-650) and reduce(dim, v, f) (609-629).  The storage of the
   result is allocated first. *)
Definition reduce_dim {A B} (f : list A -> outcome B) (dim : nat) (v : vec A) : outcome (vec B) :=
  _ <- check (dim <? v_rank v) ;;
  let rd := reduced_dims (v_dims v) dim in
  let n := nwrap (nprod rd) in
  if N.leb (N.of_nat n) max_elems then
    r <- omapl (fun i => s <- slice_of (v_dims v) (v_data v) dim i ;; f s) (seq 0 n) ;;
    Ok (mk_vec rd r)
  else Throws.

Definition partial_total (dim : nat) (v : vec Z) : outcome (vec Z) :=
  reduce_dim (fun l => Ok (total l)) dim v.

(* ---------------------------------------------------------------------------
   Order statistics.  reduce.hpp 121-126: std::nth_element puts at position n the
   element that a full sort would put there; the rest of the rearrangement (unspecified)
   is not modelled.  Equivalent elements are interchangeable. *)
Definition nth_element {A} (lt : A -> A -> bool) (v : list A) (n : nat) : outcome A :=
  oget (stable_sort lt v) n.
(* reduce.hpp 129-134: no NaN *)
Definition median_plain {A} (lt : A -> A -> bool) (v : list A) : outcome A :=
  _ <- check (negb (length v =? 0)) ;; nth_element lt v (length v / 2).
Definition is_nan (x : fnum) : bool := match x with NaN => true | _ => false end.
(* reduce.hpp 138-146 *)
Definition count_nans (v : list fnum) : nat := fold_left (fun n x => if is_nan x then n + 1 else n) v 0.
(* reduce.hpp 149-156 *)
Definition median (v : list fnum) : outcome fnum :=
  _ <- check (negb (length v =? 0)) ;;
  let nwrong := count_nans v in
  if nwrong =? length v then Ok NaN
  else nth_element fl_less v ((length v - nwrong) / 2).
(* math/base.hpp 90-92, then conversion to uint_t (towards zero) *)
Definition clamp_to_index (t : Q) (ma : nat) : nat :=
  let t' := if negb (Qle_bool 0%Q t) then 0%Q
            else if negb (Qle_bool t (inject_Z (Z.of_nat ma))) then inject_Z (Z.of_nat ma) else t in
  Z.to_nat (Z.quot (Qnum t') (Zpos (Qden t'))).
(* reduce.hpp 211-224; u is a finite number *)
Definition percentile (v : list fnum) (u : Q) : outcome fnum :=
  _ <- check (negb (length v =? 0)) ;;
  let nwrong := count_nans v in
  if nwrong =? length v then Ok NaN
  else nth_element fl_less v
         (clamp_to_index (Qmult (inject_Z (Z.of_nat (length v - nwrong))) u) (length v - 1)).

(* reduce.hpp 173-199: weights are rationals or NaN (None) *)
Definition valid (x : fnum) (w : option Q) : bool :=
  negb (is_nan x) && match w with Some _ => true | None => false end.
Fixpoint wp_loop (v : list fnum) (w : list (option Q)) (target tot : Q) (ids : list nat) : outcome fnum :=
  match ids with
  | [] => Ok NaN
  | j :: t =>
      x <- oget v j ;; y <- oget w j ;;
      match y with
      | Some q =>
          if is_nan x then wp_loop v w target tot t
          else let tot := Qplus tot q in
               if Qle_bool target tot then Ok x else wp_loop v w target tot t
      | None => wp_loop v w target tot t
      end
  end.
Definition weighted_percentile (vdims wdims : list nat) (v : list fnum) (w : list (option Q)) (p : Q)
  : outcome fnum :=
  _ <- check (negb (length v =? 0)) ;;
  _ <- check (if list_eq_dec Nat.eq_dec vdims wdims then true else false) ;;
  totw <- ofold (fun t i => x <- oget v i ;; y <- oget w i ;;
            match y with
            | Some q => Ok (if is_nan x then t else Qplus t q)
            | None => Ok t
            end) (seq 0 (length v)) 0%Q ;;
  if Qeq_bool totw 0%Q then Ok NaN
  else wp_loop v w (Qmult totw p) 0%Q (sort fl_less v).

(* ---------------------------------------------------------------------------
   std::min_element (libstdc++ bits/stl_algo.h): position and value *)
Fixpoint min_from {A} (lt : A -> A -> bool) (bi : nat) (bx : A) (i : nat) (l : list A) : nat * A :=
  match l with
  | [] => (bi, bx)
  | x :: t => if lt x bx then min_from lt i x (S i) t else min_from lt bi bx (S i) t
  end.
(* reduce.hpp 268-277 with comparator_less, 279-288 with comparator_greater *)
Definition min_ {A} (lt : A -> A -> bool) (v : list A) : outcome (nat * A) :=
  match v with
  | [] => CheckFail
  | x :: t => Ok (min_from lt 0 x 1 t)
  end.
(* reduce.hpp 328-347, 349-366: min, max and min_id, max_id of a float vector *)
Definition min_val v := omap snd (min_ fl_less v).
Definition min_id v := omap fst (min_ fl_less v).
Definition max_val v := omap snd (min_ fl_greater v).
Definition max_id v := omap fst (min_ fl_greater v).

(* reduce.hpp 316-320: the loop *)
Fixpoint minmax_from (mi : nat) (mx : fnum) (ma : nat) (max : fnum) (i : nat) (l : list fnum)
  : (nat * fnum) * (nat * fnum) :=
  match l with
  | [] => ((mi, mx), (ma, max))
  | x :: t =>
      if is_nan x then minmax_from mi mx ma max (S i) t
      else if fl_lt x mx then minmax_from i x ma max (S i) t
      else if negb (fl_lt x max) then minmax_from mi mx i x (S i) t
      else minmax_from mi mx ma max (S i) t
  end.
(* reduce.hpp 303-314: skip leading NaNs *)
Fixpoint minmax_skip (i : nat) (l : list fnum) : option ((nat * fnum) * (nat * fnum)) :=
  match l with
  | [] => None
  | x :: t => if is_nan x then minmax_skip (S i) t else Some (minmax_from i x i x (S i) t)
  end.
(* reduce.hpp 290-324 *)
Definition minmax_ (v : list fnum) : outcome ((nat * fnum) * (nat * fnum)) :=
  match v with
  | [] => CheckFail
  | x :: _ => Ok (match minmax_skip 0 v with Some r => r | None => ((0, x), (0, x)) end)
  end.

(* reduce.hpp 391-449: min/max(v1, v2) element by element.  The comparison is made in the
   common type C, the result is converted to the element type T1 of the FIRST argument.
   std::min(a,b) is (b < a) ? b : a and std::max(a,b) is (a < b) ? b : a. *)
Definition min_pairs {C T1} (lt : C -> C -> bool) (conv : C -> T1) (d1 d2 : list nat) (v1 v2 : list C)
  : outcome (list T1) :=
  _ <- check (if list_eq_dec Nat.eq_dec d1 d2 then true else false) ;;
  omapl (fun i => a <- oget v1 i ;; b <- oget v2 i ;; Ok (conv (if lt b a then b else a))) (seq 0 (length v1)).
Definition max_pairs {C T1} (lt : C -> C -> bool) (conv : C -> T1) (d1 d2 : list nat) (v1 v2 : list C)
  : outcome (list T1) :=
  _ <- check (if list_eq_dec Nat.eq_dec d1 d2 then true else false) ;;
  omapl (fun i => a <- oget v1 i ;; b <- oget v2 i ;; Ok (conv (if lt a b then b else a))) (seq 0 (length v1)).
(* min(scalar, v2): the result has the type of the scalar *)
Definition min_scalar_vec {C T1} (lt : C -> C -> bool) (conv : C -> T1) (a : C) (v2 : list C) : list T1 :=
  map (fun b => conv (if lt b a then b else a)) v2.
(* min(v1, scalar): the result has the type of the vector *)
Definition min_vec_scalar {C T1} (lt : C -> C -> bool) (conv : C -> T1) (v1 : list C) (b : C) : list T1 :=
  map (fun a => conv (if lt b a then b else a)) v1.
