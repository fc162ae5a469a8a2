(* Integer ranges, subscripts and flat/multi-dimensional index conversion.
   Sources: include/vif/core/range.hpp, include/vif/core/bits/access.hpp,
   include/vif/utility/bits/generic-indices.hpp. *)
From Verif Require Import Base.
Local Open Scope Z_scope.

(* ---------------------------------------------------------------------------
   core/range.hpp 76-89: struct range_t<uint_t>; fields b, e, d, n.
   Simplification: only T = uint_t is modelled (dtype<T> = int64). *)
Record range_t := mk_range_t { rg_b : Z; rg_e : Z; rg_d : Z; rg_n : Z }.

(* core/range.hpp 41-44 and 82-83: d = (n == 0 ? 0 : (int64(e)-int64(b))/int64(n)),
   a signed division truncating towards zero. *)
Definition range_ctor (b e n : Z) : outcome range_t :=
  if n =? 0 then Ok (mk_range_t b e 0 n)
  else
    diff <- signed64 (to_signed64 e - to_signed64 b) ;;
    q <- signed64 (Z.quot diff (to_signed64 n)) ;;
    Ok (mk_range_t b e q n).

(* core/range.hpp 186-189: range(i,e) = range(i, e, std::abs(int64(e)-int64(i))) *)
Definition range2 (b e : Z) : outcome range_t :=
  diff <- signed64 (to_signed64 e - to_signed64 b) ;;
  n <- signed64 (Z.abs diff) ;;
  range_ctor b e n.

(* core/range.hpp 192-195 *)
Definition range1 (n : Z) : outcome range_t := range2 0 n.

(* core/range.hpp 54-74 and 87-88: the range-for loop runs the iterator index
   from 0 until it equals n; dereferencing computes b + d*i in uint_t. *)
Definition range_values (r : range_t) : list Z :=
  map (fun i => wrap64 (rg_b r + rg_d r * Z.of_nat i)) (seq 0 (Z.to_nat (rg_n r))).

(* the values visited by  for (uint_t i : range(b,e))  *)
Definition for_range (b e : Z) : outcome (list Z) := omap range_values (range2 b e).
(* the values visited by  for (uint_t i : range(n))  *)
Definition for_range_n (n : Z) : outcome (list Z) := omap range_values (range1 n).

(* ---------------------------------------------------------------------------
   core/range.hpp 91-110: the four kinds of range subscripts. *)
Inductive rng :=
| RFull                       (* _ *)
| RLeft (last : Z)            (* _-last *)
| RRight (first : Z)          (* first-_ *)
| RLeftRight (first last : Z) (* first-_-last *).

(* core/range.hpp 132-157 *)
Definition check_bounds (r : rng) (size : Z) : outcome unit :=
  match r with
  | RFull => Ok tt
  | RLeft l => check (l <? size)
  | RRight f => check (f <? size)
  | RLeftRight f l => _ <- check (l <? size) ;; check (f <? size)
  end.

(* core/range.hpp 159-170, uint_t arithmetic *)
Definition range_size (r : rng) (size : Z) : Z :=
  match r with
  | RFull => size
  | RLeft l => wrap64 (l + 1)
  | RRight f => wrap64 (size - f)
  | RLeftRight f l => wrap64 (wrap64 (l + 1) - f)
  end.

(* core/bits/access.hpp 264-282: vec_access::range *)
Definition rng_loop (r : rng) (size : Z) : outcome (list Z) :=
  _ <- check_bounds r size ;;
  match r with
  | RFull => for_range_n size
  | RLeft l => for_range_n (wrap64 (l + 1))
  | RRight f => for_range f size
  | RLeftRight f l => for_range f (wrap64 (l + 1))
  end.

(* std::vector<T*>::resize(n): std::length_error above max_size() = (2^63-1)/8;
   exhausting the memory of the machine is not modelled. *)
Definition max_ptrs : Z := 1152921504606846975.
Definition vector_resize (n : Z) : outcome unit :=
  if n <=? max_ptrs then Ok tt else Throws.

(* core/bits/access.hpp 643-657: bracket_access, v[rng] on a vector (or view) of
   [size] elements.  The result is the list of selected flat positions.  The
   loop writes v.data[itx] for itx = 0,1,...: writing past the resized storage is
   UB, and unwritten entries would stay null pointers (also reported as UB). *)
Definition bracket_access (r : rng) (size : Z) : outcome (list Z) :=
  let n := range_size r size in
  _ <- vector_resize n ;;
  l <- rng_loop r size ;;
  if Z.of_nat (length l) =? n then Ok l else UB.

(* ---------------------------------------------------------------------------
   core/bits/access.hpp 284-288: to_idx_ for unsigned index types *)
Definition to_idx_unsigned (size i : Z) : outcome Z :=
  _ <- check (i <? size) ;; Ok i.

(* conversion of an unsigned 64-bit value to a signed type of w bits (two's
   complement, as all supported compilers do) *)
Definition to_signed (w : Z) (x : Z) : Z :=
  let y := x mod 2 ^ w in
  if y <? 2 ^ (w - 1) then y else y - 2 ^ w.

(* core/bits/access.hpp 293: while (i < 0) i += size;  with i of a signed type of
   w bits and size a uint_t: the sum is computed modulo 2^64 and converted back. *)
Fixpoint to_idx_loop (fuel : nat) (w size i : Z) : outcome Z :=
  if i <? 0 then
    match fuel with
    | O => Diverge
    | S fuel' => to_idx_loop fuel' w size (to_signed w (wrap64 (i + size)))
    end
  else Ok i.

(* core/bits/access.hpp 290-297: to_idx_ for signed index types of w bits *)
Definition to_idx_signed (fuel : nat) (w size i : Z) : outcome Z :=
  _ <- check (0 <? size) ;;
  ui <- to_idx_loop fuel w size i ;;
  _ <- check (ui <? size) ;;
  Ok ui.

(* ---------------------------------------------------------------------------
   Scalar access v(i1,...,ik).  Subscripts are unsigned here (signed subscripts
   are first normalised by to_idx_signed).  Products of dimensions of a vector
   that exists in memory do not overflow, so nat is used. *)
Local Open Scope nat_scope.

Definition to_idx_nat (d i : nat) : outcome nat :=
  _ <- check (i <? d) ;; Ok i.

(* core/bits/access.hpp 584-601: get_index_; pitch is the product of the
   dimensions after the current one *)
Fixpoint get_index (dims ids : list nat) (idx : nat) : outcome nat :=
  match dims, ids with
  | [], [] => Ok idx
  | d :: ds, i :: is =>
      j <- to_idx_nat d i ;; get_index ds is (idx + j * nprod ds)
  | _, _ => UB (* excluded at compile time *)
  end.

(* core/bits/access.hpp 603-605: v(i1,...,ik) reads v.safe[get_index_(...)] *)
Definition vec_access {A} (dims : list nat) (data : list A) (ids : list nat) : outcome A :=
  f <- get_index dims ids 0 ;; oget data f.

(* core/bits/access.hpp 326-333: pitch(dims, i) *)
Definition pitch (dims : list nat) (i : nat) : nat :=
  fold_left (fun p j => p * nth j dims 0) (seq (i + 1) (length dims - (i + 1))) 1.

(* ---------------------------------------------------------------------------
   utility/bits/generic-indices.hpp 7-17: mult_ids; i % 0 is UB *)
Definition mult_ids (dims : list nat) (i : nat) : outcome (list nat) :=
  let D := length dims in
  '(r, _) <- ofold (fun '(r, i) j =>
      let k := D - 1 - j in
      d <- oget dims k ;;
      if d =? 0 then UB
      else r' <- oset r k (i mod d) ;; Ok (r', i / d))
    (seq 0 D) (repeat 0 D, i) ;;
  Ok r.

(* utility/bits/generic-indices.hpp 43-56 and 68-72: flat_id(dims, i1, ..., ik);
   I counts the processed subscripts *)
Fixpoint flat_id_ (dims : list nat) (ret : nat) (I : nat) (args : list nat) : outcome nat :=
  match args with
  | [] => Ok ret
  | i :: args' =>
      d <- oget dims I ;;
      j <- to_idx_nat d i ;;
      flat_id_ dims (ret + pitch dims I * j) (I + 1) args'
  end.

Definition flat_id (dims ids : list nat) : outcome nat :=
  if length ids =? length dims then flat_id_ dims 0 0 ids
  else UB (* excluded by static_assert *).

(* utility/bits/generic-indices.hpp 92-103: increment_index_list(ids, n).
   [i] is the loop variable before the decrement; --i on 0 wraps to 2^64-1 and the
   following unchecked access is UB. *)
Fixpoint increment_from (i : nat) (ids n : list nat) : outcome (list nat) :=
  match i with
  | O => UB
  | S i' =>
      x <- oget ids i' ;;
      ids1 <- oset ids i' (x + 1) ;;
      m <- oget n i' ;;
      if x + 1 =? m then
        ids2 <- oset ids1 i' 0 ;;
        (if i' =? 0 then Ok ids2 else increment_from i' ids2 n)
      else Ok ids1
  end.

Definition increment_index_list (ids n : list nat) : outcome (list nat) :=
  increment_from (length ids) ids n.

(* k successive calls *)
Fixpoint increment_times (k : nat) (ids n : list nat) : outcome (list nat) :=
  match k with
  | O => Ok ids
  | S k' => ids' <- increment_index_list ids n ;; increment_times k' ids' n
  end.
