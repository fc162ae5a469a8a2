(* Strided iteration over one dimension: v.stride(i, _, k).
   Source: include/vif/core/bits/access.hpp 659-740, core/bits/iterator.hpp 82-140,
   core/iterator_base.hpp 6-94 (iterators), core/vec.hpp 625-645, 653-672.
   An iterator is a position in the storage, taken as an integer: the arithmetic of std::vector
   iterators is only defined between begin() and end(), which [legal] records.  Subscripts are
   unsigned.  The iterator types of views and raw strides move in the same way. *)
From Verif Require Import Base IndexModel.
Local Open Scope Z_scope.

(* iterator.hpp 82-88, 114-120 *)
Record policy := mk_policy { stride : Z; offset : Z }.
Definition policy0 : policy := mk_policy 1 0.

(* access.hpp 667-704, on the dimensions from D on; None is the placeholder *)
Fixpoint get_stride_offset (dims : list nat) (subs : list (option nat)) (bp ep : policy)
    : outcome (policy * policy) :=
  match dims, subs with
  | [], [] => Ok (bp, ep)
  | d :: ds, None :: is =>
      let pitch := Z.of_nat (nprod ds) in
      get_stride_offset ds is (mk_policy pitch (offset bp))
        (mk_policy pitch (offset ep + Z.of_nat d * pitch))
  | d :: ds, Some i :: is =>
      let pitch := Z.of_nat (nprod ds) in
      j <- to_idx_nat d i ;;
      get_stride_offset ds is (mk_policy (stride bp) (offset bp + Z.of_nat j * pitch))
        (mk_policy (stride ep) (offset ep + Z.of_nat j * pitch))
  | _, _ => UB (* excluded at compile time *)
  end.

(* iterator_base.hpp 17-20, iterator.hpp 90-93: parent.begin(policy) starts at 0 + offset *)
Record iter := mk_iter { it_policy : policy; it_pos : Z }.
Definition begin_with (p : policy) : iter := mk_iter p (0 + offset p).

(* access.hpp 720-729: begin and end of the strided range *)
Definition stride_range (dims : list nat) (subs : list (option nat)) : outcome (iter * iter) :=
  '(bp, ep) <- get_stride_offset dims subs policy0 policy0 ;;
  Ok (begin_with bp, begin_with ep).

(* iterator.hpp 94-111, iterator_base.hpp 22-87 *)
Definition it_add (it : iter) (n : Z) : iter := mk_iter (it_policy it) (it_pos it + n * stride (it_policy it)).
Definition it_inc (it : iter) : iter := it_add it 1.
Definition it_dec (it : iter) : iter := it_add it (-1).
Definition it_sub (it : iter) (n : Z) : iter := it_add it (- n).
(* a - b; division by a zero stride is undefined *)
Definition it_diff (a b : iter) : outcome Z :=
  if stride (it_policy a) =? 0 then UB
  else Ok (Z.quot (it_pos a - it_pos b) (stride (it_policy a))).
Definition it_eq (a b : iter) : bool := it_pos a =? it_pos b.
Definition it_lt (a b : iter) : bool := it_pos a <? it_pos b.
Definition it_le (a b : iter) : bool := it_pos a <=? it_pos b.

(* the dereferenced position must be inside the storage *)
Definition it_deref (size : nat) (it : iter) : outcome nat :=
  if (0 <=? it_pos it) && (it_pos it <? Z.of_nat size) then Ok (Z.to_nat (it_pos it)) else UB.

(* for (auto& x : v.stride(...)): the positions visited, in order *)
Fixpoint traverse (fuel size : nat) (it e : iter) : outcome (list nat) :=
  if it_eq it e then Ok []
  else match fuel with
       | O => Diverge
       | S fuel' =>
           p <- it_deref size it ;;
           l <- traverse fuel' size (it_inc it) e ;;
           Ok (p :: l)
       end.

Definition visit (fuel : nat) (dims : list nat) (size : nat) (subs : list (option nat)) : outcome (list nat) :=
  '(b, e) <- stride_range dims subs ;; traverse fuel size b e.

(* [vector.cons], [expr.add]: iterators of a vector of n elements *)
Definition legal (size : nat) (it : iter) : bool := (0 <=? it_pos it) && (it_pos it <=? Z.of_nat size).
