(* Owning vectors: construction, resizing, push_back, reform, append, removal.
   Sources: include/vif/core/vec.hpp, include/vif/core/bits/initializer_list.hpp,
   include/vif/core/bits/access.hpp, include/vif/utility/bits/generic-dims.hpp,
   include/vif/utility/bits/generic-rearrange.hpp. *)
From Verif Require Import Base IndexModel.
From Coq Require Import NArith.

Section Vec.
Context {A : Type} (dflt : A). (* dflt: value of a value-initialised element *)

(* core/vec.hpp 79-80: data and dims.  The rank Dim is the length of v_dims. *)
Record vec := mk_vec { v_dims : list nat; v_data : list A }.

Definition v_rank (v : vec) : nat := length (v_dims v).
(* core/vec.hpp 199-205 *)
Definition v_size (v : vec) : nat := length (v_data v).
Definition v_empty (v : vec) : bool := v_size v =? 0.

(* core/vec.hpp 83: default constructor *)
Definition vec_default (rank : nat) : vec := mk_vec (repeat 0 rank) [].

(* uint_t arithmetic on numbers kept as nat *)
Definition two64N : N := 18446744073709551616%N.
Definition nwrap (n : nat) : nat := N.to_nat (N.modulo (N.of_nat n) two64N).
Definition nsub64 (a b : nat) : nat :=
  if b <=? a then a - b else N.to_nat (two64N + N.of_nat a - N.of_nat b).

(* std::vector::resize; elements of 8 bytes are assumed for max_size() *)
Definition max_elems : N := 1152921504606846975%N.
Definition data_resize (n : nat) (l : list A) : outcome (list A) :=
  if N.leb (N.of_nat n) max_elems
  then Ok (firstn n l ++ repeat dflt (n - length l))
  else Throws.

(* std::vector::insert / push_back at one end: also bounded by max_size() *)
Definition data_concat (a b : list A) : outcome (list A) :=
  if N.leb (N.of_nat (length a + length b)) max_elems then Ok (a ++ b) else Throws.

(* core/vec.hpp 207-214: resize(); size *= dims[i] wraps modulo 2^64 (the running
   product modulo 2^64 is the product modulo 2^64) *)
Definition vec_resize_ (v : vec) : outcome vec :=
  d <- data_resize (nwrap (nprod (v_dims v))) (v_data v) ;; Ok (mk_vec (v_dims v) d).

(* core/vec.hpp 216-220 and helpers.hpp 250-277: resize(d...) *)
Definition vec_resize (dims : list nat) (v : vec) : outcome vec :=
  vec_resize_ (mk_vec dims (v_data v)).

(* core/vec.hpp 98-106: dimension constructor *)
Definition vec_ctor (dims : list nat) : outcome vec := vec_resize_ (mk_vec dims []).

(* core/vec.hpp 222-227 *)
Definition vec_clear (v : vec) : vec := mk_vec (repeat 0 (v_rank v)) [].

(* core/vec.hpp 91-95: move constructor; (new, moved-from).  A moved-from
   std::vector is empty. *)
Definition vec_move_ctor (v : vec) : vec * vec :=
  (mk_vec (v_dims v) (v_data v), mk_vec (repeat 0 (v_rank v)) []).

(* core/vec.hpp 147-151: move assignment; the dims of the source are not reset
   (std::array has no move). *)
Definition vec_move_assign (v : vec) : vec * vec :=
  (mk_vec (v_dims v) (v_data v), mk_vec (v_dims v) []).

(* core/vec.hpp 249-259: push_back(scalar), Dim == 1 *)
Definition push_back_scalar (v : vec) (x : A) : outcome vec :=
  match v_dims v with
  | [d] => l <- data_concat (v_data v) [x] ;; Ok (mk_vec [nwrap (d + 1)] l)
  | _ => UB (* excluded by static_assert *)
  end.

(* core/vec.hpp 261-283: push_back(vec<Dim-1>) *)
Definition push_back_vec (v t : vec) : outcome vec :=
  match v_dims v with
  | d :: ds =>
      if v_empty v then Ok (mk_vec (1 :: v_dims t) (v_data t))
      else
        _ <- check (if list_eq_dec Nat.eq_dec ds (v_dims t) then true else false) ;;
        l <- data_concat (v_data v) (v_data t) ;;
        Ok (mk_vec (nwrap (d + 1) :: ds) l)
  | [] => UB (* excluded by static_assert *)
  end.

(* --------------------------------------------------------------------------
   core/bits/initializer_list.hpp 12-54.  nlist n is a list nested n deep. *)
Fixpoint nlist (n : nat) : Type :=
  match n with O => A | S n' => list (nlist n') end.

(* initializer_list.hpp 12-33: set_dim_; None when an empty list is met on the way
   along the first elements, in which case all dims are set to 0 *)
Fixpoint ilist_dims (n : nat) : nlist n -> option (list nat) :=
  match n with
  | O => fun _ => Some []
  | S n' => fun il =>
      match il with
      | [] => None
      | x :: _ => option_map (cons (length il)) (ilist_dims n' x)
      end
  end.

(* initializer_list.hpp 35-47: fill_; the data are visited in order, every nested
   list must have the size of its dimension.  Writing at idx past the storage
   would be UB (state: remaining storage to overwrite is given by [room]). *)
Fixpoint ilist_fill (n : nat) (dims : list nat) : nlist n -> list A -> nat -> outcome (list A * nat) :=
  match n with
  | O => fun x data idx => d <- oset data idx x ;; Ok (d, idx + 1)
  | S n' => fun il data idx =>
      match dims with
      | [] => UB
      | d :: ds =>
          _ <- check (length il =? d) ;;
          ofold (fun '(data, idx) t => ilist_fill n' ds t data idx) il (data, idx)
      end
  end.

(* initializer_list.hpp 49-54: fill, from a vector holding [old] elements (0 for
   the constructor; old data are kept by resize then overwritten) *)
Definition vec_ilist (n : nat) (il : nlist n) (old : list A) : outcome vec :=
  let dims := match ilist_dims n il with Some d => d | None => repeat 0 n end in
  v <- vec_resize_ (mk_vec dims old) ;;
  if v_empty v then Ok v
  else '(d, _) <- ilist_fill n dims il (v_data v) 0 ;; Ok (mk_vec dims d).

(* --------------------------------------------------------------------------
   utility/bits/generic-dims.hpp 12-41: flatten (copy) *)
Definition flatten (v : vec) : vec := mk_vec [v_size v] (v_data v).

(* generic-dims.hpp 43-58: reform (copy) *)
Definition reform (v : vec) (dims : list nat) : outcome vec :=
  _ <- check (v_size v =? nwrap (nprod dims)) ;; Ok (mk_vec dims (v_data v)).

(* --------------------------------------------------------------------------
   core/bits/access.hpp 337-494: v(i1,...,ik) with at least one subscript that is
   not a scalar.  A subscript is an unsigned scalar, a range or a list of unsigned
   indices.  The result is the list of flat positions of the view, in order. *)
Inductive sub := SScalar (i : nat) | SRange (r : rng) | SIds (l : list nat).

(* access.hpp 386-468: make_indices_ (bound checked: IsSafe = true) *)
Fixpoint make_indices (dims : list nat) (subs : list sub) (ivx : nat) : outcome (list nat) :=
  match dims, subs with
  | [], [] => Ok [ivx]
  | d :: ds, SScalar i :: ss =>
      j <- to_idx_nat d i ;; make_indices ds ss (ivx + j * nprod ds)
  | d :: ds, SRange r :: ss =>
      l <- rng_loop r (Z.of_nat d) ;;
      ll <- omapl (fun j => make_indices ds ss (ivx + Z.to_nat j * nprod ds)) l ;;
      Ok (concat ll)
  | d :: ds, SIds l :: ss =>
      ll <- omapl (fun i => j <- to_idx_nat d i ;;
                            make_indices ds ss (ivx + j * nprod ds)) l ;;
      Ok (concat ll)
  | _, _ => UB (* excluded by static_assert *)
  end.

(* access.hpp 348-372: dimensions of the view (uint_t, kept in N) *)
Fixpoint view_dims (dims : list nat) (subs : list sub) : list N :=
  match dims, subs with
  | d :: ds, SScalar _ :: ss => view_dims ds ss
  | d :: ds, SRange r :: ss => Z.to_N (range_size r (Z.of_nat d)) :: view_dims ds ss
  | d :: ds, SIds l :: ss => N.of_nat (length l) :: view_dims ds ss
  | _, _ => []
  end.

Definition Nprod64 (l : list N) : N := N.modulo (fold_right N.mul 1%N l) two64N.

(* access.hpp 470-494: access_.  The storage of the view is allocated first
   (t.resize()); entries written outside, or left null, are reported as UB. *)
Definition multi_access (dims : list nat) (subs : list sub) : outcome (list N * list nat) :=
  let vd := view_dims dims subs in
  _ <- (if N.leb (Nprod64 vd) max_elems then Ok tt else Throws) ;;
  l <- make_indices dims subs 0 ;;
  if N.eqb (N.of_nat (length l)) (Nprod64 vd) then Ok (vd, l) else UB.

(* access.hpp 386-468 with IsSafe = false, for lists of indices in each dimension
   (a range is the list of its values): no bound check *)
Fixpoint positions (dims : list nat) (subs : list (list nat)) (ivx : nat) : list nat :=
  match dims, subs with
  | d :: ds, s :: ss => flat_map (fun j => positions ds ss (ivx + j * nprod ds)) s
  | _, _ => [ivx]
  end.

(* core/vec.hpp 752-788: view = vector, different storage: element by element *)
Definition assign_positions (data : list A) (pos : list nat) (src : list A) : outcome (list A) :=
  _ <- check (length pos =? length src) ;;
  ofold (fun d '(p, x) => oset d p x) (combine pos src) data.

(* --------------------------------------------------------------------------
   utility/bits/generic-rearrange.hpp 157-178: append<N>.  Only t1 and t2 of the
   same element type, distinct objects. *)
Definition set_nth_dim (dims : list nat) (N d : nat) : list nat := upd dims N d.

Definition full_subs (dims : list nat) (N : nat) (ids : list nat) : list (list nat) :=
  upd (map (fun d => seq 0 d) dims) N ids.

Definition append_dim (N : nat) (t1 t2 : vec) : outcome vec :=
  if v_empty t1 then Ok t2
  else if v_empty t2 then Ok t1
  else
    n1 <- oget (v_dims t1) N ;;
    n2 <- oget (v_dims t2) N ;;
    if (n1 =? 0) || (n2 =? 0) then UB
    else
      _ <- check (v_size t1 / n1 =? v_size t2 / n2) ;;
      r <- vec_resize_ (mk_vec (upd (v_dims t1) N (nwrap (n1 + n2))) (v_data t1)) ;;
      d1 <- assign_positions (v_data r)
              (positions (v_dims r) (full_subs (v_dims r) N (seq 0 n1)) 0) (v_data t1) ;;
      d2 <- assign_positions d1
              (positions (v_dims r) (full_subs (v_dims r) N (seq n1 n2)) 0) (v_data t2) ;;
      Ok (mk_vec (v_dims r) d2).

(* generic-rearrange.hpp 182-203: prepend<N> *)
Definition prepend_dim (N : nat) (t1 t2 : vec) : outcome vec :=
  if v_empty t1 then Ok t2
  else if v_empty t2 then Ok t1
  else
    n1 <- oget (v_dims t1) N ;;
    n2 <- oget (v_dims t2) N ;;
    if (n1 =? 0) || (n2 =? 0) then UB
    else
      _ <- check (v_size t1 / n1 =? v_size t2 / n2) ;;
      r <- vec_resize_ (mk_vec (upd (v_dims t1) N (nwrap (n1 + n2))) (v_data t1)) ;;
      d1 <- assign_positions (v_data r)
              (positions (v_dims r) (full_subs (v_dims r) N (seq 0 n2)) 0) (v_data t2) ;;
      d2 <- assign_positions d1
              (positions (v_dims r) (full_subs (v_dims r) N (seq n2 n1)) 0) (v_data t1) ;;
      Ok (mk_vec (v_dims r) d2).

(* generic-rearrange.hpp 205-217: one-dimensional append / prepend;
   [self] tells whether t2 is the same object as t1: inserting a vector into itself
   by iterators is undefined for std::vector. *)
Definition append1 (self : bool) (t1 t2 : vec) : outcome vec :=
  match v_dims t1, v_dims t2 with
  | [d1], [d2] =>
      if self then UB
      else l <- data_concat (v_data t1) (v_data t2) ;; Ok (mk_vec [nwrap (d1 + d2)] l)
  | _, _ => UB
  end.
Definition prepend1 (self : bool) (t1 t2 : vec) : outcome vec :=
  match v_dims t1, v_dims t2 with
  | [d1], [d2] =>
      if self then UB
      else l <- data_concat (v_data t2) (v_data t1) ;; Ok (mk_vec [nwrap (d1 + d2)] l)
  | _, _ => UB
  end.

(* --------------------------------------------------------------------------
   generic-rearrange.hpp 118-148: inplace_remove.  [sort_ids] stands for the
   ascending sort of the indices.  The two nested loops run over the indices in
   descending order; [i1]..[i0] is the current run of consecutive indices. *)
Fixpoint insert_nat (x : nat) (l : list nat) : list nat :=
  match l with
  | [] => [x]
  | y :: t => if x <=? y then x :: l else y :: insert_nat x t
  end.
Definition sort_ids (l : list nat) : list nat := fold_right insert_nat [] l.

(* std::vector::erase(begin+a, begin+b): UB unless a <= b <= size *)
Definition data_erase (data : list A) (a b : nat) : outcome (list A) :=
  if (a <=? b) && (b <=? length data) then Ok (firstn a data ++ skipn b data) else UB.

Fixpoint remove_loop (osize pitch i1 i0 : nat) (rest : list nat) (data : list A)
  : outcome (list A) :=
  match rest with
  | [] => data_erase data (i0 * pitch) ((i1 + 1) * pitch)
  | x :: rest' =>
      if i0 - x <=? 1 then
        _ <- check (negb (x =? i1)) ;;
        _ <- check (x <? osize) ;;
        remove_loop osize pitch i1 x rest' data
      else
        data' <- data_erase data (i0 * pitch) ((i1 + 1) * pitch) ;;
        _ <- check (x <? osize) ;;
        remove_loop osize pitch x x rest' data'
  end.

Definition inplace_remove (v : vec) (ids : list nat) : outcome vec :=
  match v_dims v with
  | [] => UB (* Dim >= 1 *)
  | d :: ds =>
      data <- match rev (sort_ids ids) with
              | [] => Ok (v_data v)
              | i1 :: rest =>
                  _ <- check (i1 <? v_size v) ;;
                  remove_loop (v_size v) (nprod ds) i1 i1 rest (v_data v)
              end ;;
      Ok (mk_vec (nsub64 d (length ids) :: ds) data)
  end.

(* generic-rearrange.hpp 32-48: transpose *)
Definition transpose (v : vec) : outcome vec :=
  match v_dims v with
  | [d0; d1] =>
      data <- omapl (fun i => if d0 =? 0 then UB
                              else oget (v_data v) (i mod d0 * d1 + i / d0))
                    (seq 0 (v_size v)) ;;
      Ok (mk_vec [d1; d0] data)
  | _ => UB
  end.

(* --------------------------------------------------------------------------
   Programs over a set of named vectors *)
Inductive vop :=
| OpCtor (k : nat) (dims : list nat)         (* v_k = vec(dims...) *)
| OpIlist (k n : nat) (il : nlist n)         (* v_k = { ... } *)
| OpCopy (k j : nat)                         (* v_k = v_j *)
| OpMoveCtor (k j : nat)                     (* v_k constructed from std::move(v_j) *)
| OpMoveAssign (k j : nat)                   (* v_k = std::move(v_j) *)
| OpResize (k : nat) (dims : list nat)
| OpClear (k : nat)
| OpPush (k : nat) (x : A)
| OpPushVec (k j : nat)
| OpReform (k j : nat) (dims : list nat)     (* v_k = reform(v_j, dims...) *)
| OpFlatten (k j : nat)
| OpAppend1 (k j : nat)
| OpPrepend1 (k j : nat)
| OpAppend (N k j : nat)
| OpPrepend (N k j : nat)
| OpRemove (k : nat) (ids : list nat)
| OpTranspose (k j : nat).

(* append<N>(v, v): the second view assignment finds twice as many elements on its
   right-hand side and stops the program *)
Definition self_append (r : outcome vec) (v : vec) (self : bool) : outcome vec :=
  if self && negb (v_empty v) then CheckFail else r.

Definition put (st : list vec) (k : nat) (r : outcome vec) : outcome (list vec) :=
  v <- r ;; oset st k v.

Definition run_op (st : list vec) (o : vop) : outcome (list vec) :=
  match o with
  | OpCtor k dims => put st k (vec_ctor dims)
  | OpIlist k n il => put st k (vec_ilist n il [])
  | OpCopy k j => put st k (oget st j)
  | OpMoveCtor k j =>
      v <- oget st j ;; st' <- oset st j (snd (vec_move_ctor v)) ;;
      oset st' k (fst (vec_move_ctor v))
  | OpMoveAssign k j =>
      if k =? j then UB (* unspecified for std::vector *) else
      v <- oget st j ;; st' <- oset st j (snd (vec_move_assign v)) ;;
      oset st' k (fst (vec_move_assign v))
  | OpResize k dims => put st k (v <- oget st k ;; vec_resize dims v)
  | OpClear k => put st k (v <- oget st k ;; Ok (vec_clear v))
  | OpPush k x => put st k (v <- oget st k ;; push_back_scalar v x)
  | OpPushVec k j => put st k (v <- oget st k ;; t <- oget st j ;; push_back_vec v t)
  | OpReform k j dims => put st k (t <- oget st j ;; reform t dims)
  | OpFlatten k j => put st k (t <- oget st j ;; Ok (flatten t))
  | OpAppend1 k j => put st k (v <- oget st k ;; t <- oget st j ;; append1 (k =? j) v t)
  | OpPrepend1 k j => put st k (v <- oget st k ;; t <- oget st j ;; prepend1 (k =? j) v t)
  | OpAppend N k j => put st k (v <- oget st k ;; t <- oget st j ;; self_append (append_dim N v t) v (k =? j))
  | OpPrepend N k j => put st k (v <- oget st k ;; t <- oget st j ;; self_append (prepend_dim N v t) v (k =? j))
  | OpRemove k ids => put st k (v <- oget st k ;; inplace_remove v ids)
  | OpTranspose k j => put st k (t <- oget st j ;; transpose t)
  end.

Definition run_ops (st : list vec) (p : list vop) : outcome (list vec) := ofold run_op p st.

End Vec.
Arguments vec A : clear implicits.
Arguments nlist A n : clear implicits.
Arguments vop A : clear implicits.
