(* Views (vec<Dim,Type*>), assignment and compound assignment through them.
   Sources: include/vif/core/vec.hpp 141-197, 568-604, 680-812, 866-945, 1116-1156;
   include/vif/core/bits/access.hpp 337-494, 643-657.
   Simplification: all vectors have the same element type (vectors of different
   element types share no memory), and element conversions are the identity. *)
From Verif Require Import Base IndexModel VecModel.

Section View.
Context {A : Type} (dflt : A).

(* The vectors of the program; a pointer to an element is (vector, flat index). *)
Definition store := list (vec A).
Definition ptr : Type := nat * nat.

Definition read (st : store) (p : ptr) : outcome A :=
  v <- oget st (fst p) ;; oget (v_data v) (snd p).
Definition write (st : store) (p : ptr) (x : A) : outcome store :=
  v <- oget st (fst p) ;;
  d <- oset (v_data v) (snd p) x ;;
  oset st (fst p) (mk_vec (v_dims v) d).

(* core/vec.hpp 719: void* parent; it is compared, never dereferenced *)
Inductive parent_t := PVec (k : nat) | PView (address : nat).
Definition parent_eqb (a b : parent_t) : bool :=
  match a, b with
  | PVec i, PVec j => i =? j
  | PView i, PView j => i =? j
  | _, _ => false
  end.

(* core/vec.hpp 718-722.  w_const: vec<Dim,const Type*>, a view obtained from a
   const vector or view *)
Record view := mk_view {
  w_parent : parent_t; w_const : bool; w_dims : list nat; w_ptrs : list ptr }.

(* core/vec.hpp 335-380: v[ids] on vector k (unsigned indices) *)
Definition view_ids (st : store) (k : nat) (const : bool) (ids : list nat) : outcome view :=
  v <- oget st k ;;
  l <- omapl (fun i => to_idx_nat (v_size v) i) ids ;;
  Ok (mk_view (PVec k) const [length ids] (map (fun i => (k, i)) l)).

(* core/vec.hpp 881-945: w[ids] on a view: the parent is passed on *)
Definition view_view_ids (w : view) (const : bool) (ids : list nat) : outcome view :=
  l <- omapl (fun i => j <- to_idx_nat (length (w_ptrs w)) i ;; oget (w_ptrs w) j) ids ;;
  Ok (mk_view (w_parent w) (const || w_const w) [length ids] l).

(* access.hpp 643-657: v[range] on vector k: the parent is the vector *)
Definition view_rng (st : store) (k : nat) (const : bool) (r : rng) : outcome view :=
  v <- oget st k ;;
  l <- bracket_access r (Z.of_nat (v_size v)) ;;
  Ok (mk_view (PVec k) const [length l] (map (fun i => (k, Z.to_nat i)) l)).

(* access.hpp 643-657: w[range] on a view stored at [address]: the parent is the
   view object, not the vector it points into *)
Definition view_view_rng (w : view) (address : nat) (const : bool) (r : rng) : outcome view :=
  l <- bracket_access r (Z.of_nat (length (w_ptrs w))) ;;
  ps <- omapl (fun i => oget (w_ptrs w) (Z.to_nat i)) l ;;
  Ok (mk_view (PView address) (const || w_const w) [length l] ps).

(* access.hpp 470-494: v(s1,...,sD) on vector k *)
Definition view_multi (st : store) (k : nat) (const : bool) (subs : list sub) : outcome view :=
  v <- oget st k ;;
  '(vd, l) <- multi_access (v_dims v) subs ;;
  Ok (mk_view (PVec k) const (map N.to_nat vd) (map (fun i => (k, i)) l)).

(* core/vec.hpp 798-812 and 189-197: view_same between a view and a view or a
   vector.  The overloads are only viable for the same pointer type, so a const view
   compared with a non-const one, or with a vector, always gives false. *)
Definition same_view_view (w u : view) : bool :=
  eqb (w_const w) (w_const u) && parent_eqb (w_parent w) (w_parent u).
Definition same_view_vec (w : view) (k : nat) : bool :=
  negb (w_const w) && parent_eqb (w_parent w) (PVec k).

(* the loops: *data[i] = src[i]  or  *data[i] op src[i], reading the sources as the
   loop runs ... *)
Definition loop_direct (f : A -> A -> A) (st : store) (dst src : list ptr) : outcome store :=
  ofold (fun st '(p, q) =>
    y <- read st p ;; x <- read st q ;; write st p (f y x)) (combine dst src) st.
(* ... or from values saved beforehand *)
Definition loop_values (f : A -> A -> A) (st : store) (dst : list ptr) (vals : list A) : outcome store :=
  ofold (fun st '(p, x) => y <- read st p ;; write st p (f y x)) (combine dst vals) st.
Definition loop_copy (f : A -> A -> A) (st : store) (dst src : list ptr) : outcome store :=
  vals <- omapl (read st) src ;; loop_values f st dst vals.

Definition take_src (_ x : A) : A := x.  (* plain assignment *)

Definition vec_ptrs (st : store) (k : nat) : outcome (list ptr) :=
  v <- oget st k ;; Ok (map (fun i => (k, i)) (seq 0 (v_size v))).

(* core/vec.hpp 752-797: view = view (only the sizes are compared) *)
Definition assign_view_view (st : store) (w u : view) : outcome store :=
  _ <- check (length (w_ptrs w) =? length (w_ptrs u)) ;;
  if same_view_view w u then loop_copy take_src st (w_ptrs w) (w_ptrs u)
  else loop_direct take_src st (w_ptrs w) (w_ptrs u).

(* core/vec.hpp 752-788: view = vector *)
Definition assign_view_vec (st : store) (w : view) (k : nat) : outcome store :=
  src <- vec_ptrs st k ;;
  _ <- check (length (w_ptrs w) =? length src) ;;
  if same_view_vec w k then loop_copy take_src st (w_ptrs w) src
  else loop_direct take_src st (w_ptrs w) src.

(* core/vec.hpp 740-745: view = scalar; the scalar is a reference, possibly to an
   element of the vector *)
Definition assign_view_scalar (st : store) (w : view) (q : ptr) : outcome store :=
  ofold (fun st p => x <- read st q ;; write st p x) (w_ptrs w) st.

(* core/vec.hpp 153-187: vector = view.  data.resize() happens before the copy; when
   the vector grows its elements may move, which leaves the pointers dangling (UB
   if such a pointer is read). *)
Definition assign_vec_view (st : store) (k : nat) (u : view) : outcome store :=
  v <- oget st k ;;
  if same_view_vec u k then
    vals <- omapl (read st) (w_ptrs u) ;;
    oset st k (mk_vec (w_dims u) vals)
  else
    let n := length (w_ptrs u) in
    if (v_size v <? n) && existsb (fun p => fst p =? k) (w_ptrs u) then UB
    else
      st1 <- oset st k (mk_vec (w_dims u) (firstn n (v_data v) ++ repeat dflt (n - v_size v))) ;;
      loop_direct take_src st1 (map (fun i => (k, i)) (seq 0 n)) (w_ptrs u).

Definition dims_eqb (a b : list nat) : bool :=
  if list_eq_dec Nat.eq_dec a b then true else false.

(* core/vec.hpp 1116-1136: view op= view *)
Definition op_view_view (f : A -> A -> A) (st : store) (w u : view) : outcome store :=
  _ <- check (dims_eqb (w_dims w) (w_dims u)) ;;
  if same_view_view u w then loop_copy f st (w_ptrs w) (w_ptrs u)
  else loop_direct f st (w_ptrs w) (w_ptrs u).

(* core/vec.hpp 1116-1136: view op= vector *)
Definition op_view_vec (f : A -> A -> A) (st : store) (w : view) (k : nat) : outcome store :=
  v <- oget st k ;;
  _ <- check (dims_eqb (w_dims w) (v_dims v)) ;;
  src <- vec_ptrs st k ;;
  if same_view_vec w k then loop_copy f st (w_ptrs w) src
  else loop_direct f st (w_ptrs w) src.

(* core/vec.hpp 1138-1144: view op= scalar, taken by value *)
Definition op_view_scalar (f : A -> A -> A) (st : store) (w : view) (x : A) : outcome store :=
  ofold (fun st p => y <- read st p ;; write st p (f y x)) (w_ptrs w) st.

(* core/vec.hpp 568-588: vector op= view *)
Definition op_vec_view (f : A -> A -> A) (st : store) (k : nat) (u : view) : outcome store :=
  v <- oget st k ;;
  _ <- check (dims_eqb (v_dims v) (w_dims u)) ;;
  dst <- vec_ptrs st k ;;
  if same_view_vec u k then loop_copy f st dst (w_ptrs u)
  else loop_direct f st dst (w_ptrs u).

(* core/vec.hpp 568-588: vector op= vector (view_same is always false) *)
Definition op_vec_vec (f : A -> A -> A) (st : store) (k j : nat) : outcome store :=
  v <- oget st k ;; u <- oget st j ;;
  _ <- check (dims_eqb (v_dims v) (v_dims u)) ;;
  dst <- vec_ptrs st k ;; src <- vec_ptrs st j ;;
  loop_direct f st dst src.

(* core/vec.hpp 589-597: vector op= scalar, taken by reference.  [SVal x] is a
   scalar stored elsewhere, [SElem q] a reference to an element *)
Inductive sref := SVal (x : A) | SElem (q : ptr).
Definition op_vec_scalar (f : A -> A -> A) (st : store) (k : nat) (s : sref) : outcome store :=
  dst <- vec_ptrs st k ;;
  ofold (fun st p =>
    y <- read st p ;;
    x <- match s with SVal x => Ok x | SElem q => read st q end ;;
    write st p (f y x)) dst st.

End View.
Arguments store A : clear implicits.
Arguments sref A : clear implicits.
