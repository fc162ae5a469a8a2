(* Element-wise operators, printing and vectorization of functions.
   Sources: include/vif/core/bits/operators.hpp, include/vif/core/bits/vectorize.hpp,
   include/vif/core/vec.hpp 546-566, include/vif/core/bits/helpers.hpp 296-357.
   Simplifications: the overload is chosen by the caller (the C++ overload set is
   resolved at compile time); the scalar operator is a function returning an outcome
   (integer division by zero or signed overflow is UB); reserve() has no effect. *)
From Verif Require Import Base IndexModel VecModel ViewModel.
From Coq Require Import String.

(* an argument vec<Dim,T>: vector k of the store, or a view *)
Inductive opnd := OVec (k : nat) | OView (w : view).

Section Operand.
Context {A : Type}.

Definition o_dims (st : store A) (o : opnd) : outcome (list nat) :=
  match o with
  | OVec k => v <- oget st k ;; Ok (v_dims v)
  | OView w => Ok (w_dims w)
  end.
Definition o_size (st : store A) (o : opnd) : outcome nat :=
  match o with
  | OVec k => v <- oget st k ;; Ok (v_size v)
  | OView w => Ok (List.length (w_ptrs w))
  end.
(* operators.hpp 65-73, get_element_: v.safe[i] *)
Definition o_get (st : store A) (o : opnd) (i : nat) : outcome A :=
  match o with
  | OVec k => read st (k, i)
  | OView w => p <- oget (w_ptrs w) i ;; read st p
  end.
(* a scalar argument const U& u *)
Definition s_get (st : store A) (s : sref A) : outcome A :=
  match s with SVal x => Ok x | SElem q => read st q end.
End Operand.

Section Arith.
Context {A B C : Type}.

(* the loop  for (i : range(v)) tv.data.push_back(...)  *)
Definition build (n : nat) (e : nat -> outcome C) : outcome (list C) :=
  ofold (fun tv i => y <- e i ;; Ok (tv ++ [y])) (seq 0 n) [].

(* operators.hpp 77-86: vec op vec *)
Definition bin_vv (f : A -> B -> outcome C) (sa : store A) (v : opnd) (sb : store B) (u : opnd) : outcome (vec C) :=
  dv <- o_dims sa v ;; du <- o_dims sb u ;;
  _ <- check (dims_eqb dv du) ;;
  n <- o_size sa v ;;
  d <- build n (fun i => x <- o_get sa v i ;; y <- o_get sb u i ;; f x y) ;;
  Ok (mk_vec dv d).

(* operators.hpp 87-95: vec op scalar *)
Definition bin_vs (f : A -> B -> outcome C) (sa : store A) (v : opnd) (sb : store B) (u : sref B) : outcome (vec C) :=
  dv <- o_dims sa v ;; n <- o_size sa v ;;
  d <- build n (fun i => x <- o_get sa v i ;; y <- s_get sb u ;; f x y) ;;
  Ok (mk_vec dv d).

(* operators.hpp 115-122: scalar op vec *)
Definition bin_sv (f : A -> B -> outcome C) (sa : store A) (u : sref A) (sb : store B) (v : opnd) : outcome (vec C) :=
  dv <- o_dims sb v ;; n <- o_size sb v ;;
  d <- build n (fun i => x <- s_get sa u ;; y <- o_get sb v i ;; f x y) ;;
  Ok (mk_vec dv d).

End Arith.

(* the C++ operators on int_t (64-bit signed) elements: overflow and division by zero
   are undefined *)
Definition i_add (x y : Z) : outcome Z := signed64 (x + y).
Definition i_sub (x y : Z) : outcome Z := signed64 (x - y).
Definition i_mul (x y : Z) : outcome Z := signed64 (x * y).
Definition i_div (x y : Z) : outcome Z := if (y =? 0)%Z then UB else signed64 (Z.quot x y).
Definition i_mod (x y : Z) : outcome Z :=
  if (y =? 0)%Z then UB else _ <- signed64 (Z.quot x y) ;; Ok (Z.rem x y).

(* The overloads taking a vec<Dim,T>&&: vector k of the store is overwritten, then
   moved out (core/vec.hpp 91-95).  [get] reads the other operand from the current
   store. *)
Section InPlace.
Context {A B : Type}.

Definition ip_loop (g : A -> B -> outcome A) (get : store A -> nat -> outcome B) (st : store A) (k n : nat) : outcome (store A) :=
  ofold (fun st i =>
    y <- read st (k, i) ;; x <- get st i ;; z <- g y x ;; write st (k, i) z) (seq 0 n) st.

Definition move_out (st : store A) (k : nat) : outcome (store A * vec A) :=
  v <- oget st k ;;
  let '(r, old) := vec_move_ctor v in
  st <- oset st k old ;; Ok (st, r).

(* operators.hpp 96-105: vec&& op vec *)
Definition ip_vv (f : A -> B -> outcome A) (st : store A) (k : nat) (du : list nat) (get : store A -> nat -> outcome B)
  : outcome (store A * vec A) :=
  v <- oget st k ;;
  _ <- check (dims_eqb (v_dims v) du) ;;
  st <- ip_loop f get st k (v_size v) ;;
  move_out st k.

(* operators.hpp 106-114: vec&& op scalar *)
Definition ip_vs (f : A -> B -> outcome A) (st : store A) (k : nat) (get : store A -> outcome B)
  : outcome (store A * vec A) :=
  v <- oget st k ;;
  st <- ip_loop f (fun st _ => get st) st k (v_size v) ;;
  move_out st k.

(* operators.hpp 123-132: vec op vec&& *)
Definition ip_uv (f : B -> A -> outcome A) (st : store A) (du : list nat) (get : store A -> nat -> outcome B) (k : nat)
  : outcome (store A * vec A) :=
  v <- oget st k ;;
  _ <- check (dims_eqb (v_dims v) du) ;;
  st <- ip_loop (fun y x => f x y) get st k (v_size v) ;;
  move_out st k.

(* operators.hpp 133-142: scalar op vec&& *)
Definition ip_sv (f : B -> A -> outcome A) (st : store A) (get : store A -> outcome B) (k : nat)
  : outcome (store A * vec A) :=
  v <- oget st k ;;
  st <- ip_loop (fun y x => f x y) (fun st _ => get st) st k (v_size v) ;;
  move_out st k.

End InPlace.

(* operators.hpp 143-153: vec&& op vec&&; only the left operand is reused *)
Definition ip_rr {A B} (f : A -> B -> outcome A) (sa : store A) (k : nat) (sb : store B) (j : nat)
  : outcome (store A * vec A) :=
  u <- oget sb j ;; ip_vv f sa k (v_dims u) (fun _ i => oget (v_data u) i).

Section Logic.
Context {A B : Type}.

(* the loop  for (i : range(v)) tv.safe[i] = ... *)
Definition fill {C} (n : nat) (e : list C -> nat -> outcome C) (tv : list C) : outcome (list C) :=
  ofold (fun tv i => y <- e tv i ;; oset tv i y) (seq 0 n) tv.

(* operators.hpp 182-191: comparison of two vectors *)
Definition cmp_vv (r : A -> B -> bool) (sa : store A) (v : opnd) (sb : store B) (u : opnd) : outcome (vec bool) :=
  dv <- o_dims sa v ;; du <- o_dims sb u ;;
  _ <- check (dims_eqb dv du) ;;
  tv <- vec_ctor false dv ;;
  n <- o_size sa v ;;
  d <- fill n (fun _ i => x <- o_get sa v i ;; y <- o_get sb u i ;; Ok (r x y)) (v_data tv) ;;
  Ok (mk_vec (v_dims tv) d).

(* operators.hpp 163-171 *)
Definition cmp_vs (r : A -> B -> bool) (sa : store A) (v : opnd) (sb : store B) (u : sref B) : outcome (vec bool) :=
  dv <- o_dims sa v ;;
  tv <- vec_ctor false dv ;;
  n <- o_size sa v ;;
  d <- fill n (fun _ i => x <- o_get sa v i ;; y <- s_get sb u ;; Ok (r x y)) (v_data tv) ;;
  Ok (mk_vec (v_dims tv) d).

(* operators.hpp 173-180 *)
Definition cmp_sv (r : A -> B -> bool) (sa : store A) (u : sref A) (sb : store B) (v : opnd) : outcome (vec bool) :=
  dv <- o_dims sb v ;;
  tv <- vec_ctor false dv ;;
  n <- o_size sb v ;;
  d <- fill n (fun _ i => x <- s_get sa u ;; y <- o_get sb v i ;; Ok (r x y)) (v_data tv) ;;
  Ok (mk_vec (v_dims tv) d).
End Logic.

(* vec<Dim,T> tv = v: core/vec.hpp 86-90 and 117-124 *)
Definition copy_of {A} (st : store A) (o : opnd) : outcome (vec A) :=
  d <- o_dims st o ;; n <- o_size st o ;;
  l <- build n (o_get st o) ;; Ok (mk_vec d l).

(* operators.hpp 208-218: op is && or ||; neither short-circuits across elements *)
Definition log_vv (g : bool -> bool -> bool) (st : store bool) (v1 v2 : opnd) : outcome (vec bool) :=
  d1 <- o_dims st v1 ;; d2 <- o_dims st v2 ;;
  _ <- check (dims_eqb d1 d2) ;;
  tv <- copy_of st v1 ;;
  n <- o_size st v1 ;;
  d <- fill n (fun tv i => x <- oget tv i ;; y <- o_get st v2 i ;; Ok (g x y)) (v_data tv) ;;
  Ok (mk_vec (v_dims tv) d).

(* operators.hpp 248-256 *)
Definition log_vs (g : bool -> bool -> bool) (st : store bool) (v1 : opnd) (b : bool) : outcome (vec bool) :=
  tv <- copy_of st v1 ;;
  n <- o_size st v1 ;;
  d <- fill n (fun tv i => x <- oget tv i ;; Ok (g x b)) (v_data tv) ;;
  Ok (mk_vec (v_dims tv) d).

(* operators.hpp 257-265 *)
Definition log_sv (g : bool -> bool -> bool) (st : store bool) (b : bool) (v2 : opnd) : outcome (vec bool) :=
  tv <- copy_of st v2 ;;
  n <- o_size st v2 ;;
  d <- fill n (fun tv i => x <- oget tv i ;; Ok (g b x)) (v_data tv) ;;
  Ok (mk_vec (v_dims tv) d).

(* operators.hpp 219-247, 266-279: the overloads reusing a temporary *)
Definition olog (g : bool -> bool -> bool) (x y : bool) : outcome bool := Ok (g x y).
Definition ip_log_rv (g : bool -> bool -> bool) (st : store bool) (k : nat) (v2 : opnd) : outcome (store bool * vec bool) :=
  d2 <- o_dims st v2 ;; ip_vv (olog g) st k d2 (fun st i => o_get st v2 i).
Definition ip_log_vr (g : bool -> bool -> bool) (st : store bool) (v1 : opnd) (k : nat) : outcome (store bool * vec bool) :=
  d1 <- o_dims st v1 ;; ip_uv (olog g) st d1 (fun st i => o_get st v1 i) k.
Definition ip_log_rs (g : bool -> bool -> bool) (st : store bool) (k : nat) (b : bool) : outcome (store bool * vec bool) :=
  ip_vs (olog g) st k (fun _ => Ok b).
Definition ip_log_sr (g : bool -> bool -> bool) (st : store bool) (b : bool) (k : nat) : outcome (store bool * vec bool) :=
  ip_sv (olog g) st (fun _ => Ok b) k.

(* operators.hpp 287-296: !v, and core/vec.hpp 559-566, 1107-1114: -v *)
Definition un_op {A} (f : A -> outcome A) (st : store A) (v : opnd) : outcome (vec A) :=
  tv <- copy_of st v ;;
  d <- fill (v_size tv) (fun tv i => x <- oget tv i ;; f x) (v_data tv) ;;
  Ok (mk_vec (v_dims tv) d).

(* operators.hpp 298-305: !v for a temporary *)
Definition ip_not (st : store bool) (k : nat) : outcome (store bool * vec bool) :=
  ip_vs (fun x (_ : unit) => Ok (negb x)) st k (fun _ => Ok tt).

(* operators.hpp 307-331: o << v.  The stream is the text written so far, [show] the
   output of one element. *)
Definition print {A} (show : A -> string) (st : store A) (v : opnd) (o : string) : outcome string :=
  n <- o_size st v ;;
  o <- ofold (fun o i =>
    let o := if i =? 0 then o else append o ", " in
    x <- o_get st v i ;; Ok (append o (show x))) (seq 0 n) (append o "{") ;;
  Ok (append o "}").

(* ---- vectorize.hpp -------------------------------------------------------- *)

Section Vectorize.
Context {A B C : Type}.

(* vectorize.hpp 10-19, VIF_VECTORIZE (and VIF_VECTORIZE_REN 116-125):
   name(vec, arg).  [arg] is a reference. *)
Definition vz1 (f : A -> B -> outcome C) (sa : store A) (v : opnd) (sb : store B) (arg : sref B) : outcome (vec C) :=
  d <- o_dims sa v ;; n <- o_size sa v ;;
  l <- build n (fun i => x <- o_get sa v i ;; y <- s_get sb arg ;; f x y) ;;
  Ok (mk_vec d l).

(* vectorize.hpp 31-43: VIF_VECTORIZE2, two vectors *)
Definition vz2_vv (f : A -> B -> outcome C) (sa : store A) (v1 : opnd) (sb : store B) (v2 : opnd) : outcome (vec C) :=
  d1 <- o_dims sa v1 ;; d2 <- o_dims sb v2 ;;
  _ <- check (dims_eqb d1 d2) ;;
  n <- o_size sa v1 ;;
  l <- build n (fun i => x <- o_get sa v1 i ;; y <- o_get sb v2 i ;; f x y) ;;
  Ok (mk_vec d1 l).

(* vectorize.hpp 77-86: scalar (by value) and vector *)
Definition vz2_sv (f : A -> B -> outcome C) (x : A) (sb : store B) (v2 : opnd) : outcome (vec C) :=
  d <- o_dims sb v2 ;; n <- o_size sb v2 ;;
  l <- build n (fun i => y <- o_get sb v2 i ;; f x y) ;;
  Ok (mk_vec d l).

(* vectorize.hpp 87-96: vector and scalar (by value) *)
Definition vz2_vs (f : A -> B -> outcome C) (sa : store A) (v1 : opnd) (y : B) : outcome (vec C) :=
  d <- o_dims sa v1 ;; n <- o_size sa v1 ;;
  l <- build n (fun i => x <- o_get sa v1 i ;; f x y) ;;
  Ok (mk_vec d l).

(* vectorize.hpp 20-29, 126-134: name(vec&&, arg) *)
Definition vz1_r (f : A -> B -> outcome A) (st : store A) (k : nat) (get : store A -> outcome B)
  : outcome (store A * vec A) :=
  v <- oget st k ;;
  st <- ip_loop f (fun st _ => get st) st k (v_size v) ;;
  move_out st k.

(* "return v1" where v1 is a named rvalue reference: a copy, v1 keeps the values *)
Definition copy_out (st : store A) (k : nat) : outcome (store A * vec A) :=
  v <- oget st k ;; Ok (st, v).

(* vectorize.hpp 44-54 (and 66-76, both temporaries) *)
Definition vz2_rv (f : A -> B -> outcome A) (st : store A) (k : nat) (d2 : list nat) (get : store A -> nat -> outcome B)
  : outcome (store A * vec A) :=
  v <- oget st k ;;
  _ <- check (dims_eqb (v_dims v) d2) ;;
  st <- ip_loop f get st k (v_size v) ;;
  copy_out st k.

(* vectorize.hpp 55-65: the loop runs over v1, of n elements *)
Definition vz2_vr (f : B -> A -> outcome A) (st : store A) (d1 : list nat) (n : nat) (get : store A -> nat -> outcome B) (k : nat)
  : outcome (store A * vec A) :=
  v <- oget st k ;;
  _ <- check (dims_eqb d1 (v_dims v)) ;;
  st <- ip_loop (fun y x => f x y) get st k n ;;
  copy_out st k.

(* vectorize.hpp 97-105 and 106-114 *)
Definition vz2_sr (f : B -> A -> outcome A) (st : store A) (x : B) (k : nat) : outcome (store A * vec A) :=
  v <- oget st k ;;
  st <- ip_loop (fun y x => f x y) (fun _ _ => Ok x) st k (v_size v) ;;
  copy_out st k.
Definition vz2_rs (f : A -> B -> outcome A) (st : store A) (k : nat) (x : B) : outcome (store A * vec A) :=
  v <- oget st k ;;
  st <- ip_loop f (fun _ _ => Ok x) st k (v_size v) ;;
  copy_out st k.

(* vectorize.hpp 142-180, vectorized_lambda_first_t with one more argument.  The
   argument is forwarded at each call; [steal]: it is a temporary and the lambda
   takes it by value, which leaves [gone] behind. *)
Definition vlf (lam : A -> B -> outcome C) (cdflt : C) (steal : bool) (gone : B)
  (sa : store A) (t : opnd) (arg : B) : outcome (vec C) :=
  d <- o_dims sa t ;;
  ret <- vec_ctor cdflt d ;;
  n <- o_size sa t ;;
  '(l, _) <- ofold (fun '(l, arg) i =>
    x <- o_get sa t i ;; y <- lam x arg ;; l <- oset l i y ;;
    Ok (l, if steal then gone else arg)) (seq 0 n) (v_data ret, arg) ;;
  Ok (mk_vec (v_dims ret) l).
End Vectorize.

Section Lambda.
Context {A C S : Type}.

(* an argument of a vectorized lambda *)
Inductive larg := LScalar (s : sref A) | LVec (o : opnd).

(* what the lambda receives: a reference to a scalar or to an element *)
Definition get_ref (st : store A) (i : nat) (a : larg) : outcome (sref A) :=
  match a with
  | LScalar s => Ok s
  | LVec (OVec k) => _ <- read st (k, i) ;; Ok (SElem (k, i))
  | LVec (OView w) => p <- oget (w_ptrs w) i ;; _ <- read st p ;; Ok (SElem p)
  end.

(* vectorize.hpp 206-219, lambda_check_dims over all the arguments.  The order of
   evaluation of function arguments is not specified; left to right here. *)
Definition lambda_dims (st : store A) (args : list larg) : outcome (option (list nat)) :=
  ofold (fun acc a =>
    match a with
    | LScalar _ => Ok acc
    | LVec o =>
        d <- o_dims st o ;;
        match acc with
        | None => Ok (Some d)
        | Some d0 => _ <- check (dims_eqb d0 d) ;; Ok acc
        end
    end) args None.

(* common_dim == 0 *)
Definition all_scalar (args : list larg) : bool :=
  forallb (fun a => match a with LScalar _ => true | LVec _ => false end) args.

(* vectorize.hpp 292-309: the lambda returns a value *)
Definition vl_value (lam : list A -> outcome C) (cdflt : C) (st : store A) (args : list larg) : outcome (vec C) :=
  d <- lambda_dims st args ;;
  match d with
  | None => UB (* only called with at least one vector *)
  | Some d =>
      ret <- vec_ctor cdflt d ;;
      l <- fill (v_size ret) (fun _ i =>
             rs <- omapl (get_ref st i) args ;; xs <- omapl (s_get st) rs ;; lam xs) (v_data ret) ;;
      Ok (mk_vec d l)
  end.

(* vectorize.hpp 270-290: the lambda returns nothing; [act] is its effect, given the
   references it receives *)
Definition vl_void (act : list (sref A) -> S -> outcome S) (st : store A) (args : list larg) (s : S) : outcome S :=
  d <- lambda_dims st args ;;
  match d with
  | None => UB
  | Some d =>
      ofold (fun s i => rs <- omapl (get_ref st i) args ;; act rs s) (seq 0 (nwrap (nprod d))) s
  end.

(* vectorize.hpp 257-268: only scalars *)
Definition vl_scalar (lam : list A -> outcome C) (st : store A) (args : list larg) : outcome C :=
  xs <- omapl (fun a => match a with LScalar s => s_get st s | LVec _ => UB end) args ;; lam xs.

(* helpers.hpp 296-312: size and same_size *)
Definition m_size (st : store A) (a : larg) : outcome nat :=
  match a with LScalar _ => Ok 1 | LVec o => o_size st o end.
Fixpoint same_size (st : store A) (a : larg) (l : list larg) : outcome bool :=
  match l with
  | [] => Ok true
  | b :: l =>
      na <- m_size st a ;; nb <- m_size st b ;;
      r <- same_size st a l ;;
      Ok (negb (na =? 0) && negb (nb =? 0) && r)
  end.

(* helpers.hpp 315-357: same_dims_or_scalar *)
Fixpoint sds_size (st : store A) (l : list larg) : outcome nat :=
  match l with
  | [] => Ok 0
  | LVec o :: _ => o_size st o
  | LScalar _ :: l => sds_size st l
  end.
Fixpoint sds_check (st : store A) (n : nat) (l : list larg) : outcome bool :=
  match l with
  | [] => Ok true
  | LVec o :: l => m <- o_size st o ;; if m =? n then sds_check st n l else Ok false
  | LScalar _ :: l => sds_check st n l
  end.
Definition same_dims_or_scalar (st : store A) (l : list larg) : outcome bool :=
  n <- sds_size st l ;;
  if n =? 0 then Ok true else sds_check st n l.
End Lambda.
Arguments larg A : clear implicits.
