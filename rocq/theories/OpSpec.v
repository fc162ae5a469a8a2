(* What a user expects of element-wise operators and vectorized functions. *)
From Verif Require Import Base IndexModel VecModel VecSpec ViewModel OpModel.
From Coq Require Import String.

(* the vector an operand stands for: a vector of the program, or the elements a view
   points to *)
Fixpoint deref {A} (st : store A) (ps : list ptr) : option (list A) :=
  match ps with
  | [] => Some []
  | (k, i) :: t =>
      match nth_error st k with
      | Some v =>
          match nth_error (v_data v) i, deref st t with
          | Some x, Some r => Some (x :: r)
          | _, _ => None
          end
      | None => None
      end
  end.
Definition value {A} (st : store A) (o : opnd) : option (vec A) :=
  match o with
  | OVec k => nth_error st k
  | OView w => option_map (mk_vec (w_dims w)) (deref st (w_ptrs w))
  end.
Definition svalue {A} (st : store A) (s : sref A) : option A :=
  match s with
  | SVal x => Some x
  | SElem (k, i) => match nth_error st k with Some v => nth_error (v_data v) i | None => None end
  end.

(* as many elements as the dimensions say *)
Definition shaped {A} (v : vec A) : Prop := List.length (v_data v) = nprod (v_dims v).

(* results r of calling f on corresponding elements *)
Definition pointwise {A B C} (f : A -> B -> outcome C) (l1 : list A) (l2 : list B) (r : list C) : Prop :=
  List.length l1 = List.length r /\ List.length l2 = List.length r /\
  forall i a b c, nth_error l1 i = Some a -> nth_error l2 i = Some b -> nth_error r i = Some c ->
    f a b = Ok c.

(* the first call that fails does so with outcome e *)
Definition fails {A B C D} (f : A -> B -> outcome C) (l1 : list A) (l2 : list B) (e : outcome D) : Prop :=
  exists i a b, nth_error l1 i = Some a /\ nth_error l2 i = Some b /\
    (f a b = CheckFail /\ e = CheckFail \/ f a b = UB /\ e = UB \/
     f a b = Throws /\ e = Throws \/ f a b = Diverge /\ e = Diverge) /\
    forall j a' b', j < i -> nth_error l1 j = Some a' -> nth_error l2 j = Some b' -> exists c, f a' b' = Ok c.

(* v op u *)
Definition elementwise {A B C} (f : A -> B -> outcome C) (v : vec A) (u : vec B) (res : outcome (vec C)) : Prop :=
  if list_eq_dec Nat.eq_dec (v_dims v) (v_dims u) then
    (exists r, res = Ok (mk_vec (v_dims v) r) /\ pointwise f (v_data v) (v_data u) r) \/
    fails f (v_data v) (v_data u) res
  else res = CheckFail.

(* a scalar as a vector *)
Definition spread {A B} (v : vec A) (x : B) : vec B := mk_vec (v_dims v) (repeat x (List.length (v_data v))).

(* in the store, vector k was moved from and nothing else changed *)
Definition moved {A} (st : store A) (k : nat) (st' : store A) : Prop :=
  exists v, nth_error st k = Some v /\ st' = upd st k (mk_vec (repeat 0 (List.length (v_dims v))) []).

(* the operand is not a view into vector k *)
Definition apart (k : nat) (o : opnd) : Prop :=
  match o with OVec _ => True | OView w => Forall (fun p => fst p <> k) (w_ptrs w) end.
Definition sapart {A} (k : nat) (s : sref A) : Prop :=
  match s with SVal _ => True | SElem p => fst p <> k end.

(* text between separators *)
Fixpoint joined (l : list string) : string :=
  match l with
  | [] => EmptyString
  | [x] => x
  | x :: t => append x (append ", " (joined t))
  end.

(* the i-th arguments of a vectorized call *)
Definition ith_arg {A} (st : store A) (i : nat) (a : larg A) (x : A) : Prop :=
  match a with
  | LScalar s => svalue st s = Some x
  | LVec o => exists v, value st o = Some v /\ nth_error (v_data v) i = Some x
  end.
(* all vector arguments have dimensions d *)
Definition dims_are {A} (st : store A) (d : list nat) (a : larg A) : Prop :=
  match a with
  | LScalar _ => True
  | LVec o => exists v, value st o = Some v /\ v_dims v = d
  end.
(* every argument exists *)
Definition arg_ok {A} (st : store A) (a : larg A) : Prop :=
  match a with
  | LScalar s => exists x, svalue st s = Some x
  | LVec o => exists v, value st o = Some v /\ wf v
  end.
(* the reference given to the lambda for its i-th call *)
Definition ith_ref {A} (i : nat) (a : larg A) (r : sref A) : Prop :=
  match a with
  | LScalar s => r = s
  | LVec (OVec k) => r = SElem (k, i)
  | LVec (OView w) => exists p, nth_error (w_ptrs w) i = Some p /\ r = SElem p
  end.
