(* Independent vocabulary for searching and sorting. *)
From Verif Require Import Base.
From Coq Require Export Permutation.

(* lt is a strict weak order: what C++ requires of a comparator *)
Definition weak_order {A} (lt : A -> A -> bool) : Prop :=
  (forall x y, lt x y = true -> lt y x = false) /\
  (forall x y z, lt x z = true -> lt x y = true \/ lt y z = true).

(* neither is smaller *)
Definition equiv {A} (lt : A -> A -> bool) (x y : A) : Prop := lt x y = false /\ lt y x = false.

(* every pair of positions is in relation R *)
Definition ordered {A} (R : A -> A -> Prop) (l : list A) : Prop :=
  forall i j x y, i < j -> nth_error l i = Some x -> nth_error l j = Some y -> R x y.
(* non-decreasing, strictly increasing *)
Definition ascending {A} (lt : A -> A -> bool) : list A -> Prop := ordered (fun x y => lt y x = false).
Definition strictly_ascending {A} (lt : A -> A -> bool) : list A -> Prop := ordered (fun x y => lt x y = true).

(* != compares the elements of l like lt does (true unless some are NaN) *)
Definition differs {A} (lt ne : A -> A -> bool) (l : list A) : Prop :=
  forall x y, In x l -> In y l -> ne x y = lt x y || lt y x.

(* r is a stable sorting permutation of the positions of v: the contract of
   std::stable_sort applied to 0,1,...,n-1 *)
Definition stable_sorting {A} (lt : A -> A -> bool) (v : list A) (r : list nat) : Prop :=
  Permutation r (seq 0 (length v)) /\
  forall p q i j x y, p < q -> nth_error r p = Some i -> nth_error r q = Some j ->
    nth_error v i = Some x -> nth_error v j = Some y ->
    lt y x = false /\ (equiv lt x y -> i < j).

(* number of elements equivalent to x *)
Definition count_equiv {A} (lt : A -> A -> bool) (x : A) (l : list A) : nat :=
  length (filter (fun y => negb (lt x y) && negb (lt y x)) l).

(* all elements different *)
Definition all_different {A} (lt : A -> A -> bool) : list A -> Prop := ordered (fun x y => ~ equiv lt x y).

(* o is the last position whose element is not above x, None if there is none *)
Definition last_le {A} (lt : A -> A -> bool) (v : list A) (x : A) (o : option nat) : Prop :=
  match o with
  | None => forall i y, nth_error v i = Some y -> lt x y = true
  | Some k => (exists y, nth_error v k = Some y /\ lt x y = false) /\
              forall i y, k < i -> nth_error v i = Some y -> lt x y = true
  end.
(* o is the first position whose element is above x, None if there is none *)
Definition first_gt {A} (lt : A -> A -> bool) (v : list A) (x : A) (o : option nat) : Prop :=
  match o with
  | None => forall i y, nth_error v i = Some y -> lt x y = false
  | Some k => (exists y, nth_error v k = Some y /\ lt x y = true) /\
              forall i y, i < k -> nth_error v i = Some y -> lt x y = false
  end.

(* r points to every distinct value of v once, in increasing order of value ... *)
Definition unique_result {A} (lt : A -> A -> bool) (v : list A) (r : list nat) : Prop :=
  exists vals, map (nth_error v) r = map Some vals /\ strictly_ascending lt vals /\
    (forall x, In x v -> exists y, In y vals /\ equiv lt y x) /\
    (forall y, In y vals -> In y v).
(* ... and to its first occurrence *)
Definition unique_first {A} (lt : A -> A -> bool) (v : list A) (r : list nat) : Prop :=
  forall i j x y, In i r -> nth_error v i = Some x -> nth_error v j = Some y -> equiv lt x y -> i <= j.

(* the operators < and == of the type agree with lt on the elements of l *)
Definition compares {A} (lt rlt eq : A -> A -> bool) (l : list A) : Prop :=
  forall x y, In x l -> In y l -> rlt x y = lt x y /\ eq x y = negb (lt x y || lt y x).
