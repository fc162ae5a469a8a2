(* Independent vocabulary for reductions. *)
From Verif Require Import Base VecModel IndexSpec VecSpec OrderModel.
From Coq Require Import QArith Qround.
Local Open Scope nat_scope.

Definition zsum (l : list Z) : Z := fold_right Z.add 0%Z l.
Definition qsum (l : list Q) : Q := fold_right Qplus 0%Q l.

(* the subscripts of a slice: [ids] with j inserted at place dim *)
Definition with_sub (dim j : nat) (ids : list nat) : list nat := firstn dim ids ++ j :: skipn dim ids.
(* the dimensions without dimension dim *)
Definition without_dim (dim : nat) (dims : list nat) : list nat := firstn dim dims ++ skipn (S dim) dims.
(* s is the slice of v along dim at the other subscripts ids, in order *)
Definition is_slice {A} (v : vec A) (dim n : nat) (ids : list nat) (s : list A) : Prop :=
  length s = n /\ forall j, j < n -> nth_error s j = elem v (with_sub dim j ids).

(* x is the element of rank k of v: at most k elements are smaller, and more than k are
   not larger *)
Definition order_stat {A} (lt : A -> A -> bool) (v : list A) (k : nat) (x : A) : Prop :=
  In x v /\ length (filter (fun y => lt y x) v) <= k < length (filter (fun y => negb (lt x y)) v).

(* the numbers among the elements *)
Definition numbers (v : list fnum) : list Z :=
  flat_map (fun x => match x with Num z => [z] | NaN => [] end) v.

(* total weight of the elements with a weight whose value satisfies p *)
Definition weight_of (p : Z -> bool) (v : list fnum) (w : list (option Q)) : Q :=
  qsum (map (fun xw => match xw with (Num z, Some q) => if p z then q else 0%Q | _ => 0%Q end) (combine v w)).

(* position i holds a smallest (largest) number ... *)
Definition smallest_at (v : list fnum) (i : nat) (z : Z) : Prop :=
  nth_error v i = Some (Num z) /\ forall j y, nth_error v j = Some (Num y) -> (z <= y)%Z.
Definition largest_at (v : list fnum) (i : nat) (z : Z) : Prop :=
  nth_error v i = Some (Num z) /\ forall j y, nth_error v j = Some (Num y) -> (y <= z)%Z.
(* ... and no earlier (later) one *)
Definition first_at (v : list fnum) (i : nat) (z : Z) : Prop :=
  forall j, nth_error v j = Some (Num z) -> i <= j.
Definition last_at (v : list fnum) (i : nat) (z : Z) : Prop :=
  forall j, nth_error v j = Some (Num z) -> j <= i.
Definition all_nan (v : list fnum) : Prop := forall x, In x v -> x = NaN.

(* the rank of the percentile u among n numbers *)
Definition rank_of (n : nat) (u : Q) : nat := Nat.min (Z.to_nat (Qfloor (inject_Z (Z.of_nat n) * u))) (n - 1).
