(* What an image is for its user: an array, of which parts can be read. *)
From Verif Require Import Base FimgModel.
Open Scope Z_scope.

Definition total (l : list Z) : Z := fold_right Z.mul 1 l.
(* an array that can be in memory *)
Definition proper (v : arr) : Prop :=
  Forall (fun d => 0 <= d) (dims v) /\ total (dims v) < 2 ^ 60 /\ Z.of_nat (length (data v)) = total (dims v).
(* the value z exists in the type *)
Definition exact (t : etype) (z : Z) : Prop :=
  match t with
  | Bool => 0 <= z <= 1
  | Char => -128 <= z <= 127
  | Short => -32768 <= z <= 32767
  | Int => - 2 ^ 63 <= z < 2 ^ 63
  | Uint => 0 <= z < 2 ^ 64
  | Float | Double => True
  end.
(* the same in both types; the unsigned integers from 2^63 on only as such *)
Definition shared (t u : etype) (z : Z) : Prop := exact t z /\ exact u z /\ (t = Uint -> u <> Uint -> z < 2 ^ 63).
(* the type which a file of bytes, of 16-bit integers ... written from the type t can be read as *)
Definition readable (t u : etype) : Prop :=
  match t, u with
  | _, Double => True
  | Double, _ => False
  | _, Float => True
  | Float, _ => False
  | (Bool | Char), _ => True
  | Short, (Short | Int | Uint) => True
  | (Int | Uint), (Int | Uint) => True
  | _, _ => False
  end.
(* positions in row-major order *)
Fixpoint place (ds ids : list Z) : Z :=
  match ds, ids with _ :: ds, i :: ids => i * total ds + place ds ids | _, _ => 0 end.
Definition valid (ds ids : list Z) : Prop := Forall2 (fun d i => 0 <= i < d) ds ids.
Definition at_ (v : arr) (ids : list Z) : option Z := nth_error (data v) (Z.to_nat (place (dims v) ids)).
(* the ends of a range along an axis of n pixels *)
Definition first_of (r : rng) : Z := match r with All | To _ => 0 | From f | FromTo f _ => f | At i => i end.
Definition last_of (n : Z) (r : rng) : Z := match r with All | From _ => n - 1 | To l | FromTo _ l => l | At i => i end.
Definition selects (n : Z) (r : rng) : Prop := 0 <= first_of r /\ first_of r <= last_of n r /\ last_of n r < n.
(* w is the part of v that the ranges select *)
Definition part (v : arr) (args : list rng) (w : arr) : Prop :=
  dims w = map (fun '(n, r) => last_of n r - first_of r + 1) (combine (dims v) args) /\
  Z.of_nat (length (data w)) = total (dims w) /\
  forall ids, valid (dims w) ids -> exists z,
    at_ w ids = Some z /\ at_ v (map (fun '(r, i) => first_of r + i) (combine args ids)) = Some z.
(* the last pixel of the range is given, and is past the end *)
Definition outside (n : Z) (r : rng) : Prop := match r with To l | FromTo _ l => n <= l | At i => n <= i | All | From _ => False end.
