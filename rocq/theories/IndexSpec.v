(* What a user expects of ranges, subscripts and index conversion.  Independent of
   the model: only lists of numbers. *)
From Verif Require Import Base.

(* l enumerates b, b+1, ..., b+n-1 *)
Definition enumerates_up (b n : Z) (l : list Z) : Prop :=
  Z.of_nat (length l) = n /\
  forall k, k < length l -> nth_error l k = Some (b + Z.of_nat k)%Z.

(* l enumerates b, b-1, ..., b-n+1 *)
Definition enumerates_down (b n : Z) (l : list Z) : Prop :=
  Z.of_nat (length l) = n /\
  forall k, k < length l -> nth_error l k = Some (b - Z.of_nat k)%Z.

(* Python-style subscript: negative subscripts count from the end (modulo the
   length), anything at or past the end is an error, and an empty container has no
   valid subscript. *)
Definition python_index (n i : Z) : outcome Z :=
  if (n <=? 0)%Z then CheckFail
  else if (i <? 0)%Z then Ok (i mod n)%Z
  else if (i <? n)%Z then Ok i
  else CheckFail.

(* every component is below its dimension *)
Definition in_range (dims ids : list nat) : Prop := Forall2 (fun d i => i < d) dims ids.

(* row-major position, written as nested Horner evaluation:
   ((i1*d2 + i2)*d3 + i3)... *)
Fixpoint horner (acc : nat) (dims ids : list nat) : nat :=
  match dims, ids with
  | d :: ds, i :: is => horner (acc * d + i) ds is
  | _, _ => acc
  end.
Definition row_major (dims ids : list nat) : nat := horner 0 dims ids.
