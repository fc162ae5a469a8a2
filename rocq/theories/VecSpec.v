(* What a user expects of vectors.  No reference to the functions of the model. *)
From Verif Require Import Base IndexSpec VecModel IndexModel.
From Coq Require Import NArith.

(* the shape agrees with the number of stored elements, and the storage is one a
   std::vector can hold *)
Definition wf {A} (v : vec A) : Prop :=
  length (v_data v) = nprod (v_dims v) /\ (N.of_nat (length (v_data v)) <= max_elems)%N.

Definition fits (dims : list nat) : Prop := (N.of_nat (nprod dims) < two64N)%N.

(* element of a vector at a multi-index *)
Definition elem {A} (v : vec A) (ids : list nat) : option A :=
  nth_error (v_data v) (row_major (v_dims v) ids).

(* i-th row of a flat array made of rows of [pitch] elements *)
Definition row {A} (pitch : nat) (data : list A) (i : nat) : list A :=
  firstn pitch (skipn (i * pitch) data).

(* the rows whose number is not in ids, in order *)
Definition rows_without {A} (pitch n : nat) (data : list A) (ids : list nat) : list A :=
  concat (map (row pitch data)
    (filter (fun i => negb (existsb (Nat.eqb i) ids)) (seq 0 n))).

(* a nested list in which all lists at depth k have the same length d_k *)
Fixpoint homog {A} (n : nat) (ds : list nat) : nlist A n -> Prop :=
  match n with
  | O => fun _ => ds = []
  | S n' => fun il =>
      match ds with
      | [] => False
      | d :: ds' => length il = d /\ Forall (homog n' ds') il
      end
  end.

(* its elements in reading order *)
Fixpoint flat {A} (n : nat) : nlist A n -> list A :=
  match n with
  | O => fun x => [x]
  | S n' => fun il => concat (map (flat n') il)
  end.

(* Cartesian product of lists of indices, the last one varying fastest *)
Fixpoint cart (ls : list (list nat)) : list (list nat) :=
  match ls with
  | [] => [[]]
  | l :: ls' => flat_map (fun j => map (cons j) (cart ls')) l
  end.

(* the indices a subscript stands for in a dimension of extent d *)
Definition sub_indices (d : nat) (s : sub) : list nat :=
  match s with
  | SScalar i => [i]
  | SIds l => l
  | SRange RFull => seq 0 d
  | SRange (RLeft b) => seq 0 (Z.to_nat (b + 1))
  | SRange (RRight a) => seq (Z.to_nat a) (d - Z.to_nat a)
  | SRange (RLeftRight a b) => seq (Z.to_nat a) (Z.to_nat (b + 1 - a))
  end.

(* a subscript that is valid in a dimension of extent d *)
Definition sub_valid (d : nat) (s : sub) : Prop :=
  (Z.of_nat d <= max_ptrs)%Z /\
  match s with
  | SScalar i => i < d
  | SIds l => Forall (fun i => i < d) l
  | SRange RFull => True
  | SRange (RLeft b) => (0 <= b < Z.of_nat d)%Z
  | SRange (RRight a) => (0 <= a < Z.of_nat d)%Z
  | SRange (RLeftRight a b) => (0 <= a < Z.of_nat d)%Z /\ (0 <= b < Z.of_nat d)%Z /\ (a <= b + 1)%Z
  end.

(* a subscript with a bound or an index outside the dimension *)
Definition sub_outside (d : nat) (s : sub) : Prop :=
  match s with
  | SScalar i => d <= i
  | SIds l => Exists (fun i => d <= i) l
  | SRange RFull => False
  | SRange (RLeft b) => (Z.of_nat d <= b)%Z
  | SRange (RRight a) => (Z.of_nat d <= a)%Z
  | SRange (RLeftRight a b) => (Z.of_nat d <= a \/ Z.of_nat d <= b)%Z
  end.

(* lengths met when following the first elements of a nested list *)
Fixpoint first_shape {A} (n : nat) : nlist A n -> list nat :=
  match n with
  | O => fun _ => []
  | S n' => fun il =>
      match il with
      | [] => [0]
      | x :: _ => length il :: first_shape n' x
      end
  end.

(* every vector has at least one dimension (a template parameter of the class) *)
Definition good {A} (v : vec A) : Prop := wf v /\ v_dims v <> [].

(* operations for which the invariant is claimed: requested shapes whose number of
   elements is below 2^64, distinct indices for removal, no move assignment *)
Definition op_safe {A} (o : vop A) : Prop :=
  match o with
  | OpCtor _ dims | OpResize _ dims | OpReform _ _ dims => fits dims /\ dims <> []
  | OpIlist _ n il =>
      0 < n /\ fits (first_shape n il)
  | OpMoveAssign _ _ => False
  | OpRemove _ ids => NoDup ids
  | _ => True
  end.

(* a subscript that stands for at least one index *)
Definition sub_nonempty (d : nat) (s : sub) : Prop :=
  match s with
  | SIds l => l <> []
  | SRange RFull => 0 < d
  | SRange (RLeftRight a b) => a <> (b + 1)%Z
  | _ => True
  end.

(* subscripts are 64-bit unsigned numbers *)
Definition sub_u64 (s : sub) : Prop :=
  match s with
  | SRange (RLeft b) => is_u64 b
  | SRange (RRight a) => is_u64 a
  | SRange (RLeftRight a b) => is_u64 a /\ is_u64 b
  | _ => True
  end.

(* lists of indices selected in each dimension, and extents of the selection *)
Fixpoint selection (dims : list nat) (subs : list sub) : list (list nat) :=
  match dims, subs with
  | d :: ds, s :: ss => sub_indices d s :: selection ds ss
  | _, _ => []
  end.
Fixpoint sel_extents (dims : list nat) (subs : list sub) : list nat :=
  match dims, subs with
  | d :: ds, SScalar _ :: ss => sel_extents ds ss
  | d :: ds, s :: ss => length (sub_indices d s) :: sel_extents ds ss
  | _, _ => []
  end.
