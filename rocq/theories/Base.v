(* Shared vocabulary of the model: outcomes of C++ calls, 64-bit wrap-around and
   a few list helpers.  Nothing in this file models library code by itself. *)
From Coq Require Export List Arith ZArith Lia Bool.
From Coq Require Import ZifyBool.
Export ListNotations.

(* Outcome of a C++ call.
   [Ok x]      : returns normally with x
   [CheckFail] : a vif_check failed; the program prints a message and exits
                 (core/error.hpp 318-335)
   [UB]        : undefined behaviour (access outside an object, division by 0,
                 signed overflow, use of freed memory ...)
   [Throws]    : a C++ exception leaves the call (std::length_error,
                 std::out_of_range ...)
   [Diverge]   : the call never returns (or, in fuelled definitions, the fuel ran
                 out; theorems exclude or decide that case) *)
Inductive outcome (A : Type) : Type :=
| Ok (a : A)
| CheckFail
| UB
| Throws
| Diverge.
Arguments Ok {A} a.
Arguments CheckFail {A}.
Arguments UB {A}.
Arguments Throws {A}.
Arguments Diverge {A}.

Definition obind {A B} (x : outcome A) (f : A -> outcome B) : outcome B :=
  match x with
  | Ok a => f a
  | CheckFail => CheckFail
  | UB => UB
  | Throws => Throws
  | Diverge => Diverge
  end.

Definition omap {A B} (f : A -> B) (x : outcome A) : outcome B :=
  obind x (fun a => Ok (f a)).

Notation "x <- e ;; f" := (obind e (fun x => f))
  (at level 61, e at next level, right associativity).
Notation "' p <- e ;; f" := (obind e (fun p => f))
  (at level 61, p pattern, e at next level, right associativity).

(* vif_check(c, ...) *)
Definition check (c : bool) : outcome unit := if c then Ok tt else CheckFail.

(* Read a[i] through an unchecked subscript: outside the storage it is UB. *)
Definition oget {A} (l : list A) (i : nat) : outcome A :=
  match nth_error l i with Some x => Ok x | None => UB end.

(* Write a[i] = x through an unchecked subscript. *)
Fixpoint upd {A} (l : list A) (i : nat) (x : A) : list A :=
  match l, i with
  | [], _ => []
  | _ :: t, O => x :: t
  | h :: t, S i' => h :: upd t i' x
  end.

Definition oset {A} (l : list A) (i : nat) (x : A) : outcome (list A) :=
  if i <? length l then Ok (upd l i x) else UB.

(* A sequence of effects over a list of items. *)
Fixpoint ofold {A S} (f : S -> A -> outcome S) (l : list A) (s : S) : outcome S :=
  match l with
  | [] => Ok s
  | x :: t => s' <- f s x ;; ofold f t s'
  end.

Fixpoint omapl {A B} (f : A -> outcome B) (l : list A) : outcome (list B) :=
  match l with
  | [] => Ok []
  | x :: t => y <- f x ;; r <- omapl f t ;; Ok (y :: r)
  end.

(* Unsigned 64-bit arithmetic (uint_t = size_t) and its signed twin. *)
Definition two64 : Z := 18446744073709551616%Z.
Definition two63 : Z := 9223372036854775808%Z.
Definition wrap64 (x : Z) : Z := (x mod two64)%Z.
(* static_cast<int64_t>(x) of an unsigned 64-bit value *)
Definition to_signed64 (x : Z) : Z := if (x <? two63)%Z then x else (x - two64)%Z.
(* the result of a signed 64-bit operation: UB when it overflows *)
Definition signed64 (x : Z) : outcome Z :=
  if ((- two63 <=? x) && (x <? two63))%Z%bool then Ok x else UB.
Definition is_u64 (x : Z) : Prop := (0 <= x < two64)%Z.
Definition npos : Z := (two64 - 1)%Z.

(* Product of a list of dimensions. *)
Definition nprod (l : list nat) : nat := fold_right Nat.mul 1 l.
Arguments nprod : simpl never.
Definition nsum (l : list nat) : nat := fold_right Nat.add 0 l.

(* --- generic lemmas ------------------------------------------------------- *)

Lemma upd_length A (l : list A) i x : length (upd l i x) = length l.
Proof. revert i; induction l as [|h t IH]; intros [|i]; simpl; auto. Qed.

Lemma nth_error_upd A (l : list A) i x j :
  nth_error (upd l i x) j =
  if (j =? i) && (i <? length l) then Some x else nth_error l j.
Proof.
  revert i j; induction l as [|h t IH]; intros i j.
  - destruct i, j; simpl; try reflexivity; rewrite ?andb_false_r; reflexivity.
  - destruct i as [|i], j as [|j]; simpl; try reflexivity. apply IH.
Qed.

Lemma nth_error_upd_same A (l : list A) i x :
  i < length l -> nth_error (upd l i x) i = Some x.
Proof.
  intros H. rewrite nth_error_upd, Nat.eqb_refl. simpl.
  destruct (Nat.ltb_spec i (length l)); [reflexivity | lia].
Qed.

Lemma nth_error_upd_other A (l : list A) i x j :
  j <> i -> nth_error (upd l i x) j = nth_error l j.
Proof.
  intros H. rewrite nth_error_upd. destruct (Nat.eqb_spec j i); [contradiction | reflexivity].
Qed.

Lemma list_eq_nth_error A (l1 l2 : list A) :
  (forall i, nth_error l1 i = nth_error l2 i) -> l1 = l2.
Proof.
  revert l2; induction l1 as [|a l1 IH]; intros [|b l2] H; auto.
  - specialize (H 0); discriminate.
  - specialize (H 0); discriminate.
  - f_equal.
    + specialize (H 0); simpl in H; congruence.
    + apply IH; intros i; apply (H (S i)).
Qed.

Lemma nth_error_seq n i start :
  nth_error (seq start n) i = if i <? n then Some (start + i) else None.
Proof.
  revert i start; induction n as [|n IH]; intros [|i] start; simpl; auto.
  rewrite IH. change (S i <? S n) with (i <? n).
  destruct (i <? n); f_equal; lia.
Qed.

Lemma nprod_app a b : nprod (a ++ b) = nprod a * nprod b.
Proof. unfold nprod; induction a as [|x a IH]; simpl; [lia | rewrite IH; lia]. Qed.

Lemma nprod_cons x l : nprod (x :: l) = x * nprod l.
Proof. reflexivity. Qed.

Lemma nprod_pos l : Forall (fun d => 0 < d) l <-> 0 < nprod l.
Proof.
  induction l as [|x l IH].
  - split; [unfold nprod; simpl; lia | constructor].
  - rewrite nprod_cons. split.
    + intros H; inversion_clear H as [|? ? H1 H2].
      apply IH in H2. apply Nat.mul_pos_pos; assumption.
    + intros H. assert (0 < x /\ 0 < nprod l) as [H1 H2]
        by (destruct x, (nprod l); simpl in *; lia).
      constructor; [assumption | apply IH; assumption].
Qed.

Lemma ofold_app A S (f : S -> A -> outcome S) l1 l2 s :
  ofold f (l1 ++ l2) s = (s' <- ofold f l1 s ;; ofold f l2 s').
Proof.
  revert s; induction l1 as [|x l1 IH]; intros s; simpl; auto.
  destruct (f s x); simpl; auto.
Qed.

Lemma oget_Ok A (l : list A) i x : oget l i = Ok x <-> nth_error l i = Some x.
Proof. unfold oget; destruct (nth_error l i); split; intros H; inversion H; auto. Qed.

Lemma NoDup_app_intro A (l1 l2 : list A) :
  NoDup l1 -> NoDup l2 -> (forall x, In x l1 -> In x l2 -> False) -> NoDup (l1 ++ l2).
Proof.
  intros H1 H2 H; induction H1 as [|a l1 Ha H1 IH]; simpl; auto.
  constructor.
  - rewrite in_app_iff. intros [C|C]; [contradiction|]. apply (H a); simpl; auto.
  - apply IH. intros x X1 X2. apply (H x); simpl; auto.
Qed.
