(* Independent vocabulary for directories. *)
From Coq Require Import Ascii.
From Verif Require Import Base StrSpec DirModel.
Local Open Scope nat_scope.

(* some successfully opened directory is closed explicitly, before any other is opened *)
Definition closes_open (contents : list ascii -> option (list entry)) (calls : list call) : Prop :=
  exists a d p b c, calls = a ++ COpen d p :: b ++ CClose :: c /\ contents d <> None /\ (forall d p, ~ In (COpen d p) b).
Definition opened (contents : list ascii -> option (list entry)) (calls : list call) : nat :=
  length (filter (fun c => match c with COpen d _ => match contents d with Some _ => true | None => false end | _ => false end) calls).

Definition hidden (s : list ascii) : Prop := exists c r, s = "."%char :: c :: r.
Definition selected (fnmatch : list ascii -> list ascii -> bool) (p : list ascii) (e : entry) : Prop :=
  p = [] \/ p = ["*"%char] \/ fnmatch p (ename e) = true.
(* the elements that satisfy P, in order *)
Inductive kept {A} (P : A -> Prop) : list A -> list A -> Prop :=
| kept_nil : kept P [] []
| kept_yes : forall x l r, P x -> kept P l r -> kept P (x :: l) (x :: r)
| kept_no : forall x l r, ~ P x -> kept P l r -> kept P (x :: l) r.
Definition directory_entry (e : entry) : Prop := exists n, estat e = Some (true, n).

(* the names of a path that count *)
Definition effective (cs : list (list ascii)) : list (list ascii) :=
  filter (fun c => if list_eq_dec ascii_dec c ["."%char] then false else true) cs.
(* where the path starts *)
Definition start (cwd : list (list ascii)) (path : list ascii) (base : list (list ascii)) : Prop :=
  (exists r, path = "/"%char :: r) /\ base = [] \/ (forall r, path <> "/"%char :: r) /\ base = cwd.
