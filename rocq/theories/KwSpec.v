(* What the keywords of a header should be. *)
From Coq Require Import Ascii String.
From Verif Require Import Base.
Local Open Scope list_scope.

(* the texts of the cards with a name, in order *)
Fixpoint texts (name : list ascii) (l : list (list ascii * list ascii)) : list (list ascii) :=
  match l with
  | [] => []
  | (n, t) :: l => if list_eq_dec ascii_dec n name then t :: texts name l else texts name l
  end.
(* t without the blanks and quotes around it is m *)
Definition bare (c : ascii) : Prop := c <> " "%char /\ c <> "'"%char.
Definition edge (l : list ascii) : Prop := forall c, In c l -> c = " "%char \/ c = "'"%char.
Definition clean (m : list ascii) : Prop :=
  m = [] \/ (exists c r, m = c :: r /\ bare c) /\ (exists r c, m = r ++ [c] /\ bare c).
Definition inside (t m : list ascii) : Prop := clean m /\ exists a b, t = a ++ m ++ b /\ edge a /\ edge b.
