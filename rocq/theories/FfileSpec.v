(* The HDUs of a file are a list, numbered from 0; the cards of a header are a list. *)
From Coq Require Import Ascii String.
From Verif Require Import Base KeySpec FfileModel.
From Verif Require FimgModel FimgSpec.
Local Open Scope list_scope.

(* a file is at one of its HDUs, unless it has none *)
Definition placed (f : file) : Prop := cur f < List.length (hdus f) \/ (hdus f = [] /\ cur f = 0).
(* the HDU number k of a file *)
Definition hdu_at (f : file) (k : nat) : option hdu := nth_error (hdus f) k.

(* an array given to the file, with the type of its elements *)
Definition fits_in (tv : FimgModel.etype * FimgModel.arr) : Prop :=
  FimgSpec.proper (snd tv) /\ Forall (FimgSpec.exact (fst tv)) (FimgModel.data (snd tv)).

(* the keywords which describe the HDU itself *)
Definition word (s : string) : list ascii := list_ascii_of_string s.
Definition describes (k : list ascii) : Prop :=
  In k (map word ["SIMPLE"; "BITPIX"; "EXTEND"; "XTENSION"; "EXTNAME"; "PCOUNT"; "GCOUNT"]%string) \/
  exists r, k = word "NAXIS" ++ r.
Definition left_out (c : list ascii) : Prop := (exists r, c = word "END " ++ r) \/ (exists k, named c k /\ describes k).
(* r: the cards of l which are not left out *)
Inductive kept : list (list ascii) -> list (list ascii) -> Prop :=
| kept_nil : kept [] []
| kept_yes c l r : ~ left_out c -> kept l r -> kept (c :: l) (c :: r)
| kept_no c l r : left_out c -> kept l r -> kept (c :: l) r.
Definition blank : list ascii := repeat " "%char 80.

(* a program: write each array in an HDU of its own, from the HDU number i on *)
Fixpoint write_each (f : file) (i : nat) (l : list (FimgModel.etype * FimgModel.arr)) : outcome file :=
  match l with
  | [] => Ok f
  | (t, v) :: l => f <- reach_hdu f i ;; f <- write_image f t v ;; write_each f (i + 1) l
  end.
(* and a program which reads the array of an HDU *)
Definition read_hdu (f : file) (i : nat) (t : FimgModel.etype) (dim : nat) : outcome FimgModel.arr :=
  f <- reach_hdu f i ;; FimgModel.read (current f) t dim.
