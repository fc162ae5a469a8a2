(* Conversion between strings and integers.  Source: include/vif/core/string_conversion.hpp.
   The stream functions of the standard library are modelled as the standard and libstdc++ define them:
   operator>> skips white space, takes an optional sign and the decimal digits that follow; without
   digits it stores zero and fails; out of range it stores the closest value and fails; the opposite of
   an unsigned number wraps.  An integer type is given by its sign and its number of bits. *)
From Coq Require Import Ascii String.
From Verif Require Import Base StrModel.
Local Open Scope Z_scope.

Definition white : list ascii := [" "; "009"; "010"; "011"; "012"; "013"]%char.
Fixpoint skip_white (s : list ascii) : list ascii :=
  match s with c :: t => if has white c then skip_white t else s | [] => [] end.
Fixpoint word (s : list ascii) : list ascii :=
  match s with c :: t => if has white c then [] else c :: word t | [] => [] end.
Definition is_digit (c : ascii) : bool := (48 <=? Z.of_N (N_of_ascii c)) && (Z.of_N (N_of_ascii c) <=? 57).
Definition digit_of (c : ascii) : Z := Z.of_N (N_of_ascii c) - 48.
Fixpoint span_digits (s : list ascii) : list ascii * list ascii :=
  match s with
  | c :: t => if is_digit c then let '(d, r) := span_digits t in (c :: d, r) else ([], s)
  | [] => ([], [])
  end.
Definition max_of (signed : bool) (bits : Z) : Z := if signed then 2 ^ (bits - 1) - 1 else 2 ^ bits - 1.
Definition min_of (signed : bool) (bits : Z) : Z := if signed then - 2 ^ (bits - 1) else 0.
(* ss >> t: (failed, the value of t, what remains) *)
Definition extract (signed : bool) (bits : Z) (s : list ascii) (t : Z) : bool * Z * list ascii :=
  match skip_white s with
  | [] => (true, t, [])
  | s =>
      let '(neg, s) := match s with
                       | c :: r => if Ascii.eqb c "-"%char then (true, r)
                                   else if Ascii.eqb c "+"%char then (false, r) else (false, s)
                       | [] => (false, s) end in
      let '(d, r) := span_digits s in
      let v := fold_left (fun a c => 10 * a + digit_of c) d 0 in
      let limit := if neg && signed then - min_of signed bits else max_of signed bits in
      match d with
      | [] => (true, 0, r)
      | _ =>
          if limit <? v then (true, if neg && signed then min_of signed bits else max_of signed bits, r)
          else (false, if neg then (if signed then - v else (- v) mod 2 ^ bits) else v, r)
      end
  end.
(* 193-207 for an integer type: the result, and the value of t *)
Definition from_string (signed : bool) (bits : Z) (s : list ascii) (t : Z) : bool * Z :=
  let '(failed, v, r) := extract signed bits s t in
  if failed : bool then (false, v)
  else match r with
       | [] => (true, v)
       | _ =>
           let rem := word (skip_white r) in
           (match find_first (hasnt [" "; "009"]%char) rem (Some 0%nat) with None => true | Some _ => false end, v)
       end.
(* 209-222: the vectorised version; t is resized to the size of s, and a view is checked *)
Definition from_string_vec (signed : bool) (bits : Z) (s : list (list ascii)) (t : list Z) : list (bool * Z) :=
  map (fun '(s, t) => from_string signed bits s t)
    (combine s (firstn (length s) t ++ repeat 0 (length s - length t))).
Definition from_string_view (signed : bool) (bits : Z) (s : list (list ascii)) (t : list Z) : outcome (list (bool * Z)) :=
  _ <- check (length s =? length t)%nat ;; Ok (map (fun '(s, t) => from_string signed bits s t) (combine s t)).

(* 134-139: ss << t *)
Fixpoint digits (fuel : nat) (n : Z) (acc : list ascii) : list ascii :=
  match fuel with
  | O => acc
  | S f =>
      let acc := ascii_of_N (Z.to_N (48 + n mod 10)) :: acc in
      if n <? 10 then acc else digits f (n / 10) acc
  end.
Definition to_string (x : Z) : list ascii :=
  let d := digits (S (Z.to_nat (Z.log2 (Z.abs x)))) (Z.abs x) [] in
  if x <? 0 then "-"%char :: d else d.

(* 167-185: from_string_fallback for the floating point types: what is stored *)
Inductive special := NaN | PlusInf | MinusInf.
Definition upper (c : ascii) : ascii :=
  let n := Z.of_N (N_of_ascii c) in
  if (97 <=? n) && (n <=? 122) then ascii_of_N (Z.to_N (n - 32)) else c.
Definition lit' (s : String.string) : list ascii := list_ascii_of_string s.
Definition fallback (s : list ascii) : option special :=
  let su := map upper s in
  let is w := if list_eq_dec ascii_dec su (lit' w) then true else false in
  if is "NAN"%string || is "+NAN"%string || is "-NAN"%string then Some NaN
  else if is "+INF"%string || is "INF+"%string || is "INF"%string then Some PlusInf
  else if is "-INF"%string || is "INF-"%string then Some MinusInf
  else None.
