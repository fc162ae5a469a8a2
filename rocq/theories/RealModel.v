(* Conversion between strings and floating point numbers.  Source: include/vif/core/string_conversion.hpp
   134-139 and 167-207, for the type double.  A finite double is the rational number that it represents;
   negative zero is not distinguished from zero, and the rounding to the closest double of the number read
   is not modelled.  The stream functions of the standard library are modelled as the standard and libstdc++
   define them: operator<< writes as printf("%g") does, with 6 significant digits, rounded to nearest and to
   even; operator>> skips white space, takes the longest prefix that may be a number, and fails when it is
   not a complete one, or when it is too large for a double. *)
From Coq Require Import Ascii String QArith Qround.
From Verif Require Import Base StrModel NumModel.
Local Open Scope Z_scope.

(* --- operator<< ------------------------------------------------------------------- *)
Definition ndigits (n : Z) : Z := Z.of_nat (List.length (to_string n)).
(* the e such that 10^e <= a < 10^(e+1) *)
Definition exponent10 (a : Q) : Z :=
  let k := ndigits (Qnum a) - ndigits (Zpos (Qden a)) in
  if Qle_bool (10 ^ k)%Q a then k else k - 1.
Definition half_even (x : Q) : Z :=
  let n := Qfloor x in
  match (x - inject_Z n ?= 1 # 2)%Q with Lt => n | Gt => n + 1 | Eq => if Z.even n then n else n + 1 end.
(* the six digits and the exponent *)
Definition rounded6 (a : Q) : Z * Z :=
  let e := exponent10 a in
  let m := half_even (a * 10 ^ (5 - e))%Q in
  if m =? 1000000 then (100000, e + 1) else (m, e).
Fixpoint strip_zeros (s : list ascii) : list ascii :=
  match s with
  | [] => []
  | c :: t => match strip_zeros t with [] => if Ascii.eqb c "0"%char then [] else [c] | u => c :: u end
  end.
Definition with_point (i f : list ascii) : list ascii :=
  match strip_zeros f with [] => i | f => i ++ "."%char :: f end.
Definition exponent_text (e : Z) : list ascii :=
  "e"%char :: (if e <? 0 then "-"%char else "+"%char) :: align_right (to_string (Z.abs e)) 2 "0"%char.
Definition positive_text (a : Q) : list ascii :=
  let '(m, e) := rounded6 a in
  let d := to_string m in
  if (-4 <=? e) && (e <? 6) then
    if 0 <=? e then with_point (firstn (Z.to_nat (e + 1)) d) (skipn (Z.to_nat (e + 1)) d)
    else with_point ["0"%char] (repeat "0"%char (Z.to_nat (- e - 1)) ++ d)
  else with_point (firstn 1 d) (skipn 1 d) ++ exponent_text e.
(* 134-139 *)
Definition real_to_string (x : Q) : list ascii :=
  if Qeq_bool x 0 then ["0"%char]
  else if Qle_bool 0 x then positive_text x else "-"%char :: positive_text (- x)%Q.

(* --- operator>> ------------------------------------------------------------------- *)
Inductive real := Num (q : Q) | Special (s : special).
Definition take_sign (s : list ascii) : bool * list ascii :=
  match s with
  | c :: r => if Ascii.eqb c "-"%char then (true, r) else if Ascii.eqb c "+"%char then (false, r) else (false, s)
  | [] => (false, s)
  end.
Definition digits_value (d : list ascii) : Z := fold_left (fun a c => 10 * a + digit_of c) d 0.
(* half a unit above the largest double *)
Definition double_limit : Q := inject_Z (2 ^ 1024 - 2 ^ 970).
(* the number, if there is one, and what remains *)
Definition extract_real (s : list ascii) : option Q * list ascii :=
  let '(neg, s) := take_sign (skip_white s) in
  let '(d1, s) := span_digits s in
  let '(d2, s) := match s with
                  | c :: r => if Ascii.eqb c "."%char then span_digits r else ([], s)
                  | [] => ([], s)
                  end in
  match d1 ++ d2 with
  | [] => (None, s)
  | d =>
      let m := digits_value d in
      let '(e, s) := match s with
                     | c :: r =>
                         if Ascii.eqb c "e"%char || Ascii.eqb c "E"%char then
                           let '(neg, r) := take_sign r in
                           let '(d3, r) := span_digits r in
                           (match d3 with [] => None | _ => Some (if neg : bool then - digits_value d3 else digits_value d3) end, r)
                         else (Some 0, s)
                     | [] => (Some 0, s)
                     end in
      match e with
      | None => (None, s)
      | Some e =>
          let v := (inject_Z (if neg : bool then - m else m) * 10 ^ (e - Z.of_nat (List.length d2)))%Q in
          (if Qle_bool double_limit (if Qle_bool 0 v then v else - v) then None else Some v, s)
      end
  end.
(* 193-207 for the type double: the number stored, None when the conversion fails *)
Definition real_from_string (s : list ascii) : option real :=
  let '(v, r) := extract_real s in
  match v with
  | Some v =>
      match r with
      | [] => Some (Num v)
      | _ => match find_first (hasnt [" "; "009"]%char) (word (skip_white r)) (Some 0%nat) with
             | None => Some (Num v)
             | Some _ => None
             end
      end
  | None => option_map Special (fallback s)
  end.
