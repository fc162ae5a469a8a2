(* Sexagesimal coordinates.  Source: include/vif/astro/astro.hpp 1028-1112, sign() of math/base.hpp 94-97.
   Arithmetic on doubles is exact, and a result that is not finite is None. *)
From Coq Require Import Ascii String QArith Qround.
From Verif Require Import Base StrModel NumModel RealModel.
Local Open Scope Z_scope.

Definition signQ (x : Q) : Z := if Qle_bool 0 x then 1 else -1.
(* a number of seconds as read *)
Definition finite (r : real) : option Q := match r with Num q => Some q | Special _ => None end.
(* 1039-1055: what is stored in ra and dec is None for NaN, or when the seconds are not finite *)
Definition read_three (h m s : list ascii) : option (Z * Z * option Q) :=
  let '(b1, hv) := from_string true 64 h 0 in
  let '(b2, mv) := from_string true 64 m 0 in
  if b1 && b2 then match real_from_string s with Some sv => Some (hv, mv, finite sv) | None => None end else None.
Definition hours (p : Z * Z * option Q) : option Q :=
  let '(h, m, s) := p in
  option_map (fun s => inject_Z h + inject_Z (m * signQ (inject_Z h)) / 60 + s * inject_Z (signQ (inject_Z h)) / 3600)%Q s.
(* 1028-1057 *)
Definition sex2deg (sra sdec : list ascii) : outcome (bool * option Q * option Q) :=
  starr1 <- split sra [":"%char] ;;
  starr2 <- split sdec [":"%char] ;;
  match starr1, starr2 with
  | [h1; m1; s1], [h2; m2; s2] =>
      match read_three h1 m1 s1, read_three h2 m2 s2 with
      | Some p1, Some p2 => Ok (true, option_map (fun x => x * 15)%Q (hours p1), hours p2)
      | _, _ => Ok (false, None, None)
      end
  | _, _ => Ok (false, None, None)
  end.
(* 1059-1075; the dimensions are not compared, only the sizes *)
Definition sex2deg_vec (sra sdec : list (list ascii)) : outcome (list (bool * option Q * option Q)) :=
  _ <- check (List.length sra =? List.length sdec)%nat ;;
  omapl (fun i => a <- oget sra i ;; d <- oget sdec i ;; sex2deg a d) (seq 0 (List.length sra)).

(* conversion of a double to int_t *)
Definition to_int (x : Q) : outcome Z :=
  let n := if Qle_bool 0 x then Qfloor x else - Qfloor (- x)%Q in   (* truncation *)
  if (- 2 ^ 63 <=? n) && (n <? 2 ^ 63) then Ok n else UB.
(* 1093-1108 *)
Definition format_sec (sec : Q) : list ascii :=
  let s := real_to_string sec in
  match find_first (has ["."%char]) s (Some 0%nat) with
  | None => if (List.length s =? 2)%nat then s ++ [".";"0"]%char else "0"%char :: s ++ [".";"0"]%char
  | Some p => if (p =? 2)%nat then s else "0"%char :: s
  end.
(* 1079-1084, 1086-1091 and 1110-1111: x is in hours, or in degrees; sg is its sign *)
Definition to_sex (x : Q) : outcome (list ascii) :=
  let sg := signQ x in
  let x := (x * inject_Z sg)%Q in
  h <- to_int x ;;
  m <- to_int ((x - inject_Z h) * 60)%Q ;;
  let s := (((x - inject_Z h) * 60 - inject_Z m) * 60)%Q in
  Ok (to_string (h * sg) ++ ":"%char :: align_right (to_string m) 2 "0"%char ++ ":"%char :: format_sec s).
(* 1078-1112; ra /= 15*sign divides by the sign, which is the same as multiplying by it *)
Definition deg2sex (ra dec : Q) : outcome (list ascii * list ascii) :=
  sra <- to_sex (ra / 15)%Q ;; sdec <- to_sex dec ;; Ok (sra, sdec).
