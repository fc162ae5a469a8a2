(* Durations as text.  Source: include/vif/utility/time.hpp 29-80, for a floating point number of
   seconds, as an exact rational number. *)
From Coq Require Import Ascii String QArith Qround.
From Verif Require Import Base StrModel NumModel.
Local Open Scope Z_scope.

(* conversion of a floating point number to std::size_t *)
Definition to_size (x : Q) : outcome Z :=
  let n := if Qle_bool 0 x then Qfloor x else - Qfloor (- x)%Q in   (* truncation *)
  if (0 <=? n) && (n <? 2 ^ 64) then Ok n else UB.
Definition floorq (x : Q) : Q := inject_Z (Qfloor x).
(* std::round for x >= 0 *)
Definition round (x : Q) : Z := Qfloor (x + (1 # 2))%Q.
Definition pad (n : Z) (w : nat) : list ascii := align_right (to_string n) w "0"%char.

(* 29-62; floor(log10(t)) >= -k iff t >= 10^-k; for t <= 0 the logarithm is not finite, and its
   conversion to int is undefined *)
Definition time_str (t : Q) : outcome (list ascii) :=
  if negb (Qle_bool 1 t) then
    if Qle_bool t 0 then UB
    else if Qle_bool (1 # 1000) t then Ok (to_string (round (t * 1000)%Q) ++ ["m"; "s"]%char)
    else if Qle_bool (1 # 1000000) t then Ok (to_string (round (t * 1000000)%Q) ++ ["u"; "s"]%char)
    else Ok (to_string (round (t * 1000000000)%Q) ++ ["n"; "s"]%char)
  else
    day <- to_size (floorq (t / 86400)%Q) ;;
    hour <- to_size (floorq (t / 3600) - inject_Z (day * 24))%Q ;;
    min <- to_size (floorq (t / 60) - inject_Z (day * 24 * 60) - inject_Z (hour * 60))%Q ;;
    sec <- to_size (floorq t - inject_Z (day * 24 * 60 * 60) - inject_Z (hour * 60 * 60) - inject_Z (min * 60))%Q ;;
    let date := if day =? 0 then [] else to_string day ++ ["d"%char] in
    let date := if hour =? 0 then date else date ++ pad hour 2 ++ ["h"%char] in
    let date := if min =? 0 then date else date ++ pad min 2 ++ ["m"%char] in
    let date := date ++ pad sec 2 ++ ["s"%char] in
    Ok (match date with
        | c :: r => if Ascii.eqb c "0"%char && negb (List.length date =? 2)%nat then r else date
        | [] => date
        end).

(* 76-78: while (date[0] == '0' && date.size() != 3) date.erase(0,1) *)
Fixpoint erase_zeros (date : list ascii) : list ascii :=
  match date with
  | c :: r => if Ascii.eqb c "0"%char && negb (List.length date =? 3)%nat then erase_zeros r else date
  | [] => date
  end.
(* 65-80 *)
Definition seconds_str (t : Q) : outcome (list ascii) :=
  sec <- to_size (floorq t) ;;
  ms <- to_size (floorq ((t - inject_Z sec) * 1000)%Q) ;;
  us <- to_size (floorq (((t - inject_Z sec) * 1000 - inject_Z ms) * 1000)%Q) ;;
  ns <- to_size (floorq ((((t - inject_Z sec) * 1000 - inject_Z ms) * 1000 - inject_Z us) * 1000)%Q) ;;
  let date := if sec =? 0 then [] else to_string sec ++ ["s"%char] in
  let date := if negb (ms =? 0) || negb (List.length date =? 0)%nat then date ++ pad ms 3 ++ ["m"; "s"]%char else date in
  let date := if negb (us =? 0) || negb (List.length date =? 0)%nat then date ++ pad us 3 ++ ["u"; "s"]%char else date in
  let date := date ++ pad ns 3 ++ ["n"; "s"]%char in
  Ok (erase_zeros date).
