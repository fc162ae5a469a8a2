(* Progress bars.  Source: include/vif/utility/time.hpp 99-200.

   Simplifications.  Times are exact rationals, given for each reading of the clock; the text of a duration (time_str,
   TimeModel.v) is a parameter, as is the length of the bar (progress_ndash, read from the environment).  Conversions of
   std::size_t to double are exact.  What goes to std::cout is the text returned.  std::size_t and uint_t are the integers
   modulo 2^64; the memory suffices for the strings. *)
From Coq Require Import Ascii String QArith Qround.
From Verif Require Import Base StrModel NumModel.
Local Open Scope list_scope.
Local Open Scope Z_scope.

(* 99-107; ips is None if it is infinite or not a number *)
Record prog := Prog { p_start : Q; p_ips : option Q; p_tick : Z; p_i : Z; p_n : Z; p_max : nat; p_ended : bool }.
(* 110-115 *)
Definition progress_start (now : Q) (n : Z) : prog := Prog now (Some 0%Q) 0 0 n 0 false.

Definition word (s : string) : list ascii := list_ascii_of_string s.
(* a double that is an integer, converted to std::size_t *)
Definition size_of (k : Z) : outcome Z := if (0 <=? k) && (k <? 2 ^ 64) then Ok k else UB.
(* floor(log10(n)) for 0 < n < 10^20 *)
Fixpoint log10_floor (fuel : nat) (n : Z) : nat :=
  match fuel with
  | O => O
  | S f => if n <? 10 then O else S (log10_floor f (n / 10))
  end.

Section Bar.
Variable duration : Q -> outcome (list ascii).
Variable ndash : Z.

(* 120-145.  For n = 0 the length of the bar is not finite, and for i + 1 = 0 (modulo 2^64) the time remaining is not:
   converting them to std::size_t is undefined. *)
Definition bar (p : prog) (now : Q) : outcome (prog * list ascii) :=
  let n := p_n p in
  let i1 := wrap64 (p_i p + 1) in
  let total := (now - p_start p)%Q in
  if (n =? 0) || (i1 =? 0) then UB
  else
    let remaining := (total * inject_Z n / inject_Z i1 - total)%Q in
    let remaining := if Qle_bool 0 remaining then remaining else 0%Q in
    let ips := if Qeq_bool total 0 then None else Some (inject_Z i1 / total)%Q in
    let full := wrap64 (ndash * i1) / n in
    a <- size_of full ;; b <- size_of (ndash - full) ;;
    pct <- size_of (100 * i1 / n) ;;
    t1 <- duration total ;; t2 <- duration remaining ;; t3 <- duration (total + remaining)%Q ;;
    let msg := word "[" ++ repeat "-"%char (Z.to_nat a) ++ repeat " "%char (Z.to_nat b) ++ word "] "
               ++ align_right (to_string i1) (log10_floor 20 n + 1) " "%char ++ word " "
               ++ align_right (to_string pct) 3 " "%char ++ word "%, "
               ++ t1 ++ word " elapsed, " ++ t2 ++ word " left, " ++ t3 ++ word " total" in
    let mx := Nat.max (p_max p) (List.length msg) in
    Ok (Prog (p_start p) ips (p_tick p) (p_i p) n mx (p_ended p),
        "013"%char :: msg ++ repeat " "%char (mx - List.length msg)).

Definition step (p : prog) : prog := Prog (p_start p) (p_ips p) (p_tick p) (wrap64 (p_i p + 1)) (p_n p) (p_max p) (p_ended p).
Definition finish (p : prog) : prog := Prog (p_start p) (p_ips p) (p_tick p) (p_i p) (p_n p) (p_max p) true.
Definition newline : list ascii := ["010"%char].

(* 149-163; M is uint_t *)
Definition progress (p : prog) (now : Q) (m : Z) : outcome (prog * list ascii) :=
  if p_ended p then Ok (p, [])
  else if m =? 0 then UB
  else
    '(p, out) <- (if (p_i p mod m =? 0) || (p_i p =? wrap64 (p_n p - 1)) then bar p now else Ok (p, [])) ;;
    let p := step p in
    if p_n p <=? p_i p then Ok (finish p, out ++ newline) else Ok (p, out).

(* p.i - p.last_tick >= p.ips*ticklen; inf*0 is not a number *)
Definition late (p : prog) (ticklen : Q) : bool :=
  match p_ips p with
  | Some q => Qle_bool (q * ticklen)%Q (inject_Z (wrap64 (p_i p - p_tick p)))
  | None => negb (Qle_bool 0 ticklen)
  end.
(* 167-183; now' is the time at the end *)
Definition progress_tick (p : prog) (now now' : Q) (ticklen : Q) : outcome (prog * list ascii) :=
  if p_ended p then Ok (p, [])
  else
    '(p, out) <- (if (p_i p <? 10) || late p ticklen
                  then bar (Prog (p_start p) (p_ips p) (p_i p) (p_i p) (p_n p) (p_max p) (p_ended p)) now
                  else Ok (p, [])) ;;
    let p := step p in
    if p_n p <=? p_i p then '(p, out') <- bar p now' ;; Ok (finish p, out ++ out' ++ newline)
    else Ok (p, out).

(* 188-200 *)
Definition print_progress (p : prog) (now : Q) (ti m : Z) : outcome (prog * list ascii) :=
  if p_ended p then Ok (p, [])
  else
    let last := wrap64 (p_n p - 1) in
    let at_ i := Prog (p_start p) (p_ips p) (p_tick p) i (p_n p) (p_max p) (p_ended p) in
    if last <=? ti then '(p, out) <- bar (at_ last) now ;; Ok (finish p, out ++ newline)
    else if m =? 0 then UB
    else if ti mod m =? 0 then bar (at_ ti) now
    else Ok (at_ ti, []).
End Bar.
