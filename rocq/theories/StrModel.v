(* Strings.  Source: include/vif/utility/bits/string-base.hpp, string-find-replace.hpp,
   string-split.hpp, string-format.hpp.  A string is a list of characters whose length is
   far below 2^64 (std::string::max_size is not modelled); npos is [None]. *)
From Coq Require Import Ascii.
From Verif Require Import Base.

Notation str := (list ascii) (only parsing).

(* --- std::string ----------------------------------------------------------- *)
Fixpoint prefixb (p s : str) : bool :=
  match p, s with
  | [], _ => true
  | a :: p, b :: s => Ascii.eqb a b && prefixb p s
  | _ :: _, [] => false
  end.
Fixpoint find_at (p s : str) (i : nat) : option nat :=
  if prefixb p s then Some i
  else match s with [] => None | _ :: t => find_at p t (S i) end.
(* s.find(p, pos) *)
Definition sfind (p s : str) (pos : nat) : option nat :=
  if pos <=? length s then find_at p (skipn pos s) pos else None.
(* s.substr(pos, n): throws when pos > size; n is cut to the end of the string *)
Definition substr (s : str) (pos n : nat) : outcome str :=
  if pos <=? length s then Ok (firstn n (skipn pos s)) else Throws.
Definition substr_end (s : str) (pos : nat) : outcome str :=
  if pos <=? length s then Ok (skipn pos s) else Throws.
(* s.erase(pos, n) *)
Definition erase (s : str) (pos n : nat) : outcome str :=
  if pos <=? length s then Ok (firstn pos s ++ skipn (pos + n) s) else Throws.
Definition has (chars : str) (c : ascii) : bool := existsb (Ascii.eqb c) chars.
Definition hasnt (chars : str) (c : ascii) : bool := negb (has chars c).
Fixpoint first_at (p : ascii -> bool) (s : str) (i : nat) : option nat :=
  match s with [] => None | c :: t => if p c then Some i else first_at p t (S i) end.
(* find_first_of / find_first_not_of(chars, pos); pos = npos finds nothing *)
Definition find_first (p : ascii -> bool) (s : str) (pos : option nat) : option nat :=
  match pos with Some k => first_at p (skipn k s) k | None => None end.
Fixpoint last_at (p : ascii -> bool) (s : str) (i : nat) (acc : option nat) : option nat :=
  match s with [] => acc | c :: t => last_at p t (S i) (if p c then Some i else acc) end.
(* find_last_of / find_last_not_of(chars, pos); pos = npos searches everything *)
Definition find_last (p : ascii -> bool) (s : str) (pos : option nat) : option nat :=
  last_at p (match pos with Some k => firstn (k + 1) s | None => s end) 0 None.

(* --- string-base.hpp -------------------------------------------------------- *)
(* 14-20 *)
Definition keep_first (s : str) (n : nat) : outcome str :=
  if n <? length s then erase s n (length s - n) else Ok s.
(* 22-28 *)
Definition keep_last (s : str) (n : nat) : outcome str :=
  if n <? length s then erase s 0 (length s - n) else Ok s.
(* 30-45 *)
Definition distance (t u : str) : outcome nat :=
  let '(n, d) := if length t <? length u then (length t, length u - length t)
                 else (length u, length t - length u) in
  ofold (fun d i => a <- oget t i ;; b <- oget u i ;; Ok (if Ascii.eqb a b then d else d + 1)) (seq 0 n) d.

(* --- string-find-replace.hpp ------------------------------------------------- *)
(* 15-23: while (p != npos); fuel bounds the number of rounds *)
Fixpoint replace_loop (fuel : nat) (pattern rep s : str) (p : option nat) : outcome str :=
  match p with
  | None => Ok s
  | Some p =>
      match fuel with
      | O => Diverge
      | S f =>
          let s' := firstn p s ++ rep ++ skipn (p + length pattern) s in
          replace_loop f pattern rep s' (sfind pattern s' (p + length rep))
      end
  end.
(* one round per character is enough when the pattern is not empty (C29_replace) *)
Definition replace (s pattern rep : str) : outcome str :=
  replace_loop (length s) pattern rep s (sfind pattern s 0).

(* 25-40; with s empty, s.size()-1 and the result of find_last_of are both npos, and
   s.size() - epos+1 wraps to 2 *)
Definition trim_end (chars s : str) : outcome str :=
  match s, find_last (has chars) s None with
  | [], None => erase s 0 2
  | [], Some _ => Ok s
  | _, None => Ok s
  | _, Some spos =>
      if spos =? length s - 1 then
        match find_last (hasnt chars) s None with
        | Some epos => erase s (epos + 1) (length s - epos + 1)
        | None => erase s 0 (length s + 2)   (* epos + 1 = 0; size - npos + 1 = size + 2 *)
        end
      else Ok s
  end.
Definition trim (s chars : str) : outcome str :=
  match find_first (has chars) s (Some 0) with
  | Some 0 =>
      match find_first (hasnt chars) s (Some 0) with
      | None => Ok []
      | Some epos => s <- substr_end s epos ;; trim_end chars s
      end
  | _ => trim_end chars s
  end.

(* 42-49, 51-58 *)
Fixpoint all_match (s p : str) (f g : nat -> nat) (l : list nat) : outcome bool :=
  match l with
  | [] => Ok true
  | i :: t => a <- oget s (f i) ;; b <- oget p (g i) ;; if Ascii.eqb a b then all_match s p f g t else Ok false
  end.
Definition begins_with (s p : str) : outcome bool :=
  if length s <? length p then Ok false
  else all_match s p (fun i => i) (fun i => i) (seq 0 (length p)).
Definition ends_with (s p : str) : outcome bool :=
  if length s <? length p then Ok false
  else all_match s p (fun i => length s - i) (fun i => length p - i) (seq 1 (length p)).
(* 60-78 *)
Definition erase_begin_n (s : str) (n : nat) : outcome str :=
  if length s <=? n then Ok [] else erase s 0 n.
Definition erase_end_n (s : str) (n : nat) : outcome str :=
  if length s <=? n then Ok [] else erase s (length s - n) n.
(* 80-92 *)
Definition erase_begin (s p : str) : outcome str :=
  b <- begins_with s p ;; _ <- check b ;; erase s 0 (length p).
Definition erase_end (s p : str) : outcome str :=
  b <- ends_with s p ;; _ <- check b ;; erase s (length s - length p) (length p).

(* 94-135.  n > 0: the loop runs once per remaining word k *)
Fixpoint word_fwd (k : nat) (s chars : str) (p2 : nat) : outcome (nat * option nat) :=
  match k with
  | O => UB (* not reached: at least one round *)
  | S k' =>
      match find_first (hasnt chars) s (Some p2) with
      | None => CheckFail
      | Some p1 =>
          let p2 := find_first (has chars) s (Some p1) in
          match k', p2 with
          | O, _ => Ok (p1, p2)
          | S _, None => CheckFail
          | S _, Some p2 => word_fwd k' s chars p2
          end
      end
  end.
Fixpoint word_bwd (k : nat) (s chars : str) (p1 : option nat) : outcome (option nat * nat) :=
  match k with
  | O => UB
  | S k' =>
      match find_last (hasnt chars) s p1 with
      | None => CheckFail
      | Some p2 =>
          let p1 := find_last (has chars) s (Some p2) in
          match k', p1 with
          | O, _ => Ok (p1, p2)
          | S _, None => CheckFail
          | S _, Some p1 => word_bwd k' s chars (Some p1)
          end
      end
  end.
(* npos - p1 + 1 is 0 when p1 = 0 and reaches past the end otherwise *)
Definition get_word (s : str) (n : Z) (chars : str) : outcome str :=
  if (n <? 0)%Z then
    if (n =? - 2 ^ 31)%Z then UB  (* -n overflows *)
    else
      '(p1, p2) <- word_bwd (Z.to_nat (- n)) s chars None ;;
      let p1 := match p1 with None => 0 | Some p => p + 1 end in
      substr s p1 (p2 + 1 - p1)
  else
    '(p1, p2) <- word_fwd (Z.to_nat (n + 1)) s chars 0 ;;
    match p2 with
    | Some p2 => substr s p1 (p2 - p1)
    | None => if p1 =? 0 then substr s 0 0 else substr_end s p1
    end.

(* 137-162 *)
Fixpoint block_loop (fuel : nat) (os begin end_ : str) (convert : str -> str) (s : str) (p : option nat) (p0 : nat)
  : outcome str :=
  match p with
  | None => r <- substr_end os p0 ;; Ok (s ++ r)
  | Some p =>
      match fuel with
      | O => Diverge
      | S f =>
          a <- substr os p0 (p - p0) ;;
          let p := p + length begin in
          match sfind end_ os p with
          | None => CheckFail
          | Some q =>
              b <- substr os p (q - p) ;;
              let p0 := q + length end_ in
              block_loop f os begin end_ convert (s ++ a ++ convert b) (sfind begin os p0) p0
          end
      end
  end.
Definition replace_block (os begin end_ : str) (convert : str -> str) : outcome str :=
  block_loop (S (length os)) os begin end_ convert [] (sfind begin os 0) 0.

(* --- string-split.hpp -------------------------------------------------------- *)
(* 6-19 *)
Fixpoint split_loop (fuel : nat) (ts pattern : str) (ret : list str) (op : nat) : outcome (list str) :=
  match sfind pattern ts op with
  | None => r <- substr_end ts op ;; Ok (ret ++ [r])
  | Some p =>
      match fuel with
      | O => Diverge
      | S f => r <- substr ts op (p - op) ;; split_loop f ts pattern (ret ++ [r]) (p + length pattern)
      end
  end.
Definition split (ts pattern : str) : outcome (list str) := split_loop (length ts) ts pattern [] 0.

(* 21-38 *)
Fixpoint any_loop (fuel : nat) (ts chars : str) (ret : list str) (op : option nat) : outcome (list str) :=
  match find_first (has chars) ts op, op with
  | None, None => Ok ret
  | None, Some op => r <- substr_end ts op ;; Ok (ret ++ [r])
  | Some p, None => UB (* not reached *)
  | Some p, Some op =>
      match fuel with
      | O => Diverge
      | S f => r <- substr ts op (p - op) ;; any_loop f ts chars (ret ++ [r]) (find_first (hasnt chars) ts (Some p))
      end
  end.
Definition split_any_of (ts chars : str) : outcome (list str) :=
  any_loop (length ts) ts chars [] (find_first (hasnt chars) ts (Some 0)).

(* 40-48.  size_t/float is rounded to a float; exact below 2^24 characters, the only case
   modelled.  A size of zero converts an infinity or NaN to an integer. *)
Definition cut (ts : str) (size : nat) : outcome (list str) :=
  if size =? 0 then UB
  else omapl (fun i => substr ts (i * size) (Nat.min size (length ts - i * size))) (seq 0 (length ts / size)).

(* 89-112 *)
Definition collapse (v : list str) : str := fold_left (fun r s => r ++ s) v [].
Definition collapse_sep (v : list str) (sep : str) : str :=
  fst (fold_left (fun '(r, first) s => ((if first : bool then r else r ++ sep) ++ s, false)) v ([], true)).

(* --- string-format.hpp ------------------------------------------------------- *)
(* 38-62 *)
Definition align_left (s : str) (width : nat) (fill : ascii) : str :=
  if length s <? width then s ++ repeat fill (width - length s) else s.
Definition align_right (s : str) (width : nat) (fill : ascii) : str :=
  if length s <? width then repeat fill (width - length s) ++ s else s.
Definition align_center (s : str) (width : nat) (fill : ascii) : str :=
  if length s <? width then
    let n1 := (width - length s) / 2 in
    let n2 := width - length s - n1 in
    repeat fill n1 ++ s ++ repeat fill n2
  else s.

(* 50-87 of string-split.hpp: wrap *)
Definition space : ascii := " "%char.
(* the loop while (i != npos && s[i] != ' ') --i from i = w *)
Fixpoint back_to_space (s : str) (i : nat) : outcome (option nat) :=
  c <- oget s i ;;
  if Ascii.eqb c space then Ok (Some i)
  else match i with O => Ok None | S j => back_to_space s j end.
(* i = twidth+1; while (i < s.size() && s[i] != ' ') ++i; *)
Definition next_space (s : str) (i : nat) : nat :=
  match find_first (Ascii.eqb space) s (Some i) with Some k => k | None => length s end.
Definition blanks : str := [" "; "009"; "010"; "013"]%char.
Definition dots : str := ["."; "."; "."]%char.
(* twidth = width - indent.size() is unsigned: None stands for a wrapped value, which exceeds
   every string length, so that the loop ends *)
Fixpoint wrap_loop (fuel : nat) (width : nat) (indent : str) (ellipse : bool)
    (ret : list str) (s : str) (twidth : option nat) (header : str) : outcome (list str) :=
  let finish := Ok (match s with [] => ret | _ => ret ++ [header ++ s] end) in
  match twidth with
  | None => finish
  | Some tw =>
      if tw <? length s then
        match fuel with
        | O => Diverge
        | S f =>
            i <- back_to_space s tw ;;
            let '(line, i) :=
              match i with
              | None =>
                  let i := next_space s (tw + 1) in
                  (* twidth - 3 wraps below 3, and substr takes everything *)
                  ((if ellipse then (if tw <? 3 then s else firstn (tw - 3) s) ++ dots else firstn i s), i)
              | Some i => (firstn i s, i)
              end in
            s <- erase s 0 i ;;
            s <- trim s blanks ;;
            wrap_loop f width indent ellipse (ret ++ [header ++ line]) s
              (if length indent <=? width then Some (width - length indent) else None) indent
        end
      else finish
  end.
Definition wrap (ts : str) (width : nat) (indent : str) (ellipse : bool) : outcome (list str) :=
  wrap_loop (length ts) width indent ellipse [] ts (Some width) [].
