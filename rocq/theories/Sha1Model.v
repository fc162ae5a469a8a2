(* SHA-1 digest.  Source: include/vif/utility/bits/string-hash.hpp 10-169.
   unsigned int is an integer modulo 2^32; the buffer w has 80 entries, None being an
   uninitialised one, whose use is undefined behaviour. *)
From Coq Require Import Ascii.
From Verif Require Import Base.
Local Open Scope Z_scope.

Definition two32 : Z := 4294967296.
Definition u32 (x : Z) : Z := x mod two32.

(* 14-17 *)
Definition rol (value steps : Z) : Z :=
  Z.lor (u32 (Z.shiftl value steps)) (Z.shiftr value (32 - steps)).
Definition not32 (x : Z) : Z := u32 (Z.lnot x).

Definition wbuf := list (option Z).
Definition rdw (w : wbuf) (i : nat) : outcome Z :=
  match nth_error w i with Some (Some v) => Ok v | _ => UB end.
(* 21-25: pos counts down *)
Definition clear_w (w : wbuf) : outcome wbuf :=
  ofold (fun w pos => oset w pos (Some 0)) (rev (seq 0 16)) w.

Notation regs := (Z * Z * Z * Z * Z)%type (only parsing).
(* 36-44 *)
Definition sha1macro (func : Z -> Z -> Z -> Z) (val : Z) (w : wbuf) (r : regs) (round : nat) : outcome regs :=
  let '(a, b, c, d, e) := r in
  wr <- rdw w round ;;
  Ok (u32 (rol a 5 + func b c d + e + val + wr), a, rol b 30, c, d).
Definition f_ch (b c d : Z) : Z := Z.lor (Z.land b c) (Z.land (not32 b) d).
Definition f_par (b c d : Z) : Z := Z.lxor (Z.lxor b c) d.
Definition f_maj (b c d : Z) : Z := Z.lor (Z.lor (Z.land b c) (Z.land b d)) (Z.land c d).
(* one loop of lines 51-73 *)
Definition rounds (func : Z -> Z -> Z -> Z) (val : Z) (l : list nat) (wr : wbuf * regs) : outcome (wbuf * regs) :=
  ofold (fun '(w, r) t =>
    a <- rdw w (t - 3) ;; b <- rdw w (t - 8) ;; c <- rdw w (t - 14) ;; d <- rdw w (t - 16) ;;
    w <- oset w t (Some (rol (Z.lxor (Z.lxor (Z.lxor a b) c) d) 1)) ;;
    r <- sha1macro func val w r t ;; Ok (w, r)) l wr.
(* 27-82 *)
Definition inner_hash (result : regs) (w : wbuf) : outcome (regs * wbuf) :=
  r <- ofold (fun r t => sha1macro f_ch 0x5a827999 w r t) (seq 0 16) result ;;
  x <- rounds f_ch 0x5a827999 (seq 16 4) (w, r) ;;
  x <- rounds f_par 0x6ed9eba1 (seq 20 20) x ;;
  x <- rounds f_maj 0x8f1bbcdc (seq 40 20) x ;;
  '(w, r) <- rounds f_par 0xca62c1d6 (seq 60 20) x ;;
  let '(h0, h1, h2, h3, h4) := result in
  let '(a, b, c, d, e) := r in
  Ok ((u32 (h0 + a), u32 (h1 + b), u32 (h2 + c), u32 (h3 + d), u32 (h4 + e)), w).

(* 99-113; the bytes are read as unsigned char.  The fuel bounds the number of blocks *)
Definition load_block (s : list Z) (cur : nat) (w : wbuf) : outcome wbuf :=
  ofold (fun w k =>
    b3 <- oget s (cur + 4 * k + 3) ;; b2 <- oget s (cur + 4 * k + 2) ;;
    b1 <- oget s (cur + 4 * k + 1) ;; b0 <- oget s (cur + 4 * k) ;;
    oset w k (Some (Z.lor (Z.lor (Z.lor b3 (Z.shiftl b2 8)) (Z.shiftl b1 16)) (Z.shiftl b0 24))))
    (seq 0 16) w.
Fixpoint full_blocks (fuel : nat) (s : list Z) (cur : nat) (result : regs) (w : wbuf)
  : outcome (nat * regs * wbuf) :=
  if (cur + 64 <=? length s)%nat then
    match fuel with
    | O => Diverge
    | S f =>
        w <- load_block s cur w ;;
        '(result, w) <- inner_hash result w ;;
        full_blocks f s (cur + 64) result w
    end
  else Ok (cur, result, w).
(* w[i >> 2] |= x << ((3 - (i & 3)) << 3), lines 121-126 *)
Definition or_byte (w : wbuf) (i : nat) (x : Z) : outcome wbuf :=
  o <- rdw w (i / 4) ;;
  oset w (i / 4) (Some (Z.lor o (Z.shiftl x (Z.shiftl (3 - Z.land (Z.of_nat i) 3) 3)))).
Definition hex_digits : list ascii :=
  ["0";"1";"2";"3";"4";"5";"6";"7";"8";"9";"a";"b";"c";"d";"e";"f"]%char.
(* 138-150 *)
Definition hex_hash (result : list Z) : outcome (list ascii) :=
  hash <- ofold (fun h i =>
      r <- oget result (i / 4) ;;
      oset h i (Z.land (Z.shiftr r (Z.shiftl (Z.land (3 - Z.of_nat i) 3) 3)) 255)) (rev (seq 0 20)) (repeat 0 20) ;;
  ofold (fun hex i =>
      b <- oget hash i ;;
      d1 <- oget hex_digits (Z.to_nat (Z.land (Z.shiftr b 4) 15)) ;;
      hex <- oset hex (2 * i) d1 ;;
      d2 <- oget hex_digits (Z.to_nat (Z.land b 15)) ;;
      oset hex (2 * i + 1) d2) (rev (seq 0 20)) (repeat "000"%char 40).
(* 85-151; bytelength << 3 is undefined when it does not fit in 32 bits.  s.size() is
   narrowed to int: the model stops (UB) long before, at 2^29 bytes. *)
Definition calc (s : list Z) : outcome (list ascii) :=
  '(cur, result, w) <- full_blocks (length s) s 0 (0x67452301, 0xefcdab89, 0x98badcfe, 0x10325476, 0xc3d2e1f0)
                         (repeat None 80) ;;
  let n := (length s - cur)%nat in
  w <- clear_w w ;;
  w <- ofold (fun w i => b <- oget s (i + cur) ;; or_byte w i b) (seq 0 n) w ;;
  w <- or_byte w n 0x80 ;;
  '(result, w) <- (if (56 <=? n)%nat then
                     '(result, w) <- inner_hash result w ;; w <- clear_w w ;; Ok (result, w)
                   else Ok (result, w)) ;;
  len8 <- (if Z.of_nat (length s) * 8 <? two32 then Ok (Z.of_nat (length s) * 8) else UB) ;;
  w <- oset w 15 (Some len8) ;;
  '(result, w) <- inner_hash result w ;;
  let '(h0, h1, h2, h3, h4) := result in
  hex_hash [h0; h1; h2; h3; h4].

Definition byte (c : ascii) : Z := Z.of_N (N_of_ascii c).
(* 153-162: each argument is given as its type name and its text *)
Fixpoint hash_ (s : list ascii) (args : list (list ascii * list ascii)) : outcome (list ascii) :=
  match args with
  | [] => calc (map byte s)
  | (ty, t) :: args => hash_ (s ++ ty ++ t) args
  end.
(* 166-169 *)
Definition hash (args : list (list ascii * list ascii)) : outcome (list ascii) := hash_ [] args.
