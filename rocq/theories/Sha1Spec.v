(* SHA-1 as in FIPS 180-4, on sequences of bytes. *)
From Coq Require Import Ascii.
From Verif Require Import Base.
Local Open Scope Z_scope.

Definition W32 : Z := 2 ^ 32.
(* 2.2.2, 3.2: rotation by arithmetic *)
Definition ROTL (n x : Z) : Z := (x * 2 ^ n) mod W32 + x / 2 ^ (32 - n).
Definition compl (x : Z) : Z := W32 - 1 - x.
(* 4.1.1 *)
Definition Ch (x y z : Z) : Z := Z.lxor (Z.land x y) (Z.land (compl x) z).
Definition Parity (x y z : Z) : Z := Z.lxor (Z.lxor x y) z.
Definition Maj (x y z : Z) : Z := Z.lxor (Z.lxor (Z.land x y) (Z.land x z)) (Z.land y z).
Definition ft (t : nat) : Z -> Z -> Z -> Z :=
  if (t <? 20)%nat then Ch else if (t <? 40)%nat then Parity else if (t <? 60)%nat then Maj else Parity.
(* 4.2.1 *)
Definition Kt (t : nat) : Z :=
  if (t <? 20)%nat then 0x5a827999 else if (t <? 40)%nat then 0x6ed9eba1
  else if (t <? 60)%nat then 0x8f1bbcdc else 0xca62c1d6.
(* 5.2.1: words are big-endian *)
Definition word_at (b : list Z) (i : nat) : Z :=
  nth (4 * i) b 0 * 2 ^ 24 + nth (4 * i + 1) b 0 * 2 ^ 16 + nth (4 * i + 2) b 0 * 2 ^ 8 + nth (4 * i + 3) b 0.
Definition block_words (b : list Z) : list Z := map (word_at b) (seq 0 16).
(* 6.1.2 step 1 *)
Definition next_word (w : list Z) : Z :=
  let t := length w in
  ROTL 1 (Z.lxor (Z.lxor (Z.lxor (nth (t - 3) w 0) (nth (t - 8) w 0)) (nth (t - 14) w 0)) (nth (t - 16) w 0)).
Fixpoint extend (n : nat) (w : list Z) : list Z :=
  match n with O => w | S n => extend n (w ++ [next_word w]) end.
Definition schedule (m : list Z) : list Z := extend 64 m.
(* step 3 *)
Definition round (w : list Z) (r : Z * Z * Z * Z * Z) (t : nat) : Z * Z * Z * Z * Z :=
  let '(a, b, c, d, e) := r in
  ((ROTL 5 a + ft t b c d + e + Kt t + nth t w 0) mod W32, a, ROTL 30 b, c, d).
(* steps 2-4 *)
Definition compress (h : Z * Z * Z * Z * Z) (block : list Z) : Z * Z * Z * Z * Z :=
  let '(h0, h1, h2, h3, h4) := h in
  let '(a, b, c, d, e) := fold_left (round (schedule (block_words block))) (seq 0 80) h in
  ((a + h0) mod W32, (b + h1) mod W32, (c + h2) mod W32, (d + h3) mod W32, (e + h4) mod W32).
(* 5.3.1 *)
Definition H0 : Z * Z * Z * Z * Z := (0x67452301, 0xefcdab89, 0x98badcfe, 0x10325476, 0xc3d2e1f0).
Fixpoint blocks (n : nat) (b : list Z) : list (list Z) :=
  match n with O => [] | S n => firstn 64 b :: blocks n (skipn 64 b) end.
(* 5.1.1: k zero bytes; 64-bit big-endian length in bits *)
Definition be64 (x : Z) : list Z := map (fun i => x / 2 ^ (8 * i) mod 256) [7; 6; 5; 4; 3; 2; 1; 0].
Definition padded (m : list Z) (k : nat) : list Z :=
  m ++ [0x80] ++ repeat 0 k ++ be64 (8 * Z.of_nat (length m)).
(* the k of 5.1.1 is the smallest one that makes whole blocks *)
Definition padding (m : list Z) (k : nat) : Prop :=
  ((length m + 1 + k) mod 64 = 56)%nat /\ forall j, ((length m + 1 + j) mod 64 = 56 -> k <= j)%nat.
Definition digest_words (p : list Z) : Z * Z * Z * Z * Z := fold_left compress (blocks (length p / 64) p) H0.
(* the digest in hexadecimal *)
Definition hex_word (h : Z) : list ascii :=
  map (fun i => nth (Z.to_nat (h / 16 ^ i mod 16)) ["0";"1";"2";"3";"4";"5";"6";"7";"8";"9";"a";"b";"c";"d";"e";"f"]%char "?"%char)
    [7; 6; 5; 4; 3; 2; 1; 0].
Definition hex_digest (r : Z * Z * Z * Z * Z) : list ascii :=
  let '(a, b, c, d, e) := r in hex_word a ++ hex_word b ++ hex_word c ++ hex_word d ++ hex_word e.
