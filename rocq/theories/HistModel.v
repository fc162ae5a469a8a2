(* Histograms and running sums.  Source: include/vif/math/histogram.hpp 11-387.
   A datum is an exact rational or NaN (None); bin edges are rationals.  A bin array of
   dimensions [2, n] is the list of its n columns (lower edge, upper edge). *)
From Coq Require Import QArith.
From Verif Require Import Base InterpModel.
Local Open Scope nat_scope.

Notation bin := (Q * Q)%type (only parsing).
(* t >= lower && t < upper, false for NaN (histogram.hpp 70, 98, 203, 231, 254, 309, 315) *)
Definition in_bin (t : option Q) (b : bin) : bool :=
  match t with Some t => Qle_bool (fst b) t && qlt t (snd b) | None => false end.

(* histogram.hpp 16-26; d = (ma - mi)/n in floating point: with n = 0 no bin uses it *)
Definition make_bins (mi ma : Q) (n : nat) : list bin :=
  let d := ((ma - mi) / inject_Z (Z.of_nat n))%Q in
  map (fun i => (mi + inject_Z (Z.of_nat i) * d, mi + inject_Z (Z.of_nat (i + 1)) * d)%Q) (seq 0 n).

(* histogram.hpp 28-39 *)
Definition bins_from_edges (v : list Q) : outcome (list bin) :=
  _ <- check (1 <? length v) ;;
  omapl (fun i => a <- oget v i ;; b <- oget v (i + 1) ;; Ok (a, b)) (seq 0 (length v - 1)).

(* histogram.hpp 41-62; b is the array under construction *)
Definition bins_from_centers (v : list Q) : outcome (list bin) :=
  _ <- check (1 <? length v) ;;
  let n := length v in
  ofold (fun b i =>
      lo <- (if i =? 0 then v0 <- oget v 0 ;; v1 <- oget v 1 ;; Ok (v0 - (1 # 2) * (v1 - v0))%Q
             else p <- oget b (i - 1) ;; Ok (snd p)) ;;
      hi <- (if i =? n - 1 then a <- oget v (n - 1) ;; c <- oget v (n - 2) ;; Ok (a + (1 # 2) * (a - c))%Q
             else a <- oget v i ;; c <- oget v (i + 1) ;; Ok ((1 # 2) * (a + c))%Q) ;;
      Ok (b ++ [(lo, hi)])) (seq 0 n) [].

(* histogram.hpp 88-112: ib is checked against the number of bins *)
Definition in_bin_of (t : option Q) (bins : list bin) (ib : nat) : outcome bool :=
  _ <- check (ib <? length bins) ;; b <- oget bins ib ;; Ok (in_bin t b).
(* histogram.hpp 114-155; comparisons with NaN are false *)
Definition in_bin_open (t : option Q) (bins : list bin) (ib : nat) : outcome bool :=
  _ <- check (ib <? length bins) ;;
  b <- oget bins ib ;;
  Ok (match t with
      | None => false
      | Some t =>
          if ib =? 0 then qlt t (snd b)
          else if ib =? length bins - 1 then Qle_bool (fst b) t
          else Qle_bool (fst b) t && qlt t (snd b)
      end).
(* histogram.hpp 157-187 *)
Definition bin_center (b : bin) : Q := ((1 # 2) * (snd b + fst b))%Q.
Definition bin_width (b : bin) : Q := (snd b - fst b)%Q.

(* std::partition(first, last, p) rearranges the range so that the elements accepted by p
   come first; the order is unspecified.  It is a parameter of the model: [part k p l] is
   the result of the k-th call, as the accepted and the rejected elements. *)
Section Hist.
Context {A : Type}.
Variable part : nat -> (A -> bool) -> list A -> list A * list A.

(* histogram.hpp 201-211: [rest] is [first, end) *)
Fixpoint hist_loop (val : A -> option Q) (k : nat) (rest : list A) (bins : list bin) : list (list A) :=
  match bins with
  | [] => []
  | b :: bs =>
      let '(yes, no) := part k (fun t => in_bin (val t) b) rest in
      yes :: (if length no =? 0 then map (fun _ => []) bs else hist_loop val (S k) no bs)
  end.
(* histogram.hpp 190-213 *)
Definition histogram (d0 : nat) (val : A -> option Q) (data : list A) (bins : list bin) : outcome (list nat) :=
  _ <- check (d0 =? 2) ;; Ok (map (@length A) (hist_loop val 0 data bins)).

(* histogram.hpp 245-264: the iterator first is never moved *)
Fixpoint hist_calls (val : A -> option Q) (k : nat) (ids : list A) (bins : list bin) : list (list A) :=
  match bins with
  | [] => []
  | b :: bs =>
      let '(yes, no) := part k (fun t => in_bin (val t) b) ids in
      yes :: (if length no =? 0 then [] else hist_calls val (S k) (yes ++ no) bs)
  end.

(* histogram.hpp 299-326: per x bin, the lists of its y bins *)
Fixpoint hist2_loop (vx vy : A -> option Q) (k : nat) (rest : list A) (xbins ybins : list bin)
  : list (list (list A)) :=
  match xbins with
  | [] => []
  | b :: bs =>
      let '(yes, no) := part k (fun t => in_bin (vx t) b) rest in
      hist_loop vy (S k) yes ybins ::
      (if length no =? 0 then map (fun _ => map (fun _ => []) ybins) bs
       else hist2_loop vx vy (k + S (length ybins)) no bs ybins)
  end.
End Hist.

(* the datum of an index, data.safe[id] *)
Definition datum (data : list (option Q)) (id : nat) : option Q :=
  match nth_error data id with Some t => t | None => None end.

(* histogram.hpp 215-242, with weights: ids = indgen(data.size()) *)
Definition histogram_weighted (part : nat -> (nat -> bool) -> list nat -> list nat * list nat)
    (d0 : nat) (ddims wdims : list nat) (data : list (option Q)) (weight : list Q) (bins : list bin)
  : outcome (list Q) :=
  _ <- check (d0 =? 2) ;;
  _ <- check (if list_eq_dec Nat.eq_dec ddims wdims then true else false) ;;
  omapl (fun ids => ofold (fun s id => w <- oget weight id ;; Ok (s + w)%Q) ids 0%Q)
    (hist_loop part (datum data) 0 (seq 0 (length data)) bins).
(* histogram.hpp 267-284: the calls func(i, ids), in order *)
Definition histogram_callback (part : nat -> (nat -> bool) -> list nat -> list nat * list nat)
    (d0 : nat) (data : list (option Q)) (bins : list bin) : outcome (list (list nat)) :=
  _ <- check (d0 =? 2) ;;
  Ok (hist_calls part (datum data) 0 (seq 0 (length data)) bins).
(* histogram.hpp 330-345 *)
Definition histogram2d (part : nat -> (nat -> bool) -> list nat -> list nat * list nat)
    (dx0 dy0 : nat) (xdims ydims : list nat) (x y : list (option Q)) (xbins ybins : list bin)
  : outcome (list (list nat)) :=
  _ <- check (dx0 =? 2) ;; _ <- check (dy0 =? 2) ;;
  _ <- check (if list_eq_dec Nat.eq_dec xdims ydims then true else false) ;;
  Ok (map (map (@length nat)) (hist2_loop part (datum x) (datum y) 0 (seq 0 (length x)) xbins ybins)).

(* histogram.hpp 366-375: dr starts as zeros *)
Definition cumul (y : list Z) : outcome (list Z) :=
  ofold (fun dr i =>
      dr <- (if i =? 0 then Ok dr else p <- oget dr (i - 1) ;; oset dr i p) ;;
      d <- oget dr i ;; v <- oget y i ;; oset dr i (d + v)%Z)
    (seq 0 (length y)) (repeat 0%Z (length y)).
(* histogram.hpp 377-387 *)
Definition cumul_reverse (y : list Z) : outcome (list Z) :=
  ofold (fun dr i =>
      let ri := length y - 1 - i in
      dr <- (if i =? 0 then Ok dr else p <- oget y (ri + 1) ;; oset dr ri p) ;;
      d <- oget dr ri ;; v <- oget y ri ;; oset dr ri (d + v)%Z)
    (seq 0 (length y)) (repeat 0%Z (length y)).
