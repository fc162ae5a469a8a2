(* Cross matching of catalogues.  Source: include/vif/astro/qxmatch.hpp, the brute force algorithm
   (491-607) and xmatch_clean_best (641-663).
   The distances are only compared, so they are integers here (any finite set of doubles can be
   numbered in increasing order); None is +infinity.  Distances that are NaN do not occur: the
   coordinates are checked to be finite.  An index npos is None. *)
From Verif Require Import Base IndexModel VecModel ImageModel MatModel.

(* 8-12; id and d are stored row by row: element (k, i) of nth x n1 is at k*n1 + i *)
Record xres := XRes { x_id : list (option nat); x_d : list (option Z); x_rid : list (option nat); x_rd : list (option Z) }.

(* a < b for distances *)
Definition dlt (a b : option Z) : bool :=
  match a, b with
  | Some x, Some y => (x <? y)%Z
  | Some _, None => true
  | None, _ => false
  end.

Section Brute.
(* distance_proxy(i,j) *)
Variable dist : nat -> nat -> option Z.
Variables (nth n1 n2 : nat) (self no_mirror : bool).

(* 502-507; the loop variable of the library is k - 1 here, k = 0 stands for npos *)
Fixpoint bubble (i k : nat) (id : list (option nat)) (d : list (option Z)) : outcome (list (option nat) * list (option Z)) :=
  match k with
  | O => Ok (id, d)
  | S k' =>
      a <- at2 n1 d k' i ;; b <- at2 n1 d (k' + 1) i ;;
      if dlt b a then
        d <- pset n1 d k' i b ;; d <- pset n1 d (k' + 1) i a ;;
        ia <- at2 n1 id k' i ;; ib <- at2 n1 id (k' + 1) i ;;
        id <- pset n1 id k' i ib ;; id <- pset n1 id (k' + 1) i ia ;;
        bubble i k' id d
      else Ok (id, d)
  end.
(* 492-515 *)
Definition work (r : xres) (i j : nat) : outcome xres :=
  let sd := dist i j in
  last <- at2 n1 (x_d r) (nth - 1) i ;;
  ' (id, d) <-
    (if dlt sd last then
       id <- pset n1 (x_id r) (nth - 1) i (Some j) ;; d <- pset n1 (x_d r) (nth - 1) i sd ;;
       bubble i (nth - 1) id d
     else Ok (x_id r, x_d r)) ;;
  if no_mirror then Ok (XRes id d (x_rid r) (x_rd r))
  else
    c <- oget (x_rd r) j ;;
    if dlt sd c then
      rid <- oset (x_rid r) j (Some i) ;; rd <- oset (x_rd r) j sd ;; Ok (XRes id d rid rd)
    else Ok (XRes id d (x_rid r) (x_rd r)).
(* 520-527, 561-567: the sources tbeg <= i < tend *)
Definition scan (tbeg tend : nat) (r : xres) : outcome xres :=
  ofold (fun r i =>
    ofold (fun r j => if self && (i =? j) then Ok r else work r i j) (seq 0 n2) r) (seq tbeg (tend - tbeg)) r.
(* 155-161, 538-546; the sizes are supposed to fit in memory *)
Definition empty_res : xres :=
  XRes (repeat None (nth * n1)) (repeat None (nth * n1))
       (if no_mirror then [] else repeat None n2) (if no_mirror then [] else repeat None n2).

(* 589-591: the columns tbeg..tend-1 are copied; the range is checked, also for .safe
   (core/bits/access.hpp 279-282) *)
Definition copy_cols {A} (tbeg tend : nat) (from to : list A) : outcome (list A) :=
  is_ <- rng_loop (RLeftRight (Z.of_nat tbeg) (wrap64 (Z.of_nat tend - 1))) (Z.of_nat n1) ;;
  ofold (fun to '(k, i) => a <- at2 n1 from k i ;; pset n1 to k i a)
    (list_prod (seq 0 nth) (map Z.to_nat is_)) to.
(* 593-604 *)
Definition merge_mirror (t : nat) (v r : xres) : outcome (list (option nat) * list (option Z)) :=
  if no_mirror then Ok (x_rid r, x_rd r)
  else if (t =? 0) then Ok (x_rid v, x_rd v)
  else
    ofold (fun s j =>
      let '(rid, rd) := s in
      a <- oget rd j ;; b <- oget (x_rd v) j ;;
      if dlt a b then Ok (rid, rd)
      else
        ib <- oget (x_rid v) j ;; rid <- oset rid j ib ;; rd <- oset rd j b ;; Ok (rid, rd))
      (seq 0 n2) (x_rid r, x_rd r).
Definition merge (t tbeg tend : nat) (v r : xres) : outcome xres :=
  id <- copy_cols tbeg tend (x_id v) (x_id r) ;;
  d <- copy_cols tbeg tend (x_d v) (x_d r) ;;
  ' (rid, rd) <- merge_mirror t v r ;;
  Ok (XRes id d rid rd).

(* 517-607.  Each thread works on its own result, and the results are merged after all threads
   are joined: the interleaving does not matter.  assigned is floor(n1/float(thread)), kept as a
   parameter because of the rounding of the float. *)
Definition brute (thread assigned : nat) : outcome xres :=
  if thread <=? 1 then scan 0 n1 empty_res
  else
    ofold (fun r t =>
        let tbeg := t * assigned in
        let tend := if t =? thread - 1 then n1 else t * assigned + assigned in
        v <- scan tbeg tend empty_res ;; merge t tbeg tend v r)
      (seq 0 thread) empty_res.
End Brute.

(* a distance as returned *)
Inductive dval (T : Type) := Fin (x : T) | Inf | NaN.
Arguments Fin {T} x. Arguments Inf {T}. Arguments NaN {T}.
(* 217-225: proxy_to_true; conv is its effect on finite distances.  sqrt(+inf) is +inf and
   asin(+inf) is NaN. *)
Definition proxy_to_true {T} (linear : bool) (conv : Z -> T) (d : option Z) : dval T :=
  match d with Some x => Fin (conv x) | None => if linear then Inf else NaN end.

Record xout (T : Type) := XOut { o_id : list (option nat); o_d : list (dval T); o_rid : list (option nat); o_rd : list (dval T) }.
Arguments XOut {T} _ _ _ _. Arguments o_id {T} _. Arguments o_d {T} _. Arguments o_rid {T} _. Arguments o_rd {T} _.

(* 133-165, 609-616 with brute_force set; nth is at least 1 *)
Definition qxmatch_brute {T} (conv : Z -> T) (dist : nat -> nat -> option Z) (n1 n2 nth thread assigned : nat)
    (self no_mirror linear : bool) : outcome (xout T) :=
  let nth := Nat.max nth 1 in
  let m := if no_mirror then 0 else n2 in
  if (n1 =? 0) || (n2 =? 0) then
    Ok (XOut (repeat None (nth * n1)) (repeat Inf (nth * n1)) (repeat None m) (repeat Inf m))
  else
    r <- brute dist nth n1 n2 self no_mirror thread assigned ;;
    Ok (XOut (x_id r) (map (proxy_to_true linear conv) (x_d r)) (x_rid r) (map (proxy_to_true linear conv) (x_rd r))).

(* 641-663: id1, id2, lost.  r.id[i] is an element of the first row; r.rid[..] is checked, and
   npos is not a valid index.  ngal is r.id.dims[1]. *)
Definition xmatch_clean_best (ngal : nat) (id rid : list (option nat)) : outcome (list nat * list nat * list nat) :=
  ofold (fun s i =>
    let '(id1, id2, lost) := s in
    _ <- check (i <? length id) ;; k <- oget id i ;;
    match k with
    | None => CheckFail
    | Some k =>
        _ <- check (k <? length rid) ;; b <- oget rid k ;;
        match b with
        | Some b => if b =? i then Ok (id1 ++ [i], id2 ++ [k], lost) else Ok (id1, id2, lost ++ [i])
        | None => Ok (id1, id2, lost ++ [i])
        end
    end) (seq 0 ngal) ([], [], []).
