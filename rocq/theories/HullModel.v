(* Convex hulls.  Source: include/vif/math/convex_hull.hpp.
   Arithmetic is exact: coordinates are integers (finitely many doubles are integers after a
   multiplication by a common power of two, which changes no sign below). *)
From Verif Require Import Base IndexModel VecModel.
Open Scope Z_scope.

(* 12-102; the vertices and the cached flags *)
Record hull := Hull { h_x : list Z; h_y : list Z; h_validated : bool; h_closed : bool; h_orient : Z }.

(* 116-121: the comparator given to std::sort; it is only called with indices of points *)
Definition less (x y : list Z) (i j : nat) : bool :=
  if nth i x 0 <? nth j x 0 then true
  else if nth j x 0 <? nth i x 0 then false
  else nth i y 0 <? nth j y 0.
(* 123-126 *)
Definition cross3 (x y : list Z) (i j k : nat) : outcome Z :=
  xi <- oget x i ;; xj <- oget x j ;; xk <- oget x k ;;
  yi <- oget y i ;; yj <- oget y j ;; yk <- oget y k ;;
  Ok ((xj - xi) * (yk - yi) - (yj - yi) * (xk - xi)).
(* 130, 137: while (k >= lim && cross(res[k-2], res[k-1], p) <= 0) --k; *)
Fixpoint pop (x y : list Z) (res : list nat) (lim p k : nat) : outcome nat :=
  match k with
  | O => Ok O
  | S k' =>
      if (k <? lim)%nat then Ok k
      else
        a <- oget res (k - 2) ;; b <- oget res (k - 1) ;;
        c <- cross3 x y a b p ;;
        if c <=? 0 then pop x y res lim p k' else Ok k
  end.
(* 130-132, 137-139; the state is (res, k) *)
Definition push (x y : list Z) (lim : nat) (s : list nat * nat) (p : nat) : outcome (list nat * nat) :=
  let '(res, k) := s in
  k <- pop x y res lim p k ;; res <- oset res k p ;; Ok (res, (k + 1)%nat).
(* 108-150; std_sort stands for the call of std::sort with the comparator above.
   Without any point the second loop starts at i = 2^64-2 and reads ids.safe[i]. *)
Definition build_convex_hull (std_sort : list nat -> list nat) (x y : list Z) : outcome hull :=
  _ <- check (length x =? length y)%nat ;;
  let npt := length x in
  let ids := std_sort (seq 0 npt) in
  s <- ofold (fun s i => p <- oget ids i ;; push x y 2 s p) (seq 0 npt) (repeat 0%nat (2 * npt), 0%nat) ;;
  let t := (snd s + 1)%nat in
  if (npt =? 0)%nat then UB
  else
    s <- ofold (fun s i => p <- oget ids i ;; push x y t s p) (rev (seq 0 (npt - 1))) s ;;
    let res := firstn (snd s) (fst s) in
    hx <- omapl (oget x) res ;; hy <- omapl (oget y) res ;;
    Ok (Hull hx hy true true 1).

(* 42-59; eps is the epsilon of the type *)
Definition validate (eps : Z) (h : hull) : outcome hull :=
  if h_validated h then Ok h
  else
    let x := h_x h in let y := h_y h in
    _ <- check (length x =? length y)%nat ;;
    _ <- check (3 <=? length x)%nat ;;
    x0 <- oget x 0 ;; x1 <- oget x 1 ;; x2 <- oget x 2 ;;
    y0 <- oget y 0 ;; y1 <- oget y 1 ;; y2 <- oget y 2 ;;
    xe <- oget x (length x - 1) ;; ye <- oget y (length x - 1) ;;
    Ok (Hull x y true
         ((Z.abs (x0 - xe) <? eps) && (Z.abs (y0 - ye) <? eps))
         (if (x1 - x0) * (y2 - y1) - (y1 - y0) * (x2 - x1) >? 0 then 1 else -1)).
(* 24-27 *)
Definition make_hull (eps : Z) (x y : list Z) : outcome hull := validate eps (Hull x y false false 0).

(* 159-163: is the point on the inner side of edge i *)
Definition edge_ok (h : hull) (px py : Z) (i : nat) : outcome bool :=
  xi <- oget (h_x h) i ;; xj <- oget (h_x h) (i + 1) ;;
  yi <- oget (h_y h) i ;; yj <- oget (h_y h) (i + 1) ;;
  let cross := (xj - xi) * (py - yi) - (yj - yi) * (px - xi) in
  Ok (negb (cross * h_orient h <? 0)).
(* 158-166: the loop, left by the first edge with the point outside *)
Fixpoint edges_ok (h : hull) (px py : Z) (is_ : list nat) : outcome bool :=
  match is_ with
  | [] => Ok true
  | i :: is_ => b <- edge_ok h px py i ;; if b then edges_ok h px py is_ else Ok false
  end.
(* range(hull.size()-1); an empty hull would give 2^64-1 edges, reading x.safe[0] first *)
Definition hull_edges (h : hull) : outcome (list nat) :=
  match length (h_x h) with O => UB | S n => Ok (seq 0 n) end.
(* 152-167 *)
Definition in_convex_hull (eps px py : Z) (h : hull) : outcome bool :=
  h <- validate eps h ;;
  _ <- check (h_closed h) ;;
  es <- hull_edges h ;; edges_ok h px py es.
(* 169-191, for vectors of points; res is overwritten for the points outside.  Without points the
   inner loop does nothing. *)
Definition in_convex_hull_vec (eps : Z) (px py : list Z) (h : hull) : outcome (list bool) :=
  h <- validate eps h ;;
  _ <- check (h_closed h) ;;
  _ <- check (length px =? length py)%nat ;;
  es <- (if (length px =? 0)%nat then Ok [] else hull_edges h) ;;
  ofold (fun res i =>
      ofold (fun res p =>
          r <- oget res p ;;
          if negb r then Ok res
          else
            qx <- oget px p ;; qy <- oget py p ;;
            b <- edge_ok h qx qy i ;;
            if b then Ok res else oset res p false) (seq 0 (length px)) res)
    es (repeat true (length px)).
