(* Matrices: products, diagonals, LU and Cholesky decompositions.
   Source: include/vif/math/bits/matrix-types.hpp 476-531 and matrix-functions.hpp.
   Arithmetic is exact: the operations of double are parameters (see MatSpec.v for the instances).
   A mat is a vec<2,T>: an image of ImageModel.v.  m.safe(i,j) is data[i*dims[1] + j] without any
   check.  Dividing by zero is not undefined for doubles: fdiv is total. *)
From Verif Require Import Base IndexModel VecModel ImageModel.

(* m.safe(i,j) for a matrix with n columns stored in d *)
Definition at2 {A} (n : nat) (d : list A) (i j : nat) : outcome A := oget d (i * n + j).

Section Mat.
Context {F : Type} (zero one : F) (fopp : F -> F) (fadd fsub fmul fdiv : F -> F -> F).
(* abs, a < b, a == b, a <= b, sqrt *)
Context (fabs : F -> F) (flt : F -> F -> bool) (feqb : F -> F -> bool) (fle : F -> F -> bool)
  (fsqrt : F -> F).

(* ---- matrix-types.hpp 476-531 ---- *)
(* 481-496: matrix * matrix *)
Definition mat_mul (a b : img F) : outcome (img F) :=
  _ <- check (nc a =? nr b) ;;
  r <- filled zero (nr a) (nc b) ;;
  d <- ofold (fun d '(i, k, j) =>
         x <- at2 (nc a) (pix a) i k ;; y <- at2 (nc b) (pix b) k j ;; s <- at2 (nc b) d i j ;;
         pset (nc b) d i j (fadd s (fmul x y)))
         (list_prod (list_prod (seq 0 (nr a)) (seq 0 (nc a))) (seq 0 (nc b))) (pix r) ;;
  Ok (Img (nr r) (nc r) d).
(* 500-514: matrix * vector; r.safe(i) is the access to one element of a vec<1> *)
Definition mat_vec (a : img F) (b : list F) : outcome (list F) :=
  _ <- check (nc a =? length b) ;;
  ofold (fun r '(i, k) =>
     x <- at2 (nc a) (pix a) i k ;; y <- oget b k ;; s <- oget r i ;; oset r i (fadd s (fmul x y)))
     (list_prod (seq 0 (nr a)) (seq 0 (nc a))) (repeat zero (nr a)).
(* 518-532: vector * matrix *)
Definition vec_mat (a : list F) (b : img F) : outcome (list F) :=
  _ <- check (length a =? nr b) ;;
  ofold (fun r '(k, i) =>
     x <- oget a k ;; y <- at2 (nc b) (pix b) k i ;; s <- oget r i ;; oset r i (fadd s (fmul x y)))
     (list_prod (seq 0 (nr b)) (seq 0 (nc b))) (repeat zero (nc b)).

(* ---- matrix-functions.hpp ---- *)
(* 15-29: diagonal of a constant or temporary matrix *)
Definition diagonal (v : img F) : outcome (list F) :=
  _ <- check (nr v =? nc v) ;;
  ofold (fun d i => x <- pget v i i ;; oset d i x) (seq 0 (nr v)) (repeat zero (nr v)).
(* 31-45: diagonal(m) = x for all elements of the view *)
Definition fill_diagonal (v : img F) (x : F) : outcome (img F) :=
  _ <- check (nr v =? nc v) ;;
  d <- ofold (fun d i => pset (nc v) d i i x) (seq 0 (nr v)) (pix v) ;;
  Ok (Img (nr v) (nc v) d).
(* 47-55 *)
Definition as_diagonal (v : list F) : outcome (img F) :=
  m <- filled zero (length v) (length v) ;;
  d <- ofold (fun d i => x <- oget v i ;; pset (nc m) d i i x) (seq 0 (length v)) (pix m) ;;
  Ok (Img (nr m) (nc m) d).
(* 57-62 *)
Definition make_identity (dim : nat) : outcome (img F) :=
  m <- filled zero dim dim ;; fill_diagonal m one.
(* 64-71 *)
Definition make_scale (sx sy : F) : outcome (img F) :=
  m <- filled zero 3 3 ;;
  d <- pset 3 (pix m) 0 0 sx ;; d <- pset 3 d 1 1 sy ;; d <- pset 3 d 2 2 one ;;
  Ok (Img 3 3 d).
(* 82-89 *)
Definition make_translation (tx ty : F) : outcome (img F) :=
  m <- filled zero 3 3 ;; m <- fill_diagonal m one ;;
  d <- pset 3 (pix m) 0 2 tx ;; d <- pset 3 d 1 2 ty ;;
  Ok (Img 3 3 d).
(* 91-100; ca and sa are the cosine and the sine of the angle *)
Definition make_rotation (ca sa : F) : outcome (img F) :=
  m <- filled zero 3 3 ;;
  d <- pset 3 (pix m) 1 1 ca ;; d <- pset 3 d 0 0 ca ;; d <- pset 3 d 0 1 (fopp sa) ;;
  d <- pset 3 d 1 0 sa ;; d <- pset 3 d 2 2 one ;;
  Ok (Img 3 3 d).
(* 105-113 *)
Definition inplace_symmetrize (v : img F) : outcome (img F) :=
  _ <- check (nr v =? nc v) ;;
  let n := nr v in
  d <- ofold (fun d i => ofold (fun d j => x <- at2 n d j i ;; pset n d i j x)
                           (seq (i + 1) (n - (i + 1))) d) (seq 0 n) (pix v) ;;
  Ok (Img n n d).

(* ---- 117-284: decompose_lu ---- *)
Record lu := Lu { u_mat : img F; u_piv : list nat; u_bad : bool; u_ns : nat }.
(* 150-158: the search of the pivot of column k; (akk, ipiv[k]) *)
Definition find_pivot (n : nat) (d : list F) (k p : nat) : outcome (F * nat) :=
  a <- at2 n d k k ;;
  ofold (fun '(akk, p) j =>
      x <- at2 n d j k ;;
      Ok (if flt akk (fabs x) then (fabs x, j) else (akk, p)))
    (seq (k + 1) (n - (k + 1))) (fabs a, p).
(* 164-166 *)
Definition swap_rows (n : nat) (d : list F) (p k : nat) : outcome (list F) :=
  ofold (fun d j => x <- at2 n d p j ;; y <- at2 n d k j ;;
                    d <- pset n d p j y ;; pset n d k j x) (seq 0 n) d.
(* 175-177 *)
Definition scale_row (n : nat) (d : list F) (k : nat) : outcome (list F) :=
  ofold (fun d j => x <- at2 n d k j ;; y <- at2 n d k k ;; pset n d k j (fdiv x y))
    (seq (k + 1) (n - (k + 1))) d.
(* 180-183 *)
Definition update_rest (n : nat) (d : list F) (k : nat) : outcome (list F) :=
  ofold (fun d '(i, j) => x <- at2 n d i j ;; y <- at2 n d i k ;; z <- at2 n d k j ;;
                          pset n d i j (fsub x (fmul y z)))
    (list_prod (seq (k + 1) (n - (k + 1))) (seq (k + 1) (n - (k + 1)))) d.
(* 148-184: the body of the loop over the columns; the state is (lu, ipiv, bad, ns) *)
Definition lu_step (no_pivot : bool) (n : nat) (s : list F * list nat * bool * nat) (k : nat) :
    outcome (list F * list nat * bool * nat) :=
  let '(d, ipiv, bad, ns) := s in
  '(d, ipiv, ns) <-
    (if no_pivot then Ok (d, ipiv, ns)
     else
       p0 <- oget ipiv k ;;
       '(_, p) <- find_pivot n d k p0 ;;
       ipiv <- oset ipiv k p ;;
       if p =? k then Ok (d, ipiv, ns)
       else d <- swap_rows n d p k ;; Ok (d, ipiv, ns + 1)) ;;
  a <- at2 n d k k ;;
  let bad := if feqb a zero then true else bad in
  d <- scale_row n d k ;;
  d <- update_rest n d k ;;
  Ok (d, ipiv, bad, ns).
(* 134-188; the result of the function is negb (u_bad r) *)
Definition lu_decompose (no_pivot : bool) (alpha : img F) : outcome lu :=
  _ <- check (nr alpha =? nc alpha) ;;
  let n := nr alpha in
  '(d, ipiv, bad, ns) <- ofold (lu_step no_pivot n) (seq 0 n) (pix alpha, seq 0 n, false, 0) ;;
  Ok (Lu (Img n n d) ipiv bad ns).
(* r[k] -= r[i]*lu(k,i) for i in a list (205-207, 217-219, 252-254, 264-266) *)
Definition sub_row (n : nat) (d r : list F) (k : nat) (is_ : list nat) : outcome (list F) :=
  ofold (fun r i => x <- oget r k ;; y <- oget r i ;; z <- at2 n d k i ;;
                    oset r k (fsub x (fmul y z))) is_ r.
(* 204-209, 246-256, once r[k] has been set *)
Definition forward_step (n : nat) (d r : list F) (k : nat) : outcome (list F) :=
  r <- sub_row n d r k (seq 0 k) ;;
  x <- oget r k ;; a <- at2 n d k k ;; oset r k (fdiv x a).
(* 190-226 *)
Definition lu_solve (no_pivot : bool) (u : lu) (x : list F) : outcome (list F) :=
  _ <- check (nr (u_mat u) =? length x) ;;
  let n := length x in
  let c := nc (u_mat u) in let d := pix (u_mat u) in
  '(_, r) <- ofold (fun '(x, r) k =>
      x <- (if no_pivot then Ok x
            else
              pk <- oget (u_piv u) k ;;
              if pk =? k then Ok x
              else a <- oget x k ;; b <- oget x pk ;; x <- oset x k b ;; oset x pk a) ;;
      a <- oget x k ;; r <- oset r k a ;;
      r <- forward_step c d r k ;;
      Ok (x, r)) (seq 0 n) (x, repeat zero n) ;;
  ofold (fun r k => sub_row c d r k (seq (k + 1) (n - (k + 1)))) (rev (seq 0 n)) r.
(* 228-273 *)
Definition lu_invert (no_pivot : bool) (u : lu) : outcome (img F) :=
  let n := nr (u_mat u) in let m := nc (u_mat u) in
  let d := pix (u_mat u) in
  inv <- filled zero n m ;;
  '(inv, _) <- ofold (fun '(inv, r) c =>
      '(r, _) <- ofold (fun '(r, i1) k =>
          '(r, i1) <-
            (if no_pivot then r <- oset r k one ;; Ok (r, i1)
             else
               pk <- oget (u_piv u) k ;;
               let i1 := if k =? i1 then pk else if pk =? i1 then k else i1 in
               r <- oset r k (if i1 =? k then one else zero) ;; Ok (r, i1)) ;;
          r <- forward_step m d r k ;;
          Ok (r, i1)) (seq 0 n) (r, c) ;;
      ofold (fun '(inv, r) k =>
          r <- sub_row m d r k (seq (k + 1) (n - (k + 1))) ;;
          x <- oget r k ;; inv <- pset m inv k c x ;;
          Ok (inv, r)) (rev (seq 0 n)) (inv, r))
    (seq 0 n) (pix inv, repeat zero n) ;;
  Ok (Img n m inv).
(* 275-283 *)
Definition lu_determinant (u : lu) : outcome F :=
  ofold (fun a i => x <- pget (u_mat u) i i ;; Ok (fmul a x)) (seq 0 (nr (u_mat u)))
    (if Nat.modulo (u_ns u) 2 =? 0 then one else fopp one).

(* 560-573 *)
Definition mat_determinant (v : img F) : outcome F :=
  _ <- check (nr v =? nc v) ;;
  u <- lu_decompose false v ;;
  if u_bad u then Ok zero else lu_determinant u.
(* 613-627 with NO_LAPACK; None when false is returned (the output is then left as it was).
   inplace_invert (585-588), invert_symmetric (673-687) and inplace_invert_symmetric (639-642) do
   the same *)
Definition mat_invert (a : img F) : outcome (option (img F)) :=
  u <- lu_decompose false a ;;
  if u_bad u then Ok None else i <- lu_invert false u ;; Ok (Some i).
(* 725-739 with NO_LAPACK; likewise inplace_solve (699-702), solve_symmetric (786-800) and
   inplace_solve_symmetric (752-755) *)
Definition mat_solve (alpha : img F) (beta : list F) : outcome (option (list F)) :=
  u <- lu_decompose false alpha ;;
  if u_bad u then Ok None else r <- lu_solve false u beta ;; Ok (Some r).

(* ---- 288-502: decompose_cholesky, compiled with NO_LAPACK ---- *)
(* 314-317 *)
Definition dot_rows (n : nat) (d : list F) (i j : nat) : outcome F :=
  ofold (fun s k => x <- at2 n d i k ;; y <- at2 n d j k ;; Ok (fadd s (fmul x y))) (seq 0 j) zero.
(* 312-329: element (i,j) with j <= i; None when the function returns false *)
Definition chol_element (n i : nat) (s : option (list F)) (j : nat) : outcome (option (list F)) :=
  match s with
  | None => Ok None
  | Some d =>
      s <- dot_rows n d i j ;;
      if i =? j then
        x <- at2 n d i i ;;
        let s := fsub x s in
        if fle s zero then Ok None else d <- pset n d i i (fsqrt s) ;; Ok (Some d)
      else
        x <- at2 n d i j ;; y <- at2 n d j j ;;
        d <- pset n d i j (fdiv (fsub x s) y) ;; Ok (Some d)
  end.
(* 311-334 *)
Definition chol_row (n : nat) (s : option (list F)) (i : nat) : outcome (option (list F)) :=
  s <- ofold (chol_element n i) (seq 0 (i + 1)) s ;;
  match s with
  | None => Ok None
  | Some d => d <- ofold (fun d j => pset n d i j zero) (seq (i + 1) (n - (i + 1))) d ;; Ok (Some d)
  end.
(* 303-351: None when false is returned *)
Definition chol_decompose (alpha : img F) : outcome (option (img F)) :=
  _ <- check (nr alpha =? nc alpha) ;;
  let n := nr alpha in
  s <- ofold (chol_row n) (seq 0 n) (Some (pix alpha)) ;;
  Ok (match s with None => None | Some d => Some (Img n n d) end).
(* 353-367 *)
Definition substitute_forward (l : img F) (x : list F) : outcome (list F) :=
  _ <- check (nr l =? length x) ;;
  ofold (fun x k => forward_step (nc l) (pix l) x k) (seq 0 (length x)) x.
(* 374-391 *)
Definition substitute_backward (l : img F) (x : list F) : outcome (list F) :=
  _ <- check (nr l =? length x) ;;
  let n := length x in
  ofold (fun x k =>
      x <- ofold (fun x i => a <- oget x k ;; b <- oget x i ;; c <- pget l i k ;;
                             oset x k (fsub a (fmul b c))) (seq (k + 1) (n - (k + 1))) x ;;
      a <- oget x k ;; c <- pget l k k ;; oset x k (fdiv a c)) (rev (seq 0 n)) x.
(* 398-420 *)
Definition chol_solve (l : img F) (x : list F) : outcome (list F) :=
  _ <- check (nr l =? length x) ;;
  x <- substitute_forward l x ;; substitute_backward l x.
(* 430-433, 461-464: row c of inv receives x, and x is set to 0 *)
Definition store_row (m : nat) (inv x : list F) (c : nat) : outcome (list F * list F) :=
  ofold (fun '(inv, x) i => a <- oget x i ;; inv <- pset m inv c i a ;; x <- oset x i zero ;; Ok (inv, x))
    (seq 0 (length x)) (inv, x).
(* 422-436 *)
Definition chol_invert (l : img F) : outcome (img F) :=
  let n := nr l in
  inv <- filled zero n (nc l) ;;
  '(inv, _) <- ofold (fun '(inv, x) c =>
      x <- oset x c one ;; x <- substitute_forward l x ;; x <- substitute_backward l x ;;
      store_row (nc l) inv x c) (seq 0 n) (pix inv, repeat zero n) ;;
  Ok (Img n (nc l) inv).
(* 455-468 *)
Definition lower_inverse (l : img F) : outcome (img F) :=
  let n := nr l in
  inv <- filled zero n (nc l) ;;
  '(inv, _) <- ofold (fun '(inv, x) c =>
      x <- oset x c one ;; x <- substitute_backward l x ;;
      store_row (nc l) inv x c) (seq 0 n) (pix inv, repeat zero n) ;;
  Ok (Img n (nc l) inv).
(* 484-492 *)
Definition lower_determinant (l : img F) : outcome F :=
  ofold (fun a i => x <- pget l i i ;; Ok (fmul a x)) (seq 0 (nr l)) one.

End Mat.
Arguments Lu {F} u_mat u_piv u_bad u_ns.
Arguments u_mat {F} l.
Arguments u_piv {F} l.
Arguments u_bad {F} l.
Arguments u_ns {F} l.
