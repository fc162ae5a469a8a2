(* Linear fits.  Source: include/vif/math/linfit.hpp, compiled with NO_LAPACK (the inverse of a
   symmetric matrix is then the one of matrix-functions.hpp 673-687).
   Arithmetic is exact: the operations of double are parameters.  None is a value that is not finite.
   A cache is a vec<2,double>: an image of ImageModel.v, np rows of nm elements. *)
From Verif Require Import Base IndexModel VecModel ImageModel MatModel.
Local Open Scope nat_scope.

(* an argument: a scalar, or a vec with its dims *)
Inductive arg (F : Type) := AS (x : F) | AV (dims : list nat) (data : list F).
Arguments AS {F} x.
Arguments AV {F} dims data.

(* linfit_result (11-22) *)
Record lres (F : Type) := Lres { success : bool; chi2 : option F; params : list (option F);
                                 errors : list (option F); cov : img F }.
Arguments Lres {F} success chi2 params errors cov.
Arguments success {F} l.
Arguments chi2 {F} l.
Arguments params {F} l.
Arguments errors {F} l.
Arguments cov {F} l.
(* linfit_nn_result (24-32) *)
Record nnres (F : Type) := Nnres { n_success : bool; n_chi2 : option F; n_params : list (option F) }.
Arguments Nnres {F} n_success n_chi2 n_params.
Arguments n_success {F} n.
Arguments n_chi2 {F} n.
Arguments n_params {F} n.

Section Linfit.
Context {F : Type} (zero one : F) (fadd fsub fmul fdiv : F -> F -> F).
Context (fabs : F -> F) (flt : F -> F -> bool) (feqb : F -> F -> bool) (fsqrt : F -> F).

(* arithmetic with values that are not finite *)
Definition lift2 (f : F -> F -> F) (a b : option F) : option F :=
  match a, b with Some x, Some y => Some (f x y) | _, _ => None end.
(* x / y; NaN or infinite when y is 0 *)
Definition ndiv (a b : option F) : option F :=
  match a, b with Some x, Some y => if feqb y zero then None else Some (fdiv x y) | _, _ => None end.

(* meta::size (helpers.hpp 290-301) *)
Definition arg_size (t : arg F) : nat := match t with AS _ => 1 | AV _ l => length l end.
(* meta::same_dims_or_scalar(y, ...) with a first argument that is a vec of n elements
   (helpers.hpp 315-357): only the sizes are compared, and nothing is when n is 0 *)
Definition same_dims (n : nat) (ts : list (arg F)) : bool :=
  (n =? 0) || forallb (fun t => match t with AS _ => true | AV _ l => length l =? n end) ts.
(* t/ye; the errors are not 0 (the quotient of a field is total).  The operator on two vecs checks
   their dims *)
Definition arg_div (t ye : arg F) : outcome (arg F) :=
  match t, ye with
  | AS x, AS e => Ok (AS (fdiv x e))
  | AV d l, AS e => Ok (AV d (map (fun x => fdiv x e) l))
  | AS x, AV d es => Ok (AV d (map (fun e => fdiv x e) es))
  | AV d l, AV d' es =>
      _ <- check (if list_eq_dec Nat.eq_dec d d' then true else false) ;;
      l <- omapl (fun i => x <- oget l i ;; e <- oget es i ;; Ok (fdiv x e)) (seq 0 (length l)) ;;
      Ok (AV d l)
  end.
(* cache.safe(i,_) = flatten(t): vec.hpp 740-745 and 777-788 *)
Definition set_row (c : img F) (i : nat) (t : arg F) : outcome (img F) :=
  match t with
  | AS x =>
      d <- ofold (fun d m => pset (nc c) d i m x) (seq 0 (nc c)) (pix c) ;; Ok (Img (nr c) (nc c) d)
  | AV _ l =>
      _ <- check (nc c =? length l) ;;
      d <- ofold (fun d m => x <- oget l m ;; pset (nc c) d i m x) (seq 0 (length l)) (pix c) ;;
      Ok (Img (nr c) (nc c) d)
  end.
(* 35-45: linfit_make_cache_, for the arguments from the i-th on *)
Fixpoint make_cache (c : img F) (ye : arg F) (i : nat) (ts : list (arg F)) : outcome (img F) :=
  match ts with
  | [] => Ok c
  | t :: ts => q <- arg_div t ye ;; c <- set_row c i q ;; make_cache c ye (i + 1) ts
  end.

(* alpha.safe(i,j) = 0; for (m) alpha.safe(i,j) += cache.safe(i,m)*cache.safe(j,m) (59-63, 303-307,
   319-322) *)
Definition gram_sum (np : nat) (c : img F) (d : list F) (i j : nat) : outcome (list F) :=
  d <- pset np d i j zero ;;
  ofold (fun d m => s <- at2 np d i j ;; x <- pget c i m ;; y <- pget c j m ;;
                    pset np d i j (fadd s (fmul x y))) (seq 0 (nc c)) d.
(* 58-67, 302-310 *)
Definition gram_cell (np : nat) (c : img F) (i : nat) (d : list F) (j : nat) : outcome (list F) :=
  if i <=? j then gram_sum np c d i j else x <- at2 np d j i ;; pset np d i j x.
(* beta.safe[i] = 0; for (m) beta.safe[i] += cache.safe(i,m)*ny.safe[m] (70-74, 414-418) *)
Definition beta_sum (c : img F) (ny b : list F) (i : nat) : outcome (list F) :=
  b <- oset b i zero ;;
  ofold (fun b m => s <- oget b i ;; x <- pget c i m ;; y <- oget ny m ;; oset b i (fadd s (fmul x y)))
    (seq 0 (nc c)) b.
(* 47-76: linfit_make_alpha_beta_ *)
Definition make_alpha_beta (ny : list F) (c : img F) : outcome (img F * list F) :=
  let np := nr c in
  a <- filled zero np np ;;
  '(d, b) <- ofold (fun '(d, b) i =>
      d <- ofold (gram_cell np c i) (seq 0 np) d ;;
      b <- beta_sum c ny b i ;; Ok (d, b)) (seq 0 np) (pix a, repeat zero np) ;;
  Ok (Img np np d, b).

(* model.safe[m] = 0; for (i) model.safe[m] += params.safe[i]*cache.safe(i,m)   (106-112, 165-171,
   435-441) *)
Definition make_model (c : img F) (ps : list (option F)) : outcome (list (option F)) :=
  ofold (fun l m =>
      l <- oset l m (Some zero) ;;
      ofold (fun l i => s <- oget l m ;; p <- oget ps i ;; x <- pget c i m ;;
                        oset l m (lift2 fadd s (lift2 fmul p (Some x)))) (seq 0 (nr c)) l)
    (seq 0 (nc c)) (repeat (Some zero) (nc c)).
(* total(sqr(model - ny)); the difference of two vecs checks their dims *)
Definition total_sqr (model : list (option F)) (ny : list F) : outcome (option F) :=
  _ <- check (length model =? length ny) ;;
  Ok (fold_left (fun s '(a, b) => let r := lift2 fsub a (Some b) in lift2 fadd s (lift2 fmul r r))
        (combine model ny) (Some zero)).
Definition make_chi2 (c : img F) (ps : list (option F)) (ny : list F) : outcome (option F) :=
  model <- make_model c ps ;; total_sqr model ny.

Definition invert := mat_invert zero one fsub fmul fdiv fabs flt feqb.
Definition nans (n : nat) : list (option F) := repeat None n.

(* flatten(y/ye), used as a vec: one of the two is a vec *)
Definition flat (t : arg F) : list F := match t with AS x => [x] | AV _ l => l end.

(* 78-117: linfit_do_ *)
Definition linfit_do (y ye : arg F) (c : img F) : outcome (lres F) :=
  q <- arg_div y ye ;;
  let ny := flat q in
  '(alpha, beta) <- make_alpha_beta ny c ;;
  i <- invert alpha ;;
  match i with
  | None =>
      alpha <- inplace_symmetrize alpha ;;
      Ok (Lres false None (nans (nr c)) (nans (nr c)) alpha)
  | Some alpha =>
      alpha <- inplace_symmetrize alpha ;;
      ps <- mat_vec zero fadd fmul alpha beta ;;
      dg <- diagonal zero alpha ;;
      x2 <- make_chi2 c (map Some ps) ny ;;
      Ok (Lres true x2 (map Some ps) (map (fun x => Some (fsqrt x)) dg) alpha)
  end.

(* 119-176: linfit_do_nn_ *)
(* 144-156: one coefficient; the state is (params, ta, tb) *)
Definition nn_update (alpha : img F) (beta : list F) (s : list (option F) * option F * option F) (m0 : nat) :
    outcome (list (option F) * option F * option F) :=
  let '(ps, ta, tb) := s in
  av <- ofold (fun av m1 => a <- pget alpha m0 m1 ;; p <- oget ps m1 ;;
                            Ok (lift2 fadd av (lift2 fmul (Some a) p))) (seq 0 (nr alpha)) (Some zero) ;;
  old <- oget ps m0 ;;
  b <- oget beta m0 ;;
  let new := lift2 fmul old (ndiv (Some b) av) in
  ps <- oset ps m0 new ;;
  Ok (ps, lift2 fadd ta (match lift2 fsub new old with Some x => Some (fabs x) | None => None end),
      lift2 fadd tb old).
Definition nn_sweep (alpha : img F) (beta : list F) (ps : list (option F)) :=
  ofold (nn_update alpha beta) (seq 0 (nr alpha)) (ps, Some zero, Some zero).
(* 142-159: do ... while (ta/tb > tol && titer < titermax), from iteration titer, with
   titermax - titer = fuel > 0.  A comparison with NaN is false; an infinite ta/tb only comes with
   a coefficient that is not finite, or with tb = 0 *)
Fixpoint nn_loop (fuel : nat) (tol : F) (alpha : img F) (beta : list F) (ps : list (option F)) (titer : N) :
    outcome (list (option F) * N) :=
  match fuel with
  | 0 => Ok (ps, titer)
  | S fuel =>
      '(ps, ta, tb) <- nn_sweep alpha beta ps ;;
      let titer := (titer + 1)%N in
      match ndiv ta tb with
      | Some x => if flt tol x then nn_loop fuel tol alpha beta ps titer else Ok (ps, titer)
      | None => Ok (ps, titer)
      end
  end.
(* success is false from the start (25) *)
Definition linfit_do_nn (titermax : nat) (tol : F) (y ye : arg F) (c : img F) : outcome (nnres F) :=
  q <- arg_div y ye ;;
  let ny := flat q in
  '(alpha, beta) <- make_alpha_beta ny c ;;
  let ps := map (fun b => Some (if flt zero b then one else zero)) beta in
  '(ps, titer) <- nn_loop titermax tol alpha beta ps 0 ;;
  let suc := false in
  let suc := if (titer =? N.of_nat titermax)%N then false else suc in
  x2 <- make_chi2 c ps ny ;;
  Ok (Nnres suc x2 ps).

(* 178-186 and 191-196, 237-242; y is a vec *)
Definition linfit_check (y ye : arg F) (ts : list (arg F)) : outcome unit :=
  let n := arg_size y in
  if same_dims n (ye :: ts) then Ok tt
  else _ <- check (same_dims n [ye]) ;; ofold (fun _ t => check (same_dims n [t])) ts tt.
Definition linfit_cache (y ye : arg F) (ts : list (arg F)) : outcome (img F) :=
  _ <- linfit_check y ye ts ;;
  c <- filled zero (length ts) (arg_size y) ;;
  make_cache c ye 0 ts.
(* 189-205 *)
Definition linfit (y ye : arg F) (ts : list (arg F)) : outcome (lres F) :=
  c <- linfit_cache y ye ts ;; linfit_do y ye c.
(* 235-251 *)
Definition linfit_nn (titermax : nat) (tol : F) (y ye : arg F) (ts : list (arg F)) : outcome (nnres F) :=
  c <- linfit_cache y ye ts ;; linfit_do_nn titermax tol y ye c.

(* 210-230, 256-276: y, ye and x are vecs, of dims dy, de and dx; dy and de have the same number of
   dims, dx one more *)
(* cache.safe(i,j) = x.safe[i*x.pitch(0) + j]/ye.safe[j], for all i and j (227-230, 273-276, 377-380) *)
Definition pack_loop (pitch : nat) (x ye : list F) (c : img F) : outcome (img F) :=
  d <- ofold (fun d '(i, j) => a <- oget x (i * pitch + j) ;; e <- oget ye j ;; pset (nc c) d i j (fdiv a e))
         (grid (nr c) (nc c)) (pix c) ;;
  Ok (Img (nr c) (nc c) d).
Definition pack_cache (dy : list nat) (y : list F) (de : list nat) (ye : list F) (dx : list nat) (x : list F) :
    outcome (img F) :=
  match dx with
  | [] => UB
  | np :: dx =>
      _ <- check (forallb (fun '(a, (b, c)) => (a =? b) && (a =? c)) (combine dx (combine de dy))) ;;
      c <- filled zero np (length y) ;;
      pack_loop (nprod dx) x ye c
  end.
(* 207-233 *)
Definition linfit_pack dy y de ye dx x : outcome (lres F) :=
  c <- pack_cache dy y de ye dx x ;; linfit_do (AV dy y) (AV de ye) c.
(* 253-279 *)
Definition linfit_nn_pack (titermax : nat) (tol : F) dy y de ye dx x : outcome (nnres F) :=
  c <- pack_cache dy y de ye dx x ;; linfit_do_nn titermax tol (AV dy y) (AV de ye) c.

(* ---- 281-445: linfit_batch_t ---- *)
Record batch := Batch { b_ye : arg F; b_cache : img F; b_beta : list F; b_alpha : img F; b_fr : lres F }.

(* 292-312 *)
Definition update_matrix (b : batch) : outcome batch :=
  let c := b_cache b in let np := nr c in
  a <- filled zero np np ;;
  d <- ofold (fun d i => ofold (gram_cell np c i) (seq 0 np) d) (seq 0 np) (pix a) ;;
  Ok (Batch (b_ye b) c (repeat zero np) (Img np np d) (b_fr b)).
(* 314-325 *)
Definition update_matrix_i (b : batch) (i : nat) : outcome batch :=
  let c := b_cache b in let np := nr c in
  d <- ofold (fun d j => d <- gram_sum np c d i j ;; x <- at2 np d i j ;; pset np d j i x)
         (seq 0 np) (pix (b_alpha b)) ;;
  Ok (Batch (b_ye b) c (b_beta b) (Img np np d) (b_fr b)).
(* 327-343 *)
Definition invert_matrix (b : batch) : outcome batch :=
  let np := nr (b_cache b) in let fr := b_fr b in
  i <- invert (b_alpha b) ;;
  fr <- match i with
        | None => Ok (Lres false None (nans np) (nans np) (cov fr))
        | Some cv => dg <- diagonal zero cv ;;
                     Ok (Lres true (chi2 fr) (params fr) (map (fun x => Some (fsqrt x)) dg) cv)
        end ;;
  cv <- inplace_symmetrize (cov fr) ;;
  Ok (Batch (b_ye b) (b_cache b) (b_beta b) (b_alpha b)
        (Lres (success fr) (chi2 fr) (params fr) (errors fr) cv)).
(* 344-356; the errors are a vec *)
Definition update_model_ (b : batch) (i : nat) (x : list F) : outcome batch :=
  let c := b_cache b in
  _ <- check (i <? nr c) ;;
  d <- ofold (fun d j => a <- oget x j ;; e <- oget (flat (b_ye b)) j ;; pset (nc c) d i j (fdiv a e))
         (seq 0 (nc c)) (pix c) ;;
  update_matrix_i (Batch (b_ye b) (Img (nr c) (nc c) d) (b_beta b) (b_alpha b) (b_fr b)) i.
(* 11-16: what the members are at first *)
Definition fr0 : lres F := Lres false None [] [] (Img 0 0 []).
(* 359-369 *)
Definition linfit_batch (ye : arg F) (ts : list (arg F)) : outcome batch :=
  c <- filled zero (length ts) (arg_size ye) ;;
  c <- make_cache c ye 0 ts ;;
  b <- update_matrix (Batch ye c [] (Img 0 0 []) fr0) ;; invert_matrix b.
(* 371-384: the errors are a vec es of dims de *)
Definition linfit_pack_batch (de : list nat) (es : list F) (dx : list nat) (x : list F) : outcome batch :=
  match dx with
  | [] => UB
  | np :: dx =>
      c <- filled zero np (length es) ;;
      c <- pack_loop (nprod dx) x es c ;;
      b <- update_matrix (Batch (AV de es) c [] (Img 0 0 []) fr0) ;; invert_matrix b
  end.
(* 386-390 *)
Definition update_model (b : batch) (i : nat) (x : list F) : outcome batch :=
  b <- update_model_ b i x ;; invert_matrix b.
(* 392-400 *)
Fixpoint update_models (b : batch) (l : list (nat * list F)) : outcome batch :=
  match l with
  | [] => invert_matrix b
  | (i, x) :: l => b <- update_model_ b i x ;; update_models b l
  end.
(* 402-422; y is a vec *)
Definition fit_nochi2 (b : batch) (y : arg F) : outcome batch :=
  _ <- check (same_dims (arg_size y) [b_ye b]) ;;
  if negb (success (b_fr b)) then Ok b
  else
    q <- arg_div y (b_ye b) ;;
    be <- ofold (beta_sum (b_cache b) (flat q)) (seq 0 (nr (b_cache b))) (b_beta b) ;;
    ps <- mat_vec zero fadd fmul (cov (b_fr b)) be ;;
    let fr := b_fr b in
    Ok (Batch (b_ye b) (b_cache b) be (b_alpha b)
          (Lres (success fr) (chi2 fr) (map Some ps) (errors fr) (cov fr))).
(* 430-444 *)
Definition update_chi2 (b : batch) (y : arg F) : outcome batch :=
  model <- make_model (b_cache b) (params (b_fr b)) ;;
  q <- arg_div y (b_ye b) ;;
  x2 <- total_sqr model (flat q) ;;
  let fr := b_fr b in
  Ok (Batch (b_ye b) (b_cache b) (b_beta b) (b_alpha b)
        (Lres (success fr) x2 (params fr) (errors fr) (cov fr))).
(* 424-428 *)
Definition fit (b : batch) (y : arg F) : outcome batch := b <- fit_nochi2 b y ;; update_chi2 b y.

End Linfit.
Arguments Batch {F} b_ye b_cache b_beta b_alpha b_fr.
Arguments b_ye {F} b.
Arguments b_cache {F} b.
Arguments b_beta {F} b.
Arguments b_alpha {F} b.
Arguments b_fr {F} b.
