(* What a linear fit is supposed to be. *)
From Verif Require Import Base ImageModel MatModel LinfitModel.
From mathcomp Require Import all_ssreflect all_algebra.
From Verif Require Import MatSpec.
Set Implicit Arguments.
Unset Strict Implicit.
Unset Printing Implicit Defensive.
Import GRing.Theory Num.Theory.
Local Open Scope ring_scope.

Section Spec.
Variable R : rcfType.

(* sum over the points of ((sum over i of a_i x_i - y)/e)^2 *)
Definition chi2_of (p n : nat) (X : 'M[R]_(p, n)) (y e : 'rV[R]_n) (a : 'cV[R]_p) : R :=
  \sum_(m < n) ((\sum_(i < p) a i 0 * X i m - y 0 m) / e 0 m) ^+ 2.
(* no model is a combination of the others *)
Definition independent (p n : nat) (X : 'M[R]_(p, n)) : Prop :=
  forall a : 'cV[R]_p, (forall m, \sum_(i < p) a i 0 * X i m = 0) -> a = 0.
(* half the second derivative of chi2 with respect to a_i and a_j *)
Definition curvature (p n : nat) (X : 'M[R]_(p, n)) (e : 'rV[R]_n) : 'M[R]_p :=
  \matrix_(i, j) \sum_(m < n) X i m * X j m / e 0 m ^+ 2.

(* minus half the derivative of chi2 with respect to a_i at 0 *)
Definition slope (p n : nat) (X : 'M[R]_(p, n)) (y e : 'rV[R]_n) (i : 'I_p) : R :=
  \sum_(m < n) X i m * y 0 m / e 0 m ^+ 2.
(* r is the result of fitting the models X to y +/- e *)
Definition fitted (p n : nat) (X : 'M[R]_(p, n)) (y e : 'rV[R]_n) (r : lres R) : Prop :=
  (success r = true <-> independent X) /\
  (success r = true ->
     exists (a s : 'cV[R]_p) (C : 'M[R]_p),
       is_vec (params r) (map_mx Some a) /\ is_vec (errors r) (map_mx Some s) /\ is_mat (cov r) C /\
       (* a is the only minimum *)
       (forall b, b <> a -> chi2_of X y e a < chi2_of X y e b) /\
       chi2 r = Some (chi2_of X y e a) /\
       C *m curvature X e = 1%:M /\
       forall i, 0 < s i 0 /\ s i 0 ^+ 2 = C i i) /\
  (success r = false -> chi2 r = None /\ params r = nseq p None /\ errors r = nseq p None).

(* r is a non-negative fit: the coefficients of the models with a positive slope are positive, the
   others are 0, and r is at least as good as taking every coefficient equal to 1 or 0 *)
Definition nn_start (p n : nat) (X : 'M[R]_(p, n)) (y e : 'rV[R]_n) : 'cV[R]_p :=
  \col_i if 0 < slope X y e i then 1 else 0.
Definition nn_fitted (p n : nat) (X : 'M[R]_(p, n)) (y e : 'rV[R]_n) (r : nnres R) : Prop :=
  exists v : 'cV[R]_p, is_vec (n_params r) (map_mx Some v) /\
    (forall i, if 0 < slope X y e i then 0 < v i 0 else v i 0 == 0) /\
    n_chi2 r = Some (chi2_of X y e v) /\ chi2_of X y e v <= chi2_of X y e (nn_start X y e).
(* no two models are anti-correlated, and every model overlaps with one that has a positive slope *)
Definition nn_usable (p n : nat) (X : 'M[R]_(p, n)) (y e : 'rV[R]_n) : Prop :=
  (forall i j, 0 <= curvature X e i j) /\
  (forall i, exists j, 0 < slope X y e j /\ 0 < curvature X e i j).

(* the value of an argument at a point *)
Definition arg_at (t : arg R) (m : nat) : R := match t with AS x => x | AV _ l => seq.nth 0 l m end.
(* a scalar, or a vec of dims D *)
Definition arg_ok (D : list nat) (t : arg R) : Prop :=
  match t with AS _ => True | AV d l => d = D /\ length l = nprod D end.
Definition row_of (n : nat) (t : arg R) : 'rV[R]_n := \row_m arg_at t m.
Definition rows_of (p n : nat) (ts : list (arg R)) : 'M[R]_(p, n) :=
  \matrix_(i < p, m < n) arg_at (seq.nth (AS 0) ts i) m.
(* no error is 0 *)
Definition no_zero (n : nat) (e : 'rV[R]_n) : Prop := forall m, e 0 m != 0.

(* the functions of the library, for exact arithmetic *)
Definition linfit_real := linfit 0 1 (fun a b : R => a + b) (fun a b : R => a - b) (fun a b : R => a * b)
  (fun a b : R => a / b) (fun a : R => `|a|) (fun a b : R => a < b) (fun a b : R => a == b) (@Num.sqrt R).
Definition linfit_pack_real := linfit_pack 0 1 (fun a b : R => a + b) (fun a b : R => a - b) (fun a b : R => a * b)
  (fun a b : R => a / b) (fun a : R => `|a|) (fun a b : R => a < b) (fun a b : R => a == b) (@Num.sqrt R).
Definition linfit_nn_real := linfit_nn 0 1 (fun a b : R => a + b) (fun a b : R => a - b) (fun a b : R => a * b)
  (fun a b : R => a / b) (fun a : R => `|a|) (fun a b : R => a < b) (fun a b : R => a == b).
Definition linfit_nn_pack_real := linfit_nn_pack 0 1 (fun a b : R => a + b) (fun a b : R => a - b) (fun a b : R => a * b)
  (fun a b : R => a / b) (fun a : R => `|a|) (fun a b : R => a < b) (fun a b : R => a == b).
Definition linfit_batch_real := linfit_batch 0 1 (fun a b : R => a + b) (fun a b : R => a - b) (fun a b : R => a * b)
  (fun a b : R => a / b) (fun a : R => `|a|) (fun a b : R => a < b) (fun a b : R => a == b) (@Num.sqrt R).
Definition linfit_pack_batch_real := linfit_pack_batch 0 1 (fun a b : R => a + b) (fun a b : R => a - b) (fun a b : R => a * b)
  (fun a b : R => a / b) (fun a : R => `|a|) (fun a b : R => a < b) (fun a b : R => a == b) (@Num.sqrt R).
Definition update_model_real := update_model 0 1 (fun a b : R => a + b) (fun a b : R => a - b) (fun a b : R => a * b)
  (fun a b : R => a / b) (fun a : R => `|a|) (fun a b : R => a < b) (fun a b : R => a == b) (@Num.sqrt R).
Definition update_models_real := update_models 0 1 (fun a b : R => a + b) (fun a b : R => a - b) (fun a b : R => a * b)
  (fun a b : R => a / b) (fun a : R => `|a|) (fun a b : R => a < b) (fun a b : R => a == b) (@Num.sqrt R).
Definition fit_real := fit 0 (fun a b : R => a + b) (fun a b : R => a - b) (fun a b : R => a * b) (fun a b : R => a / b).
Definition fit_nochi2_real := fit_nochi2 0 (fun a b : R => a + b) (fun a b : R => a * b) (fun a b : R => a / b).
Definition update_chi2_real := update_chi2 0 (fun a b : R => a + b) (fun a b : R => a - b) (fun a b : R => a * b) (fun a b : R => a / b).
End Spec.

(* the states of a linfit_batch object with errors es (a vec of dims D), for the models ts *)
Section Batch.
Variables (R : rcfType) (D : list nat) (es : list R).
Definition vec_of (x : list R) : arg R := AV D (take (nprod D) x).
Inductive session : list (arg R) -> batch (F:=R) -> Prop :=
| S_new ts b : linfit_batch_real (AV D es) ts = Ok b -> (forall t, List.In t ts -> arg_ok D t) -> session ts b
| S_update ts b i x b' : session ts b -> update_model_real b i x = Ok b' -> (nprod D <= length x)%N ->
    session (upd ts i (vec_of x)) b'
| S_updates ts b l b' : session ts b -> update_models_real b l = Ok b' ->
    (forall i x, List.In (i, x) l -> (nprod D <= length x)%N) ->
    session (List.fold_left (fun ts ix => upd ts ix.1 (vec_of ix.2)) l ts) b'
| S_fit ts b yl b' : session ts b -> fit_real b (AV D yl) = Ok b' -> length yl = nprod D -> session ts b'
| S_nochi2 ts b yl b' : session ts b -> fit_nochi2_real b (AV D yl) = Ok b' -> length yl = nprod D -> session ts b'.
End Batch.
