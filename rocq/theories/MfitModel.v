(* Fitting a sum of templates, one of each library.  Source: include/vif/astro/template_fit.hpp,
   multi_template_fit (362-544).  As in TfitModel.v the fluxes of the templates and the random
   numbers are inputs, and arithmetic is exact with errors that are not 0.  The number of
   combinations (nseds) is supposed to be below 2^64. *)
From Coq Require Import QArith Qabs.
From Verif Require Import Base IndexModel VecModel ImageModel MatModel TfitModel.
Local Open Scope nat_scope.

(* what happens for one combination: continue (the next combination is not selected, 407 and
   482-484), nothing (475), or a fit, for the measured fluxes and for the simulated ones *)
Inductive attempt := Stuck | Skip | Try (fit : list Q -> outcome (Q * list Q)).

(* chi2 (None is +infinity), bfit, amp; and rchi2[s], sed_sim(s,_), amp_sim(s,_) *)
Record best := Best { b_chi2 : option Q; b_ids : list nat; b_amp : list Q }.
(* 426-430, 501-505 and 444-448, 520-524 *)
Definition improve (b : best) (c : Q) (ids : list nat) (a : list Q) : best :=
  match b_chi2 b with
  | Some c0 => if negb (Qle_bool c0 c) then Best (Some c) ids a else b
  | None => Best (Some c) ids a
  end.

(* the loops 405-452 and 473-529: nseds rounds, starting from the first templates *)
Record mstate := MState { m_ids : list nat; m_best : best; m_sims : list best }.
Definition round (att : list nat -> outcome attempt) (nsed : list nat) (y : list Q) (ysims : list (list Q)) (s : mstate) : outcome mstate :=
  let ids := m_ids s in
  a <- att ids ;;
  match a with
  | Stuck => Ok s
  | Skip => ids <- increment_index_list ids nsed ;; Ok (MState ids (m_best s) (m_sims s))
  | Try fit =>
      ' (c, amp) <- fit y ;;
      sims <- omapl (fun p => ' (c, amp) <- fit (fst p) ;; Ok (improve (snd p) c ids amp)) (combine ysims (m_sims s)) ;;
      ids' <- increment_index_list ids nsed ;;
      Ok (MState ids' (improve (m_best s) c ids amp) sims)
  end.
Definition rounds (att : list nat -> outcome attempt) (nsed : list nat) (y : list Q) (ysims : list (list Q)) : outcome mstate :=
  let nlib := length nsed in
  ofold (fun s _ => round att nsed y ysims s) (seq 0 (nprod nsed))
    (MState (repeat 0 nlib) (Best None [] []) (repeat (Best None (repeat 0 nlib) (repeat 0%Q nlib)) (length ysims))).

(* ---- 453-530: without upper limits ---- *)
Section Normal.
(* inplace_invert_symmetric: it fails (None), or returns a matrix whose lower half is to be used *)
Variable invsym : img Q -> outcome (option (img Q)).
(* the rows of the templates selected; ids are checked *)
Definition select (conv : list (list (list Q))) (ids : list nat) : outcome (list (list Q)) :=
  omapl (fun p => _ <- check (snd p <? length (fst p)) ;; oget (fst p) (snd p)) (combine conv ids).
Definition dotq (a b : list Q) : outcome Q := p <- zipq Qmult a b ;; Ok (totalq p).
(* 476-480: the lower half; the rest of the new matrix is 0 *)
Definition gram (rows : list (list Q)) : outcome (img Q) :=
  let n := length rows in
  d <- omapl (fun p => let '(i, j) := p in
         if j <=? i then a <- oget rows j ;; b <- oget rows i ;; dotq a b else Ok 0%Q) (list_prod (seq 0 n) (seq 0 n)) ;;
  Ok (Img n n d).
(* inplace_symmetrize (matrix-functions.hpp 105-113) of a square matrix: element (i, j) after it *)
Definition sym_get (m : img Q) (i j : nat) : outcome Q := if i <? j then pget m j i else pget m i j.
(* 488-500 and 508-519 *)
Definition fit_rows (inv : img Q) (rows : list (list Q)) (y : list Q) : outcome (Q * list Q) :=
  let n := length rows in
  beta <- omapl (dotq y) rows ;;
  amp <- omapl (fun i =>
           p <- omapl (fun k => m <- sym_get inv i k ;; b <- oget beta k ;; Ok (m * b)%Q) (seq 0 n) ;; Ok (totalq p)) (seq 0 n) ;;
  model <- ofold (fun m p => zipq Qplus m (map (Qmult (snd p)) (fst p))) (combine rows amp) (repeat 0%Q (length y)) ;;
  d <- zipq Qminus y model ;;
  Ok (totalq (map sqrq d), amp).
Definition try_rows (constraints : list nat -> bool) (conv : list (list (list Q))) (ids : list nat) : outcome attempt :=
  if constraints ids then
    rows <- select conv ids ;;
    alpha <- gram rows ;;
    inv <- invsym alpha ;;
    Ok (match inv with None => Stuck | Some m => Try (fit_rows m rows) end)
  else Ok Skip.

(* 346-354 *)
Record mres := Mres { r_bfit : list (option nat); r_amp : list (option Q); r_chi2 : option Q; r_flux : list (list (option Q));
                      r_sims : list best }.
(* 532-541; conv are the templates as they are after the loop *)
Definition result (conv : list (list (list Q))) (err : list Q) (s : mstate) : outcome mres :=
  let nlib := length conv in
  match b_chi2 (m_best s) with
  | Some c =>
      rows <- select conv (b_ids (m_best s)) ;;
      fl <- omapl (fun p => zipq Qmult (map (Qmult (snd p)) (fst p)) err) (combine rows (b_amp (m_best s))) ;;
      Ok (Mres (map Some (b_ids (m_best s))) (map Some (b_amp (m_best s))) (Some c) (map (map Some) fl) (m_sims s))
  | None => Ok (Mres (repeat None nlib) (repeat None nlib) None (repeat (repeat None (length err)) nlib) (m_sims s))
  end.
(* ysims: rflux, the fluxes divided by the errors plus the random numbers (459-463) *)
Definition multi_template_fit (constraints : list nat -> bool) (libs : list (list (list Q))) (flux err : list Q)
    (noise : list (list Q)) : outcome mres :=
  let nsed := map (@length (list Q)) libs in
  y <- zipq Qdiv flux err ;;
  ysims <- omapl (fun n => zipq Qplus y n) noise ;;
  conv <- omapl (omapl (fun t => zipq Qdiv t err)) libs ;;
  s <- rounds (try_rows constraints conv) nsed y ysims ;;
  result conv err s.
End Normal.

(* with NO_LAPACK (matrix-functions.hpp 639-642, 673-687) *)
Definition qlt (a b : Q) : bool := negb (Qle_bool b a).
Definition no_lapack : img Q -> outcome (option (img Q)) := mat_invert 0%Q 1%Q Qminus Qmult Qdiv Qabs qlt Qeq_bool.

(* ---- 389-452: with upper limits.  fit gives the chi2 and the parameters returned by mpfit for
   a combination.  The simulations are left out. ---- *)
Definition try_limits (constraints : list nat -> bool) (fit : list nat -> Q * list Q) (ids : list nat) : outcome attempt :=
  if constraints ids then Ok (Try (fun _ => Ok (fit ids))) else Ok Stuck.
(* 532-541: the templates have not been divided by the errors, err is now positive *)
Definition multi_template_fit_limits (constraints : list nat -> bool) (fit : list nat -> Q * list Q)
    (libs : list (list (list Q))) (flux err : list Q) : outcome mres :=
  s <- rounds (try_limits constraints fit) (map (@length (list Q)) libs) flux [] ;;
  result libs (map Qabs err) s.
(* 433-442: the function given to mpfit for simulation s.  deviate is a view on rflux(s,_): the
   row is changed.  lim is sqrt(limweight(.)), idu the upper limits.  The result is the new row, and
   the deviates. *)
Definition deviate_sim (lim : Q -> Q) (idu : list nat) (err : list Q) (tpls : list (list Q)) (row : list Q) (p : list Q) : outcome (list Q * list Q) :=
  row <- ofold (fun r q => zipq Qminus r (map (Qmult (snd q)) (fst q))) (combine tpls p) row ;;
  row <- zipq Qdiv row err ;;
  row <- ofold (fun r u => x <- oget r u ;; oset r u (lim x)) idu row ;;
  Ok (row, row).
