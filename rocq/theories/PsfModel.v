(* Fitting and subtracting a point source: include/vif/astro/astro.hpp 223-288 (psffit, srcsub), on the models
   of subregion (ImageModel.v) and linfit (LinfitModel.v).  Arithmetic is exact; a pixel that is not
   finite is None; max_error is the largest number, whose inverse square is 0.  assert() stops the
   program. *)
From Verif Require Import Base VecModel ImageModel MatModel LinfitModel.
Local Open Scope nat_scope.

Section Psf.
Context {F : Type} (zero one : F) (fadd fsub fmul fdiv : F -> F -> F).
Context (fabs : F -> F) (flt : F -> F -> bool) (feqb : F -> F -> bool) (fsqrt : F -> F).
Variable max_error : F.

Record psfres := Psfres { p_bg : option F; p_bg_err : option F; p_flux : option F; p_flux_err : option F; p_chi2 : option F }.

(* 245-246, 278: half sizes; dims[1] goes with the first coordinate *)
Definition region (psf : img F) (p0 p1 : Z) : outcome (list Z) :=
  let hx := (Z.of_nat (nc psf) / 2)%Z in let hy := (Z.of_nat (nr psf) / 2)%Z in
  a <- signed64 (p0 - hx) ;; b <- signed64 (p1 - hy) ;; c <- signed64 (p0 + hx) ;; d <- signed64 (p1 + hy) ;; Ok [a; b; c; d].
(* pos(0), pos(1) *)
Definition position (pos : list Z) : outcome (Z * Z) :=
  match pos with p0 :: p1 :: _ => Ok (p0, p1) | _ => CheckFail end.

(* 237-243 *)
Definition error_map (im err : img (option F)) : outcome (img (option F)) :=
  if (nr err =? 1) && (nc err =? 1) then
    match pix err with e :: _ => Ok (Img (nr im) (nc im) (repeat e (nr im * nc im))) | [] => CheckFail end
  else _ <- check ((nr err =? nr im) && (nc err =? nc im)) ;; Ok err.
(* 248-252 *)
Definition both (i e : option F) : F * F := match i, e with Some x, Some y => (x, y) | _, _ => (zero, max_error) end.
(* 231-261 *)
Definition psffit (im err : img (option F)) (psf : img F) (pos : list Z) : outcome psfres :=
  e <- error_map im err ;;
  ' (p0, p1) <- position pos ;;
  reg <- region psf p0 p1 ;;
  icut <- subregion im reg (Some zero) ;;
  ecut <- subregion e reg (Some max_error) ;;
  let cells := map (fun p => both (fst p) (snd p)) (combine (pix icut) (pix ecut)) in
  let dims := [nr icut; nc icut] in
  r <- linfit zero one fadd fsub fmul fdiv fabs flt feqb fsqrt (AV dims (map fst cells)) (AV dims (map snd cells)) [AS one; AV [nr psf; nc psf] (pix psf)] ;;
  if success r then
    match params r, errors r with
    | a :: b :: _, c :: d :: _ => Ok (Psfres a c b d (chi2 r))
    | _, _ => CheckFail
    end
  else Ok (Psfres None None None None (chi2 r)).
(* 263-266 *)
Definition psffit_centre (im err : img (option F)) (psf : img F) : outcome psfres :=
  psffit im err psf [Z.of_nat (nr im) / 2; Z.of_nat (nc im) / 2]%Z.
(* 268-272 *)
Definition psffit_uniform (im : img (option F)) (err : option F) (psf : img F) : outcome psfres :=
  psffit im (Img (nr im) (nc im) (repeat err (nr im * nc im))) psf [Z.of_nat (nr im) / 2; Z.of_nat (nc im) / 2]%Z.

(* an index of a vec: checked *)
Definition index {A} (v : list A) (i : Z) : outcome A :=
  match nth_error v (Z.to_nat i) with Some a => Ok a | None => CheckFail end.
(* 274-281 *)
Definition srcsub (im psf : img F) (flux : F) (pos : list Z) : outcome (img F) :=
  ' (p0, p1) <- position pos ;;
  reg <- region psf p0 p1 ;;
  ' (rr, rs) <- subregion_ids (nr im) (nc im) reg ;;
  _ <- omapl (index (pix im)) rr ;;
  s <- omapl (index (pix psf)) rs ;;
  d <- ofold (fun d '(i, v) => x <- oget d (Z.to_nat i) ;; oset d (Z.to_nat i) (fsub x (fmul flux v))) (combine rr s) (pix im) ;;
  Ok (Img (nr im) (nc im) d).
(* 283-286 *)
Definition srcsub_centre (im psf : img F) (flux : F) : outcome (img F) :=
  srcsub im psf flux [Z.of_nat (nr im) / 2; Z.of_nat (nc im) / 2]%Z.
End Psf.
Arguments Psfres {F}.
