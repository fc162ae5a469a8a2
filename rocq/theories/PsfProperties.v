(* Theorems on point sources: psffit() and srcsub() (C107). *)
From Coq Require Import ZArith Lia.
From Verif Require Import Base ImageModel ImageSpec MatModel LinfitModel PsfModel PsfProofs PsfProofs2.
From mathcomp Require Import all_ssreflect all_algebra.
From Verif Require Import MatSpec LinfitSpec LinfitProofs3 LinfitProperties PsfProofs3.
Set Implicit Arguments.
Unset Strict Implicit.
Unset Printing Implicit Defensive.
Import Order.Theory GRing.Theory Num.Theory.
Delimit Scope Z_scope with ZZ.
Local Open Scope ring_scope.

Section Fit.
Variable R : rcfType.
Definition psffit_real := psffit 0 1 (fun a b : R => a + b) (fun a b : R => a - b) (fun a b : R => a * b)
  (fun a b : R => a / b) (fun a : R => `|a|) (fun a b : R => a < b) (fun a b : R => a == b) (@Num.sqrt R).
(* what the fit sees at a pixel: the value and its error, or 0 and the largest error if the pixel is
   outside of the image or if the value or the error is not finite *)
Definition seen (max_error : R) (im err : img (option R)) (x y : Z) : R * R :=
  match px im x y, error_at err x y with Some (Some a), Some (Some b) => (a, b) | _, _ => (0, max_error) end.
(* the misfit of the background b and the flux f, when the centre of the PSF (of 2h+1 times 2h+1
   pixels) is at (p0, p1): sum of ((b + f psf - value)/error)^2 over the pixels of the PSF *)
Definition total (max_error : R) (im err : img (option R)) (psf : img R) (h p0 p1 : Z) (b f : R) : R :=
  \sum_(m < nr psf * nc psf)
    let s := seen max_error im err (Z.of_nat (m %/ nc psf) + p0 - h)%ZZ (Z.of_nat (m %% nc psf) + p1 - h)%ZZ in
    ((b + f * seq.nth 0 (pix psf) m - s.1) / s.2) ^+ 2.
Definition flat (psf : img R) : Prop := forall i j : 'I_(nr psf * nc psf), seq.nth 0 (pix psf) i = seq.nth 0 (pix psf) j.
(* the PSF is a square of 2h+1 pixels, the errors are for each pixel or one for all, none is 0 *)
Definition setup (max_error : R) (im err : img (option R)) (psf : img R) (h p0 p1 : Z) : Prop :=
  wf im /\ wf err /\ wf psf /\ (Z.of_nat (nr psf) = 2 * h + 1 /\ Z.of_nat (nc psf) = 2 * h + 1)%ZZ /\
  ((nr err = nr im /\ nc err = nc im) \/ (nr err = 1%N /\ nc err = 1%N)) /\
  sane (Z.of_nat (nr im)) (Z.of_nat (nc im)) h p0 p1 /\ max_error <> 0 /\
  (forall x y b, error_at err x y = Some (Some b) -> b <> 0).

Lemma nth_list (l : list R) (m : nat) a : List.nth_error l m = Some a -> seq.nth 0 l m = a.
Proof. by elim: l m => [[]//|x l IH [|m]] //= => [[->]|/IH]. Qed.

Lemma fit_total me im err psf h p0 p1 rest : setup me im err psf h p0 p1 ->
  exists res, psffit_real me im err psf (p0 :: p1 :: rest)%list = Ok res /\
    (~ flat psf -> exists bg fl sb sf, p_bg res = Some bg /\ p_flux res = Some fl /\ p_bg_err res = Some sb /\ p_flux_err res = Some sf /\ 0 < sb /\ 0 < sf /\
       (forall b f, (b, f) <> (bg, fl) -> total me im err psf h p0 p1 bg fl < total me im err psf h p0 p1 b f) /\
       p_chi2 res = Some (total me im err psf h p0 p1 bg fl)) /\
    (flat psf -> res = Psfres None None None None None).
Proof.
move=> [W [We [Wp [Hn [De [Sn [Me Ne]]]]]]].
have [ys [es [E [Ly [Le C]]]]] := psffit_cut 0 1 (fun a b : R => a + b) (fun a b : R => a - b) (fun a b : R => a * b)
  (fun a b : R => a / b) (fun a : R => `|a|) (fun a b : R => a < b) (fun a b : R => a == b) (@Num.sqrt R) me psf h Hn im err p0 p1 rest W We De Sn.
rewrite /psffit_real E; set D := [:: nr psf; nc psf].
have nD : nprod D = (nr psf * nc psf)%N by rewrite /D /nprod /= ?muln1 ?mul1n ?Nat.mul_1_r ?Nat.add_0_r.
have cell m : (m < nr psf * nc psf)%N -> seq.nth 0 ys m = (seen me im err (Z.of_nat (m %/ nc psf) + p0 - h)%ZZ (Z.of_nat (m %% nc psf) + p1 - h)%ZZ).1 /\
   seq.nth 0 es m = (seen me im err (Z.of_nat (m %/ nc psf) + p0 - h)%ZZ (Z.of_nat (m %% nc psf) + p1 - h)%ZZ).2 /\ seq.nth 0 es m <> 0.
  move=> lm; have c0 : (0 < nc psf)%N by case: (nc psf) lm; rewrite ?muln0.
  have q : (m %/ nc psf < nr psf)%N by rewrite ltn_divLR.
  have t : (m %% nc psf < nc psf)%N by rewrite ltn_mod.
  have hq : (0 <= Z.of_nat (m %/ nc psf) <= 2 * h)%ZZ by move/ssrnat.ltP: q Hn => q Hn; clear - q Hn; lia.
  have ht : (0 <= Z.of_nat (m %% nc psf) <= 2 * h)%ZZ by move/ssrnat.ltP: t Hn => t Hn; clear - t Hn; lia.
  have [v [e [Ev [Ee Ce]]]] := C _ _ hq ht.
  have Ei : (Z.to_nat (Z.of_nat (m %/ nc psf)) * nc psf + Z.to_nat (Z.of_nat (m %% nc psf)))%coq_nat = m.
    by rewrite !Nat2Z.id [RHS](divn_eq m (nc psf)).
  rewrite Ei in Ev Ee; rewrite (nth_list Ev) (nth_list Ee) /seen.
  case Px : (px im _ _) Ce => [[a|]|]; try by move=> [-> ->].
  case Pe : (error_at err _ _) => [[b|]|]; try by move=> [-> ->].
  by move=> [-> ->]; split=> //; split=> //; exact: Ne Pe.
have Fn : fits 2 (nprod D).
  by rewrite nD; move: Sn => [_ [Sh _]]; exact: fits_two Hn.1 Hn.2 Sh.
have Lp : length (pix psf) = nprod D by rewrite nD; exact: Wp.
have nz m : (m < nprod D)%N -> seq.nth 0 es m != 0 by rewrite nD => /cell [_ [_ /eqP]].
have [r [Er [res [Ef [H1 H2]]]]] := fit_two Lp Fn (etrans Ly (esym nD)) (etrans Le (esym nD)) nz.
have T b f : misfit D (pix psf) ys es b f = total me im err psf h p0 p1 b f.
  rewrite /misfit /total nD; apply: eq_bigr => m _; have [-> [-> _]] := cell m (ltn_ord m); by [].
rewrite /linfit_real in Er; rewrite Er /=; exists res; split=> //; split.
- move=> nf; case: H1 => [|bg [fl [sb [sf [A [B [G [H [P1 [P2 [M X]]]]]]]]]]].
    rewrite /varied nD; case E2 : [forall i : 'I_(nr psf * nc psf), [forall j : 'I_(nr psf * nc psf), seq.nth 0 (pix psf) i == seq.nth 0 (pix psf) j]].
      by exfalso; apply: nf => i j; move/forallP/(_ i)/forallP/(_ j)/eqP: E2.
    by move/negbT/forallPn: E2 => [i /forallPn [j /eqP ne]]; exists i, j.
  by exists bg, fl, sb, sf; do 6!split=> //; split=> [b f /M|]; rewrite -!T.
- move=> fl; apply: H2; rewrite /varied nD => -[i [j]]; apply; exact: fl.
Qed.

Lemma total_ge0 me im err psf h p0 p1 b f : 0 <= total me im err psf h p0 p1 b f.
Proof. by apply: sumr_ge0 => m _; apply: sqr_ge0. Qed.

(* ---- C107: psffit(img, err, psf, pos) and srcsub(img, psf, flux, pos) ---- *)
(* the background and the flux are the only minimum of the misfit, chi2 is its value there and the
   errors are positive; Finding: with a PSF whose pixels are all the same, all five numbers are NaN *)
Theorem C107_fit me im err psf h p0 p1 rest : setup me im err psf h p0 p1 ->
  exists res, psffit_real me im err psf (p0 :: p1 :: rest)%list = Ok res /\
    (~ flat psf -> exists bg fl sb sf, p_bg res = Some bg /\ p_flux res = Some fl /\ p_bg_err res = Some sb /\ p_flux_err res = Some sf /\ 0 < sb /\ 0 < sf /\
       (forall b f, (b, f) <> (bg, fl) -> total me im err psf h p0 p1 bg fl < total me im err psf h p0 p1 b f) /\
       p_chi2 res = Some (total me im err psf h p0 p1 bg fl)) /\
    (flat psf -> res = Psfres None None None None None).
Proof. exact: fit_total. Qed.

(* a source inside of the image, exactly a background plus a flux times the PSF: both are found, and
   chi2 is 0 *)
Theorem C107_fit_exact me im err psf h p0 p1 rest b0 f0 : setup me im err psf h p0 p1 -> ~ flat psf ->
  (forall m : 'I_(nr psf * nc psf), exists e, seen me im err (Z.of_nat (m %/ nc psf) + p0 - h)%ZZ (Z.of_nat (m %% nc psf) + p1 - h)%ZZ
     = (b0 + f0 * seq.nth 0 (pix psf) m, e)) ->
  exists res, psffit_real me im err psf (p0 :: p1 :: rest)%list = Ok res /\
    p_bg res = Some b0 /\ p_flux res = Some f0 /\ p_chi2 res = Some 0.
Proof.
move=> S nf H; have T0 : total me im err psf h p0 p1 b0 f0 = 0.
  by apply: big1 => m _; have [e ->] := H m; rewrite /= subrr mul0r expr0n.
have [res [E [F1 _]]] := C107_fit rest S.
have [bg [fl [sb [sf [A [B [_ [_ [_ [_ [M X]]]]]]]]]]] := F1 nf.
exists res; split=> //; have [Eq|/eqP ne] := altP ((b0, f0) =P (bg, fl)).
  by move: X; case: Eq T0 => -> -> T0; rewrite A B T0.
by have := M _ _ ne; rewrite T0 ltNge total_ge0.
Qed.

(* the position is the centre of the image (dims/2) if it is not given *)
Theorem C107_fit_centre me im err psf :
  psffit_centre 0 1 (fun a b : R => a + b) (fun a b : R => a - b) (fun a b : R => a * b) (fun a b : R => a / b) (fun a : R => `|a|) (fun a b : R => a < b) (fun a b : R => a == b) (@Num.sqrt R) me im err psf
  = psffit_real me im err psf [:: (Z.of_nat (nr im) / 2)%ZZ; (Z.of_nat (nc im) / 2)%ZZ].
Proof. by []. Qed.

(* one error for all the pixels: the same as an error image of one pixel *)
Theorem C107_fit_uniform me im e psf : wf im ->
  psffit_uniform 0 1 (fun a b : R => a + b) (fun a b : R => a - b) (fun a b : R => a * b) (fun a b : R => a / b) (fun a : R => `|a|) (fun a b : R => a < b) (fun a b : R => a == b) (@Num.sqrt R) me im e psf
  = psffit_real me im (Img 1 1 [:: e]) psf [:: (Z.of_nat (nr im) / 2)%ZZ; (Z.of_nat (nc im) / 2)%ZZ].
Proof.
move=> W; rewrite /psffit_uniform /psffit_real /psffit.
suff -> : error_map im (Img (nr im) (nc im) (repeat e (nr im * nc im))) = error_map im (Img 1 1 [:: e]) by [].
rewrite /error_map /=; case E : (Nat.eqb (nr im) 1 && Nat.eqb (nc im) 1); last by rewrite !Nat.eqb_refl.
by move/andP: E => [/Nat.eqb_eq -> /Nat.eqb_eq ->].
Qed.

(* a pixel that was exactly the background plus the source is the background once the source is
   subtracted *)
Theorem C107_subtract_exact (im psf : img R) h flux bg p0 p1 rest : wf psf -> (Z.of_nat (nr psf) = 2 * h + 1 /\ Z.of_nat (nc psf) = 2 * h + 1)%ZZ ->
  wf im -> sane (Z.of_nat (nr im)) (Z.of_nat (nc im)) h p0 p1 ->
  exists r, srcsub (fun a b : R => a - b) (fun a b : R => a * b) im psf flux (p0 :: p1 :: rest)%list = Ok r /\
    forall x y b, px psf (x - p0 + h)%ZZ (y - p1 + h)%ZZ = Some b -> px im x y = Some (bg + flux * b) -> px r x y = Some bg.
Proof.
move=> Wp Hn W S; have [r [E [_ [_ [_ Sh]]]]] := srcsub_ok psf h Wp Hn (fun a b : R => a - b) (fun a b : R => a * b) im flux p0 p1 rest W S.
exists r; split=> // x y b Pb Pi; have [Hx Hy] := px_range im x y _ Pi.
by rewrite (Sh x y Hx Hy) Pi Pb addrK.
Qed.
End Fit.
Print Assumptions C107_fit.
Print Assumptions C107_fit_exact.
Print Assumptions C107_fit_centre.
Print Assumptions C107_fit_uniform.
Print Assumptions C107_subtract_exact.

Local Close Scope ring_scope.
Local Open Scope Z_scope.
(* srcsub(): each pixel of the image covered by the PSF centred at (p0, p1) loses flux times the PSF
   there; the others and the size stay *)
Theorem C107_subtract {F} (fsub fmul : F -> F -> F) (im psf : img F) h flux p0 p1 rest :
  wf psf -> Z.of_nat (nr psf) = 2 * h + 1 -> Z.of_nat (nc psf) = 2 * h + 1 -> wf im -> sane (Z.of_nat (nr im)) (Z.of_nat (nc im)) h p0 p1 ->
  exists r, srcsub fsub fmul im psf flux (p0 :: p1 :: rest)%list = Ok r /\ shows r (nr im) (nc im) (fun x y =>
    match px im x y, px psf (x - p0 + h) (y - p1 + h) with Some a, Some b => Some (fsub a (fmul flux b)) | a, None => a | None, _ => None end).
Proof. move=> Wp H1 H2 W S. exact: (srcsub_ok psf h Wp (conj H1 H2)). Qed.
Print Assumptions C107_subtract.
Theorem C107_subtract_centre {F} (fsub fmul : F -> F -> F) (im psf : img F) flux :
  srcsub_centre fsub fmul im psf flux = srcsub fsub fmul im psf flux [:: Z.of_nat (nr im) / 2; Z.of_nat (nc im) / 2].
Proof. by []. Qed.
Print Assumptions C107_subtract_centre.

(* Finding: psffit() stops the program whatever the image and the position if the PSF is not a square
   with an odd number of pixels (the region that is cut has 2*(dims[1]/2)+1 rows and
   2*(dims[0]/2)+1 columns) *)
Theorem C107_fit_psf_shape_abort {F} zero one fadd fsub fmul fdiv fabs flt feqb fsqrt max_error (im err : img (option F)) (psf : img F) p0 p1 rest :
  wf im -> wf err -> (nr err = nr im /\ nc err = nc im) \/ (nr err = 1%N /\ nc err = 1%N) ->
  Z.of_nat (nr im) * Z.of_nat (nc im) < two64 -> Z.of_nat (nr psf) < 2 ^ 29 /\ Z.of_nat (nc psf) < 2 ^ 29 /\ - 2 ^ 62 < p0 < 2 ^ 62 /\ - 2 ^ 62 < p1 < 2 ^ 62 ->
  ~ (nr psf = nc psf /\ Nat.Odd (nr psf)) ->
  psffit zero one fadd fsub fmul fdiv fabs flt feqb fsqrt max_error im err psf (p0 :: p1 :: rest)%list = CheckFail.
Proof. exact: psffit_shape. Qed.
Print Assumptions C107_fit_psf_shape_abort.

(* errors of other dimensions than the image (and not one for all) are refused *)
Theorem C107_fit_error_shape_abort {F} zero one fadd fsub fmul fdiv fabs flt feqb fsqrt max_error (im err : img (option F)) (psf : img F) pos :
  ~ (nr err = nr im /\ nc err = nc im) -> ~ (nr err = 1%N /\ nc err = 1%N) ->
  psffit zero one fadd fsub fmul fdiv fabs flt feqb fsqrt max_error im err psf pos = CheckFail.
Proof.
move=> H1 H2. rewrite /psffit /error_map.
case E : (Nat.eqb (nr err) 1 && Nat.eqb (nc err) 1); first by exfalso; apply: H2; move/andP: E => [/Nat.eqb_eq -> /Nat.eqb_eq ->].
case E2 : (Nat.eqb (nr err) (nr im) && Nat.eqb (nc err) (nc im)) => //.
by exfalso; apply: H1; move/andP: E2 => [/Nat.eqb_eq -> /Nat.eqb_eq ->].
Qed.
Print Assumptions C107_fit_error_shape_abort.

(* Finding: srcsub() with a PSF of one row and three columns subtracts its pixels from three rows of
   one column *)
Theorem C107_subtract_transposed_refuted : exists (im psf : img Z) r, nr psf = 1%N /\ nc psf = 3%N /\
  srcsub Z.sub Z.mul im psf 1 [:: 1; 1] = Ok r /\ px r 1 0 = px im 1 0 /\ px r 0 1 <> px im 0 1.
Proof. exists (Img 3 3 (repeat 0 9)), (Img 1 3 [:: 1; 5; 2]). eexists. by do 3!split=> //. Qed.
Print Assumptions C107_subtract_transposed_refuted.

(* Finding: srcsub() with a square PSF of an even number of pixels reads the wrong pixels of the PSF
   (here at the corner of the image, where the second row of the PSF is expected below), or stops the
   program *)
Theorem C107_subtract_even_abort : exists (im psf : img Z), wf psf /\ nr psf = 2%N /\ nc psf = 2%N /\ wf im /\ nr im = 3%N /\ nc im = 3%N /\
  srcsub Z.sub Z.mul im psf 1 [:: 1; 1] = CheckFail.
Proof. exists (Img 3 3 (repeat 0 9)), (Img 2 2 [:: 1; 2; 3; 4]). by do 6!split=> //. Qed.
Print Assumptions C107_subtract_even_abort.

Example ex_subtract : srcsub Z.sub Z.mul (Img 3 4 [:: 10; 11; 12; 13; 20; 21; 22; 23; 30; 31; 32; 33]) (Img 3 3 [:: 0; 1; 0; 1; 4; 1; 0; 1; 0]) 2 [:: 1; 2]
  = Ok (Img 3 4 [:: 10; 11; 10; 13; 20; 19; 14; 21; 30; 31; 30; 33]).
Proof. reflexivity. Qed.
(* at the edge, only the part of the PSF inside of the image *)
Example ex_subtract_edge : srcsub Z.sub Z.mul (Img 3 4 [:: 10; 11; 12; 13; 20; 21; 22; 23; 30; 31; 32; 33]) (Img 3 3 [:: 0; 1; 0; 1; 4; 1; 0; 1; 0]) 2 [:: 0; 3]
  = Ok (Img 3 4 [:: 10; 11; 10; 5; 20; 21; 22; 21; 30; 31; 32; 33]).
Proof. reflexivity. Qed.
Example ex_subtract_outside : srcsub Z.sub Z.mul (Img 1 2 [:: 10; 11]) (Img 1 1 [:: 3]) 2 [:: 5; 5] = Ok (Img 1 2 [:: 10; 11]).
Proof. reflexivity. Qed.
