(* C107: the fit of a constant and a point source. *)
From Verif Require Import Base ImageModel ImageSpec MatModel LinfitModel.
From mathcomp Require Import all_ssreflect all_algebra.
From Verif Require Import MatSpec LinfitSpec LinfitProofs3 LinfitProperties PsfModel PsfProofs2.
Set Implicit Arguments.
Unset Strict Implicit.
Unset Printing Implicit Defensive.
Import Order.Theory GRing.Theory Num.Theory.
Local Open Scope ring_scope.

Section Two.
Variable R : rcfType.
Variables (D : list nat) (ps : list R).
Let n := nprod D.
Hypothesis Lp : length ps = n.
Definition two : list (arg R) := [:: AS 1; AV D ps].
(* sum over the pixels of ((b + f psf - y)/e)^2 *)
Definition misfit (ys es : list R) (b f : R) : R := \sum_(m < n) ((b + f * seq.nth 0 ps m - seq.nth 0 ys m) / seq.nth 0 es m) ^+ 2.
(* not all the pixels are the same *)
Definition varied : Prop := exists i j : 'I_n, seq.nth 0 ps i <> seq.nth 0 ps j.
Definition pair_of (b f : R) : 'cV[R]_2 := \col_(i < 2) (if i == 0 then b else f).
Lemma pair_eta (a : 'cV[R]_2) : a = pair_of (a 0 0) (a 1 0).
Proof. by apply/colP => i; rewrite mxE; case: (altP (i =P 0)) => [->//|ne]; have -> : i = 1 by apply/ord_inj; case: i ne => -[|[|]]. Qed.
Lemma sum_two (a : 'cV[R]_2) (m : 'I_n) : \sum_(i < 2) a i 0 * rows_of 2 n two i m = a 0 0 + a 1 0 * seq.nth 0 ps m.
Proof. rewrite !big_ord_recl big_ord0 !mxE /= mulr1 addr0. by congr (_ + _ * _); congr (a _ _); apply/ord_inj. Qed.
Lemma chi2_two (ys es : list R) (a : 'cV[R]_2) : chi2_of (rows_of 2 n two) (row_of n (AV D ys)) (row_of n (AV D es)) a = misfit ys es (a 0 0) (a 1 0).
Proof. by apply: eq_bigr => m _; rewrite sum_two !mxE. Qed.
Lemma indep_two : independent (rows_of 2 n two) <-> varied.
Proof.
split.
- move=> H; case: (posnP n) => [n0|n0].
    exfalso; have : pair_of 1 0 = 0 by apply: H => m; exfalso; move: m; rewrite n0; case.
    by move/colP/(_ 0); rewrite !mxE /= => /eqP; rewrite oner_eq0.
  case E : [forall i : 'I_n, seq.nth 0 ps i == seq.nth 0 ps (Ordinal n0)].
    exfalso; move/forallP: E => E; have : pair_of (- seq.nth 0 ps (Ordinal n0)) 1 = 0.
      by apply: H => m; rewrite sum_two !mxE /= (eqP (E m)) mul1r addNr.
    by move/colP/(_ 1); rewrite !mxE /= => /eqP; rewrite oner_eq0.
  by move/negbT/forallPn: E => [i ne]; exists i, (Ordinal n0); exact/eqP.
- move=> [i [j ne]] a H; rewrite (pair_eta a).
  have Hi := H i; have Hj := H j; rewrite !sum_two in Hi Hj.
  have E : a 1 0 * (seq.nth 0 ps i - seq.nth 0 ps j) = 0.
    by rewrite mulrBr -[a 1 0 * seq.nth 0 ps i](addKr (a 0 0)) Hi -[a 1 0 * seq.nth 0 ps j](addKr (a 0 0)) Hj subrr.
  move/eqP: E; rewrite mulf_eq0 => /orP[/eqP f0|]; last by rewrite subr_eq0 => /eqP.
  by rewrite f0 in Hi *; rewrite mul0r addr0 in Hi; rewrite Hi; apply/colP => k; rewrite !mxE if_same.
Qed.
Lemma two_args : forall t, List.In t two -> arg_ok D t.
Proof. by move=> t [<-//|[<-//|[]]]. Qed.
Lemma fit_two (ys es : list R) : fits 2 n -> length ys = n -> length es = n -> (forall m, (m < n)%N -> seq.nth 0 es m != 0) ->
  exists r, linfit_real (AV D ys) (AV D es) two = Ok r /\ exists res, finish r = Ok res /\
    (varied -> exists bg fl sb sf, p_bg res = Some bg /\ p_flux res = Some fl /\ p_bg_err res = Some sb /\ p_flux_err res = Some sf /\ 0 < sb /\ 0 < sf /\
       (forall b f, (b, f) <> (bg, fl) -> misfit ys es bg fl < misfit ys es b f) /\ p_chi2 res = Some (misfit ys es bg fl)) /\
    (~ varied -> res = Psfres None None None None None).
Proof.
move=> Fn Ly Le nz.
have Fp : fits (length two) (length two) by rewrite /fits /=.
have nz' : no_zero (row_of n (AV D es)) by move=> m; rewrite mxE; apply: nz.
have [r [E [H1 [H2 H3]]]] := @C72_linfit R D ys (AV D es) two Fn Fp Ly (conj erefl Le) two_args nz'.
exists r; split=> //; rewrite /finish; case S : (success r).
- have [a [s [C [Pa [Ps [_ [M [X [_ Sp]]]]]]]]] := H2 S.
  have [La Na] := Pa; have [Ls Ns] := Ps.
  have Ea : params r = [:: Some (a 0 0); Some (a 1 0)].
    case: (params r) La Na => [//|u [//|v [|//]]] _ Na; have := Na 0; have := Na 1; by rewrite !mxE /= => -[->] -[->].
  have Es : errors r = [:: Some (s 0 0); Some (s 1 0)].
    case: (errors r) Ls Ns => [//|u [//|v [|//]]] _ Ns; have := Ns 0; have := Ns 1; by rewrite !mxE /= => -[->] -[->].
  rewrite Ea Es; eexists; split; first by []; split.
    move=> _; exists (a 0 0), (a 1 0), (s 0 0), (s 1 0); do 4!split=> //; split; first exact: (Sp 0).1; split; first exact: (Sp 1).1; split; last by rewrite /= X chi2_two.
    move=> b f ne; have ne' : pair_of b f <> a by move=> Eq; apply: ne; rewrite -Eq !mxE.
    by have := M _ ne'; rewrite !chi2_two !mxE.
  by move=> nv; exfalso; apply: nv; apply/indep_two/H1.
- have [X [Pn En]] := H3 S; rewrite X; eexists; split; first by []; split=> //.
  by move=> v; exfalso; move/indep_two/H1: v; rewrite S.
Qed.
End Two.
