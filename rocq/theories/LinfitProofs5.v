(* Lemmas on linear fits, part 5: the sessions of a batch and the non-negative fit. *)
From Verif Require Import Base ImageModel ImageSpec ImageProofs MatModel MatProofs MatProofs4 LinfitModel LinfitProofs.
From mathcomp Require Import all_ssreflect all_algebra all_fingroup.
From Verif Require Import MatSpec MatProofs2 MatProofs3 MatProofs5 MatProofs6 MatProofs8 LinfitSpec LinfitProofs2 LinfitProofs3
  LinfitProofs4.
Set Implicit Arguments.
Unset Strict Implicit.
Unset Printing Implicit Defensive.
Import Order.Theory GRing.Theory Num.Theory.
Local Notation ltP := ssrnat.ltP.
Local Notation leP := ssrnat.leP.
Local Open Scope ring_scope.

Section Session.
Variable R : rcfType.
Variables (D : list nat) (es : list R).
Hypothesis (Le : length es = nprod D) (n0 : (0 < nprod D)%N).

Lemma rows_set p (ts : list (arg R)) i x : length ts = p -> (i < p)%N ->
  set_model (rows_of p (nprod D) ts) i x = rows_of p (nprod D) (upd ts i (vec_of D x)).
Proof.
move=> L ip; apply/matrixP => a m; rewrite !mxE.
have H := nth_error_upd _ ts i (vec_of D x) a.
have E j : seq.nth (AS 0) ts j = match List.nth_error ts j with Some t => t | None => AS 0 end.
  by elim: (ts) j => [|t l IH] [|j] //=.
have E' j : seq.nth (AS 0) (upd ts i (vec_of D x)) j =
   match List.nth_error (upd ts i (vec_of D x)) j with Some t => t | None => AS 0 end.
  by elim: (upd _ _ _) j => [|t l IH] [|j] //=.
rewrite E E' H eqbE; have -> : (i <? length ts)%nat = true by apply/PeanoNat.Nat.ltb_lt/ltP; rewrite L.
by case: eqP => //= _; rewrite nth_take.
Qed.

Lemma session_inv ts b : session D es ts b -> fits (length ts) (nprod D) -> fits (length ts) (length ts) ->
  forall p, length ts = p -> binv es (rows_of p (nprod D) ts) b.
Proof.
elim=> {ts b} [ts b E Hts|ts b i x b' S IH E Lx|ts b l b' S IH E Hl|ts b yl b' S IH E Ly|ts b yl b' S IH E Ly].
- move=> Hf Fp p <-; have [b' [E' [H _]]] := new_ok Le Hts Hf Fp.
  by move: E'; rewrite E => -[->].
- rewrite upd_length => Hf Fp p L; have := IH Hf Fp p L => -[H _].
  have Fp' : fits p p by rewrite -L.
  case: (ltnP i p) => ip; last by rewrite (update_model_bound _ H ip) in E.
  have [b1 [E1 [H1 _]]] := update_model_ok Le Fp' H ip Lx.
  by rewrite -(rows_set _ L ip); move: E1; rewrite E => -[->].
- have LL : length (List.fold_left (fun ts ix => upd ts ix.1 (vec_of D ix.2)) l ts) = length ts.
    by elim: l ts {S IH E Hl} => [//|[i x] l IH] ts /=; rewrite IH upd_length.
  rewrite LL => Hf Fp p L; have := IH Hf Fp p L => -[H _].
  have Fp' : fits p p by rewrite -L.
  have Hi i x : List.In (i, x) l -> (i < p)%N.
    (* an update out of range is refused *)
    move=> Hix; rewrite ltnNge; apply/negP => pi.
    have : forall (l : list (nat * list R)) (b : batch (F:=R)) (X : 'M[R]_(p, nprod D)), hinv es X b -> List.In (i, x) l -> (forall i x, List.In (i, x) l -> (nprod D <= length x)%N) ->
       update_models_real b l = @CheckFail (batch (F:=R)).
      elim=> [//|[j z] l' IHl] b0 X0 H0 /= Hin Hall; rewrite /update_models_real /=.
      case: (ltnP j p) => jp; last first.
        have Enr : nr (b_cache b0) = p by case: H0 => _ [[]].
        rewrite /update_model_ Enr.
        by have -> : (j <? p)%nat = false by apply/PeanoNat.Nat.ltb_ge/leP.
      case: Hin => [[Ei Ez]|Hin]; first by rewrite Ei ltnNge pi in jp.
      have [b1 [E1 [H1 _]]] := update_model__ok Le H0 jp (Hall j z (or_introl erefl)).
      by rewrite E1 /=; apply: (IHl _ _ H1 Hin) => i' x' Hx'; exact: (Hall i' x' (or_intror Hx')).
    by move/(_ l b _ H Hix Hl); rewrite E.
  have [b1 [E1 H1]] := update_models_ok Le Fp' H (fun i x Hix => conj (Hi i x Hix) (Hl i x Hix)).
  move: E1; rewrite E => -[->].
  suff <- : List.fold_left (fun X ix => set_model X ix.1 ix.2) l (rows_of p (nprod D) ts) =
     rows_of p (nprod D) (List.fold_left (fun ts ix => upd ts ix.1 (vec_of D ix.2)) l ts) by [].
  elim: l ts L Hi {S IH E Hl H LL Hf Fp H1} => [//|[i x] l IHl] ts L Hi /=.
  rewrite (rows_set _ L (Hi i x (or_introl erefl))) IHl // ?upd_length // => j z Hj.
  exact: (Hi j z (or_intror Hj)).
- move=> Hf Fp p L; have Fp' : fits p p by rewrite -L.
  have [b1 [E1 [H1 _]]] := fit_ok Le (IH Hf Fp p L) Ly n0.
  by move: E1; rewrite E => -[->].
- move=> Hf Fp p L; have Fp' : fits p p by rewrite -L.
  have [b1 [E1 [H1 _]]] := fit_nochi2_ok Le (IH Hf Fp p L) Ly.
  by move: E1; rewrite E => -[->].
Qed.
Lemma session_args ts b : session D es ts b -> forall t, List.In t ts -> arg_ok D t.
Proof.
have up : forall (ts : list (arg R)) i x t, (forall t, List.In t ts -> arg_ok D t) -> (nprod D <= length x)%N ->
    List.In t (upd ts i (vec_of D x)) -> arg_ok D t.
  move=> {}ts i x t H Lx /(@List.In_nth_error _ _ _) [k]; rewrite nth_error_upd.
  case: ifP => _ [] // E; last exact/H/List.nth_error_In/E.
  by rewrite -E /=; split=> //; rewrite lengthE size_take -lengthE; case: ltngtP Lx => // ->.
elim=> {ts b} [//|ts b i x b' S IH E Lx t|ts b l b' S IH E Hl|//|//]; first exact: up.
elim: l ts IH Hl {S E} => [//|[i x] l IHl] ts IH Hl t /=; apply: IHl => [t'|j z Hj].
  by apply: up => //; exact: (Hl i x (or_introl erefl)).
exact: (Hl j z (or_intror Hj)).
Qed.
End Session.
