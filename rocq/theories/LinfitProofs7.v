(* Lemmas on linear fits, part 7: what is refused, and what is undefined. *)
From Verif Require Import Base ImageModel ImageSpec ImageProofs MatModel MatProofs MatProofs4 LinfitModel LinfitProofs.
From mathcomp Require Import all_ssreflect all_algebra all_fingroup.
From Verif Require Import MatSpec MatProofs2 MatProofs3 MatProofs5 MatProofs6 MatProofs8 LinfitSpec LinfitProofs2 LinfitProofs3
  LinfitProofs4.
Set Implicit Arguments.
Unset Strict Implicit.
Unset Printing Implicit Defensive.
Import Order.Theory GRing.Theory Num.Theory.
Local Notation ltP := ssrnat.ltP.
Local Notation leP := ssrnat.leP.
Local Open Scope ring_scope.

Section Refused.
Variable R : rcfType.
Local Notation fadd := (fun a b : R => a + b).
Local Notation fsub := (fun a b : R => a - b).
Local Notation fmul := (fun a b : R => a * b).
Local Notation fdiv := (fun a b : R => a / b).
Local Notation fabs := (fun a : R => `|a|).
Local Notation flt := (fun a b : R => a < b).
Local Notation feqb := (fun a b : R => a == b).

(* one of the arguments is a vec with another number of elements than y *)
Lemma check_sizes (y ye : arg R) ts d l : (0 < arg_size y)%N -> List.In (AV d l) (ye :: ts) -> length l <> arg_size y ->
  linfit_check y ye ts = CheckFail.
Proof.
move=> n0 Hin Hl; rewrite /linfit_check; move: n0 Hl; set n := arg_size y => n0 Hl.
have S1 t : same_dims n [:: t] = match t with AS _ => true | AV _ l => (length l =? n)%nat end.
  by rewrite /same_dims; case: (n) n0 => //= k _; rewrite andbT.
have Sn : same_dims n (ye :: ts) = List.forallb (fun t => same_dims n [:: t]) (ye :: ts).
  rewrite /same_dims; case: (n) n0 => // k _; rewrite [(_.+1 =? 0)%nat]/= orFb.
  by elim: (ye :: ts) => //= t l' ->; rewrite andbT.
have Sl : same_dims n [:: AV d l] = false by rewrite S1; apply/PeanoNat.Nat.eqb_neq.
have -> : same_dims n (ye :: ts) = false.
  rewrite Sn; apply/negbTE/negP => /List.forallb_forall /(_ _ Hin); by rewrite Sl.
case: Hin => [->|Hin]; first by rewrite Sl.
case: (same_dims n [:: ye]) => //=; elim: ts Hin {Sn} => [//|t ts IH] /= [->|Hin]; first by rewrite Sl.
by case: (same_dims n [:: t]) => //=; exact: IH.
Qed.

(* a scalar error: only the data of the models are used *)
Lemma make_cache_flat (e : R) : forall ts ts' i c, List.Forall2 (fun t t' => match t, t' with
    | AS x, AS x' => x = x' | AV _ l, AV _ l' => l = l' | _, _ => False end) ts ts' ->
  make_cache fdiv c (AS e) i ts = make_cache fdiv c (AS e) i ts'.
Proof.
move=> ts ts' i c H; elim: H i c => [//|t t' {}ts {}ts' Ht _ IH] i c /=.
case: t t' Ht => [x|d l] [x'|d' l'] //= ->; first by case: (ofold _ _ _) => //= d0; rewrite IH.
by case: (check _) => //= _; case: (ofold _ _ _) => //= d0; rewrite IH.
Qed.

(* every step is defined or reads out of bounds, and one reads out of bounds *)
Lemma ofold_UB (S A : Type) (I : S -> Prop) (f : S -> A -> outcome S) : forall l s, I s ->
  (forall s a, I s -> List.In a l -> f s a = UB \/ exists s', f s a = Ok s' /\ I s') ->
  (exists a, List.In a l /\ forall s, I s -> f s a = UB) -> ofold f l s = UB.
Proof.
elim=> [|a l IH] s Hs Hf [x [Hx HU]] //=.
case: Hx => [Ex|Hx]; first by rewrite Ex HU.
case: (Hf s a Hs (or_introl erefl)) => [-> //|[s' [-> Hs']]] /=.
apply: IH => //; last by exists x.
by move=> s0 b H0 Hb; apply: Hf => //; right.
Qed.
Lemma pack_batch_UB p n pitch (x es : list R) : fits p n -> length es = n -> (0 < p)%N -> (0 < n)%N ->
  (length x <= (p - 1) * pitch + (n - 1))%N ->
  pack_loop fdiv pitch x es (Img p n (List.repeat 0 (p * n))) = UB.
Proof.
move=> Hf Le p0 n0 Lx; rewrite /pack_loop /= (@ofold_UB _ _ (fun d => length d = (p * n)%N)) //.
- exact: List.repeat_length.
- move=> d [i j] Ld /in_grid [/ltP ip /ltP jn].
  rewrite /oget; case: List.nth_error => [a|]; [right|by left]; rewrite /=.
  have := nthE (l:=es) (m:=j); rewrite Le => /(_ jn) -> /=.
  rewrite /pset /oset; have -> : (i * n + j <? length d)%nat = true.
    apply/PeanoNat.Nat.ltb_lt/ltP; rewrite Ld; apply: (@leq_trans (i.+1 * n)); first by rewrite mulSnr ltn_add2l.
    by rewrite leq_mul2r ip orbT.
  by eexists; split; first reflexivity; rewrite upd_length.
exists ((p - 1)%N, (n - 1)%N); split.
  by apply/in_grid; split; apply/ltP; rewrite ltn_subrL.
move=> d _; rewrite /oget; have -> // : List.nth_error x ((p - 1) * pitch + (n - 1)) = None.
by apply/List.nth_error_None/leP.
Qed.
Lemma pack_batch_eq D (es : list R) D' p (x : list R) : length es = nprod D -> nprod D' = nprod D -> length x = (p * nprod D)%N -> fits p (nprod D) ->
  linfit_pack_batch_real D es (p :: D') x = linfit_batch_real (AV D es) (parts D x p).
Proof.
move=> Le ED Lx Hf; have Lp : length (parts D x p) = p by rewrite lengthE size_map size_iota.
rewrite /linfit_pack_batch_real /linfit_batch_real /linfit_pack_batch /linfit_batch /= Le filled_ok //=.
have [c [E Hc]] := pack_loop_mx Le Lx; rewrite ED E Lp filled_ok //=.
have [c' [-> [Hr [Hn RC]]]] := @make_cache_ok R D (AV D es) p (conj erefl Le) (parts D x p) 0
  (Img p (nprod D) (List.repeat 0 (p * nprod D))) _ erefl erefl (rep_repeat p (nprod D) 0) Lp (fun t => parts_ok Lx); rewrite /=.
have Hc' : is_mat c' (wmx (rows_of p (nprod D) (parts D x p)) (row_of (nprod D) (AV D es))).
  by apply: (@rep_is_mat_ring _ _ _ _ _ _ Hr Hn RC) => i m; rewrite ltn0 subn0 !mxE.
by rewrite (is_mat_inj Hc Hc').
Qed.

Lemma update_short D p (X : 'M[R]_(p, nprod D)) (es : list R) b i x : length es = nprod D -> hinv (D:=D) es X b -> (i < p)%N -> (length x < nprod D)%N ->
  update_model_real b i x = UB.
Proof.
move=> Le [Hy [Hc _]] ip nx; rewrite /update_model_real /update_model /update_model_ Hy /=.
have [Hr [Hn [Ld RC]]] := proj1 (is_matP _ _) Hc; rewrite Hr Hn.
have ip' : (i < p)%coq_nat by apply/ltP.
have -> /= : (i <? p)%nat = true by apply/PeanoNat.Nat.ltb_lt.
have -> // := @div_row_UB R fdiv (nprod D) (fun j => oget x j) (fun j => oget es j) i (fun j => seq.nth 0 es j) (length x).
- exact/ltP.
- by move=> j /ltP jl; rewrite ogetE //; eexists.
- by rewrite /oget; have -> : List.nth_error x (length x) = None by apply/List.nth_error_None.
- by move=> j /ltP jn; rewrite ogetE // Le.
move=> j /ltP jn; rewrite Ld; apply/ltP; apply: (@leq_trans (i.+1 * nprod D)); first by rewrite mulSnr ltn_add2l.
by rewrite leq_mul2r ip orbT.
Qed.

Lemma chi2_before_fit D p (X : 'M[R]_(p, nprod D)) (es : list R) b y : length es = nprod D -> hinv (D:=D) es X b -> (0 < p)%N -> (0 < nprod D)%N ->
  params (b_fr b) = [::] -> update_chi2_real b y = UB.
Proof.
move=> Le [Hy [Hc _]] p0 n0 E; rewrite /update_chi2_real /update_chi2 E.
have [Hr [Hn _]] := proj1 (is_matP _ _) Hc; rewrite /make_model Hr Hn.
by case: p {X Hc Hr} p0 => // k _; case: (nprod D) n0.
Qed.
End Refused.
