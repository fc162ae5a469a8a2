(* The geometry of one face. *)
From Coq Require Import Ring.
From Verif Require Import Base HdistModel HdistProofs.

(* identities in any commutative ring *)
Section Ring.
Context (T : Type) (rO rI : T) (add mul sub : T -> T -> T) (opp : T -> T).
Hypothesis th : @ring_theory T rO rI add mul sub opp eq.
Add Ring Tring : th.
Local Notation "x +! y" := (add x y) (at level 50, left associativity).
Local Notation "x -! y" := (add x (opp y)) (at level 50, left associativity).
Local Notation "x *! y" := (mul x y) (at level 40, left associativity).
Lemma pyth_id u v dx dy s :
  (dx *! v -! dy *! u) *! (dx *! v -! dy *! u) +! (dx *! u +! dy *! v -! s) *! (dx *! u +! dy *! v -! s) =
  ((dx -! s *! u) *! (dx -! s *! u) +! (dy -! s *! v) *! (dy -! s *! v)) +!
    (u *! u +! v *! v -! rI) *! (dx *! dx +! dy *! dy -! s *! s).
Proof. ring. Qed.
Lemma area_id a0 a1 a2 b0 b1 b2 : (a1 -! a0) *! (b2 -! b1) -! (b1 -! b0) *! (a2 -! a1) =
  (a1 -! a0) *! (b2 -! b0) -! (b1 -! b0) *! (a2 -! a0).
Proof. ring. Qed.
End Ring.

From mathcomp Require Import all_ssreflect all_algebra.
From Verif Require Import HdistSpec.
Set Implicit Arguments.
Unset Strict Implicit.
Unset Printing Implicit Defensive.
Import Order.Theory GRing.Theory Num.Theory.
Local Open Scope ring_scope.

Section Geometry.
Variable R : rcfType.
Local Notation point := (R * R)%type.
Definition Rth : @ring_theory R 0 1 +%R *%R (fun x y => x - y) -%R eq.
Proof.
split.
- exact: add0r.
- exact: addrC.
- exact: addrA.
- exact: mul1r.
- exact: mulrC.
- exact: mulrA.
- exact: mulrDl.
- by [].
- exact: addrN.
Qed.

Lemma pyth (u v dx dy s : R) : u * u + v * v = 1 ->
  (dx - s * u) ^+ 2 + (dy - s * v) ^+ 2 = (dx * v - dy * u) ^+ 2 + (dx * u + dy * v - s) ^+ 2.
Proof. by move=> H; rewrite !expr2 (@pyth_id _ _ _ _ _ _ _ Rth) H subrr mul0r addr0. Qed.

(* clamped to [0, l] *)
Definition gap (l pr : R) : R := if pr < 0 then - pr else if l < pr then pr - l else 0.
Lemma sq_le (a b : R) : 0 <= a -> a <= b -> a ^+ 2 <= b ^+ 2.
Proof. by move=> a0 ab; rewrite ler_sqr // nnegrE //; apply: le_trans ab. Qed.
Lemma le_sq (a b : R) : 0 <= a -> 0 <= b -> a ^+ 2 <= b ^+ 2 -> a <= b.
Proof. by move=> a0 b0; rewrite ler_sqr // nnegrE. Qed.
Lemma gap_ge0 (l pr : R) : 0 <= gap l pr.
Proof.
rewrite /gap; case: ifP => H; first by rewrite oppr_ge0 ltW.
by case: ifP => H' //; rewrite subr_ge0 ltW.
Qed.
Lemma gap_le (l pr s : R) : 0 <= s <= l -> (gap l pr) ^+ 2 <= (pr - s) ^+ 2.
Proof.
case/andP => s0 sl; rewrite /gap; case: ifP => H.
  by rewrite -[X in _ <= X]sqrrN opprB; apply: sq_le; [rewrite oppr_ge0 ltW|rewrite ler_addr].
case: ifP => H'; last by rewrite expr0n sqr_ge0.
by apply: sq_le; [rewrite subr_ge0 ltW|rewrite ler_sub].
Qed.
(* the point of the segment where the distance is reached *)
Definition foot (l pr : R) : R := if pr < 0 then 0 else if l < pr then l else pr.
Lemma foot_in (l pr : R) : 0 <= l -> 0 <= foot l pr <= l.
Proof.
move=> l0; rewrite /foot; case: ltP => H; first by rewrite lexx.
by case: ltP => H'; [rewrite l0 lexx|rewrite H H'].
Qed.
Lemma foot_gap (l pr : R) : (pr - foot l pr) ^+ 2 = gap l pr ^+ 2.
Proof.
rewrite /foot /gap; case: ifP => H; first by rewrite subr0 sqrrN.
by case: ifP => H' //; rewrite subrr.
Qed.

Section Face.
Variables (ax ay bx by_ : R) (o : Z) (px py : R).
Hypothesis ne : (ax, ay) <> (bx, by_).
Let ex := bx - ax.
Let ey := by_ - ay.
Let sg : R := sg_of R o.
Let l := Num.sqrt (ex * ex + ey * ey).
Let dx := px - ax.
Let dy := py - ay.
Local Notation e := ((ax, ay), (bx, by_)).
Local Notation face_ := (eface 0 +%R (fun x y : R => x - y) *%R (fun x y => x / y) Num.sqrt (fun x y => x == y) o e).
Local Notation step s :=
  (estep 0 +%R (fun x y : R => x - y) *%R (fun x y => x / y) Num.norm Num.sqrt (fun x y => x < y) (fun x y => x == y) o px py s e).

Lemma n2_ge0 : 0 <= ex * ex + ey * ey.
Proof. by rewrite -!expr2 addr_ge0 // sqr_ge0. Qed.
Lemma n2_gt0 : 0 < ex * ex + ey * ey.
Proof.
rewrite lt_neqAle n2_ge0 andbT eq_sym; apply/eqP; rewrite -!expr2 => /eqP.
rewrite paddr_eq0 ?sqr_ge0 // !sqrf_eq0 !subr_eq0 => /andP [/eqP A /eqP B].
by apply: ne; rewrite A B.
Qed.
Lemma l_gt0 : 0 < l.
Proof. by rewrite sqrtr_gt0 n2_gt0. Qed.
Lemma l_sq : l * l = ex * ex + ey * ey.
Proof. by rewrite -expr2 sqr_sqrtr // n2_ge0. Qed.
Lemma l_ne0 : l == 0 = false.
Proof. by apply/negbTE; rewrite gt_eqF // l_gt0. Qed.
Lemma unit_uv : (ex / l) * (ex / l) + (ey / l) * (ey / l) = 1.
Proof.
have U : l \is a GRing.unit by rewrite unitfE l_ne0.
by rewrite !mulf_div -mulrDl -l_sq divrr // unitrMl.
Qed.
Lemma sg_cases : (Z.eqb o 1 = true /\ sg = 1) \/ (Z.eqb o 1 = false /\ sg = -1).
Proof. by rewrite /sg /sg_of; case: (Z.eqb o 1); [left|right]. Qed.

Lemma face_val : face_ = Face (Some (ex / l)) (Some (ey / l)) (Some (sg * (ey / l))) (Some (- sg * (ex / l))) (Some l).
Proof.
rewrite /eface; case: sg_cases => -[-> ->].
  have -> : (by_ - ay) * (by_ - ay) + (ax - bx) * (ax - bx) = ex * ex + ey * ey.
    by rewrite -[ax - bx]opprB mulrNN addrC.
  by rewrite -/l /quot l_ne0 !mul1r mulN1r -[ax - bx]opprB mulNr.
have -> : (ay - by_) * (ay - by_) + (bx - ax) * (bx - ax) = ex * ex + ey * ey.
  by rewrite -[ay - by_]opprB mulrNN addrC.
by rewrite -/l /quot l_ne0 opprK mul1r mulN1r -[ay - by_]opprB mulNr.
Qed.

Let k := dx * (ey / l) - dy * (ex / l).
Let pr := dx * (ex / l) + dy * (ey / l).
Lemma d_val : dx * (sg * (ey / l)) + dy * (- sg * (ex / l)) = sg * k.
Proof. by rewrite /k mulrBr !mulrA ![dx * sg]mulrC ![dy * _]mulrC !mulNr. Qed.
Lemma norm_sg x : `|sg * x| = `|x|.
Proof. by case: sg_cases => -[_ ->]; rewrite ?mul1r // mulN1r normrN. Qed.
Lemma side_val : (0 < sg * k) = ~~ (0 <= sg * area2 (ax, ay) (bx, by_) (px, py)).
Proof.
have -> : area2 (ax, ay) (bx, by_) (px, py) = - (l * k).
  have U : l \is a GRing.unit by rewrite unitfE l_ne0.
  rewrite /area2 /k /= -/ex -/ey -/dx -/dy [l * _]mulrBr opprB; congr (_ - _).
    by rewrite mulrCA [l * (ex / l)]mulrC divrK // mulrC.
  by rewrite mulrCA [l * (ey / l)]mulrC divrK // mulrC.
by rewrite -ltNge mulrN oppr_lt0 mulrCA (pmulr_rgt0 _ l_gt0).
Qed.
Lemma away s : dist2 (px, py) (ax + s * ex / l, ay + s * ey / l) = k ^+ 2 + (pr - s) ^+ 2.
Proof. by rewrite -(pyth _ _ _ unit_uv) /dist2 /= !opprD !addrA !mulrA. Qed.
Definition segdist : R := Num.sqrt (k ^+ 2 + gap l pr ^+ 2).
Lemma segdist_sq : segdist ^+ 2 = k ^+ 2 + gap l pr ^+ 2.
Proof. by rewrite sqr_sqrtr // addr_ge0 // sqr_ge0. Qed.
Lemma segdist_ok : distance_to (on_segment (ax, ay) (bx, by_)) (px, py) segdist.
Proof.
have U : l \is a GRing.unit by rewrite unitfE l_ne0.
split; first exact: sqrtr_ge0.
split.
  exists (ax + foot l pr * ex / l, ay + foot l pr * ey / l); split; last by rewrite away segdist_sq foot_gap.
  exists (foot l pr / l); have /andP [f0 fl] := foot_in pr (ltW l_gt0).
  split; first by rewrite divr_ge0 ?(ltW l_gt0) //= ler_pdivr_mulr ?l_gt0 // mul1r.
  by congr (_, _); congr (_ + _); rewrite mulrAC.
move=> q [t [/andP [t0 t1] ->]] /=.
have -> : t * (bx - ax) = t * l * ex / l by rewrite [t * l * ex]mulrAC mulrK.
have -> : t * (by_ - ay) = t * l * ey / l by rewrite [t * l * ey]mulrAC mulrK.
rewrite away segdist_sq ler_add2l; apply: gap_le.
by rewrite mulr_ge0 ?(ltW l_gt0) //= -{2}[l]mul1r ler_pmul2r // l_gt0.
Qed.
Lemma line_le : `|sg * k| <= segdist.
Proof.
rewrite norm_sg; apply: le_sq => //; first exact: sqrtr_ge0.
by rewrite segdist_sq real_normK ?num_real // ler_addl sqr_ge0.
Qed.
Definition least (r : option R) (d : R) : R := if r is Some x then if d < x then d else x else d.
Lemma step_val s : step s = (Some (least s.1 segdist), s.2 && (0 <= sg * area2 (ax, ay) (bx, by_) (px, py))).
Proof.
rewrite /estep face_val /= -/dx -/dy d_val side_val; case: s => r b /=.
have -> : (if ~~ (0 <= sg * area2 (ax, ay) (bx, by_) (px, py)) then false else b) =
          b && (0 <= sg * area2 (ax, ay) (bx, by_) (px, py)) by case: (0 <= _); rewrite ?andbT ?andbF.
have E : (if pr < 0 then Some (Num.sqrt (dx * dx + dy * dy)) else
          if l < pr then Some (Num.sqrt ((px - bx) * (px - bx) + (py - by_) * (py - by_))) else Some `|sg * k|) = Some segdist.
  rewrite /segdist /gap; case: ifP => H.
    congr (Some (Num.sqrt _)); have := away 0; rewrite /dist2 /= !mul0r !addr0 !subr0 -!expr2 => ->.
    by rewrite sqrrN.
  case: ifP => H'.
    congr (Some (Num.sqrt _)); have := away l; rewrite /dist2 /= => <-.
    have U : l \is a GRing.unit by rewrite unitfE l_ne0.
    have -> : l * ex / l = ex by rewrite mulrAC divrr // mul1r.
    have -> : l * ey / l = ey by rewrite mulrAC divrr // mul1r.
    by rewrite /ex /ey ![_ + (_ - _)]addrC !subrK !expr2.
  by rewrite expr0n addr0 sqrtr_sqr norm_sg.
rewrite -/pr; case: r => [x|] /=; last by rewrite E.
case: ifP => H; first by rewrite E /=; case: ifP.
by rewrite ltNge (le_trans _ line_le) // leNgt H.
Qed.
End Face.

Lemma step_same a o px py s :
  estep 0 +%R (fun x y : R => x - y) *%R (fun x y => x / y) Num.norm Num.sqrt (fun x y => x < y) (fun x y => x == y) o px py s (a, a) = s.
Proof.
case: a s => ax ay [r b]; rewrite /estep /eface /quot !subrr.
by case: (Z.eqb o 1); rewrite !mul0r addr0 sqrtr0 eqxx.
Qed.
End Geometry.
