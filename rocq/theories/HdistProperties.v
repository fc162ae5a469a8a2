(* Theorems on distances to convex hulls (C84), over any real closed field. *)
From Verif Require Import Base HdistModel HdistProofs.
From mathcomp Require Import all_ssreflect all_algebra.
From Verif Require Import HdistSpec HdistProofs2 HdistProofs3.
Set Implicit Arguments.
Unset Strict Implicit.
Unset Printing Implicit Defensive.
Import Order.Theory GRing.Theory Num.Theory.
Local Open Scope ring_scope.

(* For a closed hull whose vertices are not all the same, whatever its orientation, and with repeated
   vertices or not: the result is the distance to the closest point of the border, positive when the
   point is on the inner side of all edges, negative otherwise. *)
Theorem C84_distance (R : rcfType) (eps : R) (o : Z) (x y : list R) (p : R * R) : length x = length y ->
  (exists a b, consecutive (combine x y) a b /\ a <> b) ->
  exists r v h', hull_distance eps p.1 p.2 (ready_hull x y o) = Ok (Some v, h') /\
    distance_to (border (combine x y)) p r /\
    (within (sg_of R o) (combine x y) p /\ v = r \/ ~ within (sg_of R o) (combine x y) p /\ v = - r).
Proof.
move=> L Hne; apply: distance_val => // E; case: Hne => a [b [[l1 [l2 H]] _]].
by rewrite E /= in H; case: l1 H.
Qed.
Print Assumptions C84_distance.

(* the distance is positive or null when in_convex_hull says that the point is inside, negative or null
   otherwise; null only on the border *)
Theorem C84_sign (R : rcfType) (eps : R) (o : Z) (x y : list R) (p : R * R) : length x = length y -> orientation o ->
  (exists a b, consecutive (combine x y) a b /\ a <> b) ->
  exists b v h', hull_contains eps p.1 p.2 (ready_hull x y o) = Ok b /\
    hull_distance eps p.1 p.2 (ready_hull x y o) = Ok (Some v, h') /\
    (if b then 0 <= v else v <= 0) /\ (v = 0 <-> border (combine x y) p).
Proof.
move=> L Ho Hne; have Nx : x <> nil.
  by move=> E; case: Hne => a [b [[l1 [l2 H]] _]]; rewrite E /= in H; case: l1 H.
have [b [Eb Hb]] := contains_val eps p L Nx Ho; have [r [v [h' [E [[r0 [[q [Hq Eq]] Hle]] Hv]]]]] := distance_val eps o p L Nx Hne.
exists b, v, h'; split=> //; split=> //; split.
  case: Hv => -[Hw ->]; first by rewrite (proj2 Hb Hw).
  by case: b Eb Hb => Eb Hb; [case: Hw; apply/Hb|rewrite oppr_le0].
have Hr : r = 0 <-> border (combine x y) p.
  split.
    move=> r00; suff -> : p = q by [].
    move: Eq; rewrite r00 expr0n /= /dist2 => /eqP; rewrite paddr_eq0 ?sqr_ge0 // !sqrf_eq0 !subr_eq0.
    by case/andP => /eqP A /eqP B; rewrite (surjective_pairing p) (surjective_pairing q) A B.
  move=> Hp; apply/eqP; rewrite -sqrf_eq0 eq_le sqr_ge0 andbT.
  by have := Hle p Hp; rewrite /dist2 !subrr expr0n /= addr0.
by rewrite -Hr; case: Hv => -[_ ->] //; split=> [/eqP|->]; rewrite ?oppr_eq0 ?oppr0 // => /eqP.
Qed.
Print Assumptions C84_sign.

(* a hull made from its vertices: the orientation is that of its first corner, and it has to be closed *)
Theorem C84_constructed (R : rcfType) (eps x0 x1 x2 y0 y1 y2 : R) (x y : list R) :
  let X := x0 :: x1 :: x2 :: x in let Y := y0 :: y1 :: y2 :: y in
  length x = length y ->
  let h := raw_hull X Y in
  if (`|x0 - List.last X 0| < eps) && (`|y0 - List.last Y 0| < eps) then
    exists o, orientation o /\ (o = Zpos xH <-> 0 < area2 (x0, y0) (x1, y1) (x2, y2)) /\
      forall px py, hull_distance eps px py h = hull_distance eps px py (ready_hull X Y o) /\
                    hull_contains eps px py h = hull_contains eps px py (ready_hull X Y o)
  else forall px py, hull_distance eps px py h = CheckFail /\ hull_contains eps px py h = CheckFail.
Proof.
move=> X Y L h.
have La (T : Type) (l : list T) (a d : T) : List.nth_error (a :: l) (length l) = Some (List.last (a :: l) d).
  by elim: l a => [|b l IH] a //=; rewrite IH.
have Lx : oget X (length X - 1) = Ok (List.last X 0).
  by rewrite /oget /X; cbn [length Nat.sub]; rewrite (La _ (x1 :: x2 :: x) x0 0).
have Ly : oget Y (length X - 1) = Ok (List.last Y 0).
  rewrite /oget /X; cbn [length Nat.sub]; rewrite L.
  by have := La _ (y1 :: y2 :: y) y0 0; cbn [length] => ->.
have Ar : (x1 - x0) * (y2 - y1) - (y1 - y0) * (x2 - x1) = area2 (x0, y0) (x1, y1) (x2, y2).
  exact: (@area_id _ _ _ _ _ _ _ (Rth R)).
set o : Z := if 0 < (x1 - x0) * (y2 - y1) - (y1 - y0) * (x2 - x1) then Zpos xH else Zneg xH.
have V : validate 0 (fun a b : R => a - b) *%R Num.norm (fun a b => a < b) eps h =
   Ok (Fhull X Y true ((`|x0 - List.last X 0| < eps) && (`|y0 - List.last Y 0| < eps)) o None).
  rewrite /validate; cbn [validated h raw_hull hx hy vectors].
  rewrite Lx Ly; cbn [length X Y]; rewrite L Nat.eqb_refl /=.
  by rewrite -/X -/Y.
case: ifP V => Hc V.
  exists o; split; first by rewrite /o; case: ifP; [left|right].
  split; first by rewrite -Ar /o; case: ifP.
  by move=> px py; split; rewrite /hull_distance /convex_hull_distance /hull_contains /in_hull V.
by move=> px py; split; rewrite /hull_distance /convex_hull_distance /hull_contains /in_hull V.
Qed.
Print Assumptions C84_constructed.

(* a vector of points: every result is that of the single point, including without any point *)
Theorem C84_vec (R : rcfType) (eps : R) (o : Z) (x y : list R) (D : list nat) (pts : list (R * R)) :
  length x = length y -> x <> nil ->
  exists f h', (forall px py, hull_distance eps px py (ready_hull x y o) = Ok (f px py, h')) /\
    hull_distance_vec eps D (List.map fst pts) D (List.map snd pts) (ready_hull x y o) =
      Ok (List.map (fun p => f p.1 p.2) pts, h').
Proof.
move=> L N.
exists (fun px py => distance_of 0 +%R (fun x y : R => x - y) *%R (fun x y => x / y) Num.norm -%R Num.sqrt
  (fun x y => x < y) (fun x y => x == y) (ready_hull x y o) px py).
exists (with_vectors 0 +%R (fun x y : R => x - y) *%R (fun x y => x / y) Num.sqrt (fun x y => x == y) (ready_hull x y o)).
split=> [px py|].
  by apply: (@cdist_ok _ _ _ _ _ _ _ _ _ _ _ _ _ _ (ready_hull x y o) (ready_hull x y o)) => //; left.
by apply: (@cdist_vec_ok _ _ _ _ _ _ _ _ _ _ _ _ _ _ (ready_hull x y o) (ready_hull x y o)) => //; left.
Qed.
Print Assumptions C84_vec.

Theorem C84_vec_dims (R : rcfType) (eps : R) (D D' : list nat) (px py : list R) (h : fhull R) : D <> D' ->
  hull_distance_vec eps D px D' py h = CheckFail.
Proof. by rewrite /hull_distance_vec /convex_hull_distance_vec => ne; case: list_eq_dec => // E; case: ne. Qed.
Print Assumptions C84_vec_dims.

(* the vectors kept in the hull by a first call change nothing to the next calls; and after a change of
   the vertices followed by mark_as_dirty() the hull behaves as a new one *)
Theorem C84_caches (R : rcfType) (eps : R) (o : Z) (x y : list R) (px py : R) r (h' : fhull R) :
  length x = length y -> x <> nil -> hull_distance eps px py (ready_hull x y o) = Ok (r, h') ->
  (forall qx qy, exists r', hull_distance eps qx qy h' = Ok (r', h') /\
     hull_distance eps qx qy (ready_hull x y o) = Ok (r', h')) /\
  forall x' y' qx qy,
    hull_distance eps qx qy (mark_as_dirty (Fhull x' y' (validated h') (HdistModel.closed h') (orient h') (vectors h'))) =
    hull_distance eps qx qy (raw_hull x' y').
Proof.
move=> L N E.
have E0 qx qy : hull_distance eps qx qy (ready_hull x y o) = _ :=
  @cdist_ok _ _ _ _ _ _ _ _ _ _ _ eps qx qy (ready_hull x y o) (ready_hull x y o) (erefl _) (erefl _) L N (or_introl (erefl _)).
move: E; rewrite E0 => -[_ <-]; split=> // qx qy.
exists (distance_of 0 +%R (fun x y : R => x - y) *%R (fun x y => x / y) Num.norm -%R Num.sqrt
  (fun x y => x < y) (fun x y => x == y) (ready_hull x y o) qx qy); split; last by rewrite E0.
set h := with_vectors _ _ _ _ _ _ _ _.
by apply: (@cdist_ok _ _ _ _ _ _ _ _ _ _ _ eps qx qy h h) => //; right.
Qed.
Print Assumptions C84_caches.

(* Finding: when all vertices are the same point (or for the hull of a single point) no face has a
   direction: the distance is infinite, and the point counts as inside. *)
Theorem C84_single_point_refuted (R : rcfType) (eps : R) (o : Z) (a b px py : R) (n : nat) :
  exists h', hull_distance eps px py (ready_hull (List.repeat a n.+1) (List.repeat b n.+1) o) = Ok (None, h').
Proof.
set h := ready_hull _ _ _; have L : length (hx h) = length (hy h) by rewrite /= !List.repeat_length.
rewrite /hull_distance (@cdist_ok _ _ _ _ _ _ _ _ _ _ _ eps px py h h) //; last by left.
eexists; congr (Ok (_, _)); rewrite /distance_of /hpoints /=.
have Ha e : List.In e (edges (combine (a :: List.repeat a n) (b :: List.repeat b n))) -> e = ((a, b), (a, b)).
  have A c d : List.In (c, d) (combine (a :: List.repeat a n) (b :: List.repeat b n)) -> (c, d) = (a, b).
    move=> H; have Ed : d = b by case: (List.in_combine_r _ _ _ _ H) => [//|Hd]; exact: List.repeat_spec Hd.
    have Ec : c = a by case: (List.in_combine_l _ _ _ _ H) => [//|Hc]; exact: List.repeat_spec Hc.
    by rewrite Ec Ed.
  case: e => [[c1 c2] [d1 d2]] /edges_split [l1 [l2 E]].
  rewrite (A c1 c2) ?E; last by apply/List.in_app_iff; right; left.
  by rewrite (A d1 d2) ?E //; apply/List.in_app_iff; right; right; left.
move: Ha; move: (edges _) => es; elim: es => [|e es IH] // Ha; cbn [List.fold_left].
rewrite (Ha e) ?step_same; last by left.
by apply: IH => e' He'; apply: Ha; right.
Qed.
Print Assumptions C84_single_point_refuted.
