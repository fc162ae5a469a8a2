(* The distance to all faces. *)
From Verif Require Import Base HdistModel HdistProofs.
From mathcomp Require Import all_ssreflect all_algebra.
From Verif Require Import HdistSpec HdistProofs2.
Set Implicit Arguments.
Unset Strict Implicit.
Unset Printing Implicit Defensive.
Import Order.Theory GRing.Theory Num.Theory.
Local Open Scope ring_scope.

Lemma edges_consecutive (R : rcfType) (l : list (R * R)) a b : List.In (a, b) (edges l) <-> consecutive l a b.
Proof. exact: edges_split. Qed.
(* a point of a line that is not reduced to a point belongs to a segment of the line *)
Lemma near_edge (T : eqType) (l : list T) (q : T) : List.In q l -> (exists a b, List.In (a, b) (edges l) /\ a <> b) ->
  exists a b, List.In (a, b) (edges l) /\ a <> b /\ (q = a \/ q = b).
Proof.
elim: l => [|x [|y l] IH] Hq [a [b [H ne]]]; [by case: Hq|by case: H|].
have [E|E] := eqVneq x y; last first.
  case: Hq => [<-|Hq0]; first by exists x, y; split; [left|split; [exact/eqP|left]].
  have Hq : List.In q (y :: l) := Hq0.
  (* either all the rest is y or there is another edge *)
  have [Hall|[c [d [Hc Hne]]]] : (forall z, List.In z l -> z = y) \/ (exists c d, List.In (c, d) (edges (y :: l)) /\ c <> d).
    elim: (l) (y) => [|z m IHm] w; first by left.
    have [->|nz] := eqVneq z w; last by right; exists w, z; split; [left|move=> Ew; move: nz; rewrite Ew eqxx].
    case: (IHm w) => [Ha|[c [d [Hc Hne]]]]; first by left=> v [<-|/Ha].
    by right; exists c, d; split; [right|].
    exists x, y; split; [by left|split; [exact/eqP|right]].
    by case: Hq => [<-|/Hall].
  by have [|c' [d' [Hc' R]]] := IH Hq; [exists c, d|exists c', d'; split; [right|]].
have H' : List.In (a, b) (edges (y :: l)).
  by case: H => [[Ea Eb]|//]; case: ne; rewrite -Ea -Eb.
have Hq' : List.In q (y :: l) by case: Hq => [<-|//]; left.
by have [|c [d [Hc R]]] := IH Hq'; [exists a, b|exists c, d; split; [right|]].
Qed.

Section Distance.
Variable R : rcfType.
Local Notation point := (R * R)%type.
Local Notation st o p := (estep 0 +%R (fun x y : R => x - y) *%R (fun x y => x / y) Num.norm Num.sqrt
  (fun x y => x < y) (fun x y => x == y) o (fst p) (snd p)).

Definition on_edges (es : list (point * point)) (q : point) : Prop :=
  exists a b, List.In (a, b) es /\ a <> b /\ on_segment a b q.
Lemma fold_spec o (p : point) es : let s := List.fold_left (st o p) es (None, true) in
  (s.2 = true <-> forall a b, List.In (a, b) es -> 0 <= sg_of R o * area2 a b p) /\
  (if s.1 is Some r then distance_to (on_edges es) p r else forall a b, List.In (a, b) es -> a = b).
Proof.
elim/List.rev_ind: es => [|e es [IHb IHr]]; first by split; [split=> // _|] => a b [].
rewrite List.fold_left_app; set s := List.fold_left _ _ _ in IHb IHr *; cbn [List.fold_left].
case: e => a b; have [E|/eqP ne] := eqVneq a b.
  rewrite -E step_same /=; split.
    rewrite IHb; split=> H c d.
      case/List.in_app_iff => [/H //|[[<- <-]|//]].
      by rewrite /area2 !subrr !mul0r subrr mulr0.
    by move=> Hc; apply: H; apply/List.in_app_iff; left.
  case: s.1 IHr => [r|] IHr.
    have Eq q : on_edges (List.app es ((a, a) :: nil)) q <-> on_edges es q.
      split=> -[c [d [Hc [nc Hs]]]]; exists c, d; split=> //.
        by case/List.in_app_iff: Hc => [//|[[E1 E2]|//]]; case: nc; rewrite -E1 -E2.
      by apply/List.in_app_iff; left.
    case: IHr => r0 [[q [Hq Eqr]] Hle]; split=> //; split; first by exists q; split=> //; apply/Eq.
    by move=> q' /Eq; exact: Hle.
  by move=> c d /List.in_app_iff [/IHr //|[[<- <-]|//]].
case: a b ne => ax ay [bx by_] ne; rewrite (step_val o p.1 p.2 ne).
rewrite -surjective_pairing /=; split.
  split.
    case/andP => Hb Ha c d /List.in_app_iff [Hc|[[<- <-]|//]]; last exact: Ha.
    by apply: (proj1 IHb).
  move=> H; apply/andP; split; last by apply: H; apply/List.in_app_iff; right; left.
  by apply/IHb => c d Hc; apply: H; apply/List.in_app_iff; left.
have [r0 [[q [Hq Eqr]] Hle]] := segdist_ok p.1 p.2 ne; rewrite -surjective_pairing in Eqr Hle.
set r := segdist _ _ _ _ _ _ in r0 Eqr Hle *.
have In1 q' : on_segment (ax, ay) (bx, by_) q' -> on_edges (List.app es (((ax, ay), (bx, by_)) :: nil)) q'.
  by move=> Hs; exists (ax, ay), (bx, by_); split=> //; apply/List.in_app_iff; right; left.
have In2 q' : on_edges es q' -> on_edges (List.app es (((ax, ay), (bx, by_)) :: nil)) q'.
  by case=> c [d [Hc Hr]]; exists c, d; split=> //; apply/List.in_app_iff; left.
have Cases q' : on_edges (List.app es (((ax, ay), (bx, by_)) :: nil)) q' -> on_edges es q' \/ on_segment (ax, ay) (bx, by_) q'.
  by case=> c [d [/List.in_app_iff [Hc|[[<- <-]|//]] [nc Hs]]]; [left; exists c, d|right].
case: s.1 IHr => [x|] IHr /=; last first.
  split=> //; split; first by exists q; split=> //; exact: In1.
  by move=> q' /Cases [[c [d [/IHr E [nc _]]]]|/Hle].
case: IHr => x0 [[qx [Hqx Ex]] Hx]; case: ltP => H.
  split=> //; split; first by exists q; split=> //; exact: In1.
  by move=> q' /Cases [/Hx|/Hle //]; apply: le_trans; apply: sq_le => //; exact: ltW.
split=> //; split; first by exists qx; split=> //; exact: In2.
by move=> q' /Cases [/Hx //|/Hle]; apply: le_trans; exact: sq_le.
Qed.

Lemma on_edges_border (l : list point) q : (exists a b, consecutive l a b /\ a <> b) -> on_edges (edges l) q <-> border l q.
Proof.
case=> a0 [b0 [H0 ne0]]; split.
  by case=> a [b [H [ne Hs]]]; exists a, b; split=> //; apply/edges_consecutive.
case=> a [b [/edges_consecutive H Hs]]; have [E|/eqP ne] := eqVneq a b; last by exists a, b.
have Ha : List.In a l.
  by case/edges_consecutive: H => l1 [l2 ->]; apply/List.in_app_iff; right; left.
have Eq : q = a.
  by case: Hs => t [_ ->]; rewrite -E !subrr !mulr0 !addr0 -surjective_pairing.
have [|c [d [Hc [nc Hor]]]] := near_edge Ha; first by exists a0, b0; split=> //; apply/edges_consecutive.
exists c, d; split=> //; split=> //; rewrite Eq; case: Hor => ->.
  by exists 0; rewrite lexx ler01 !mul0r !addr0 -surjective_pairing.
by exists 1; rewrite lexx ler01 !mul1r ![_ + (_ - _)]addrC !subrK -surjective_pairing.
Qed.

Lemma within_edges o (l : list point) p :
  (forall a b, List.In (a, b) (edges l) -> 0 <= sg_of R o * area2 a b p) <-> within (sg_of R o) l p.
Proof. by split=> H a b /edges_consecutive; exact: H. Qed.
Lemma distance_val eps o (x y : list R) (p : point) : length x = length y -> x <> nil ->
  (exists a b, consecutive (combine x y) a b /\ a <> b) ->
  exists r v h', hull_distance eps p.1 p.2 (ready_hull x y o) = Ok (Some v, h') /\
    distance_to (border (combine x y)) p r /\
    (within (sg_of R o) (combine x y) p /\ v = r \/ ~ within (sg_of R o) (combine x y) p /\ v = - r).
Proof.
move=> L N Hne; rewrite /hull_distance.
rewrite (@cdist_ok _ _ _ _ _ _ _ _ _ _ _ _ _ _ (ready_hull x y o) (ready_hull x y o)) //; last by left.
have /= [Hb Hr] := fold_spec o p (edges (combine x y)).
rewrite /distance_of /signed /hpoints /=; move: Hb Hr; case: (List.fold_left _ _ _) => r b /=.
rewrite within_edges => Hb; case: r => [r|] Hr; last first.
  by case: Hne => a [c [/edges_consecutive Hc ne]]; case: ne; exact: Hr.
have D : distance_to (border (combine x y)) p r.
  case: Hr => r0 [[q [Hq Eq]] Hle]; split=> //; split; first by exists q; split=> //; apply/on_edges_border.
  by move=> q' Hq'; apply: Hle; apply/on_edges_border.
case: b Hb => Hb; exists r.
  by exists r; eexists; split; first by []; split=> //; left; split=> //; apply/Hb.
by exists (- r); eexists; split; first by []; split=> //; right; split=> //; move/Hb.
Qed.
Lemma contains_val eps o (x y : list R) (p : point) : length x = length y -> x <> nil -> orientation o ->
  exists b, hull_contains eps p.1 p.2 (ready_hull x y o) = Ok b /\ (b = true <-> within (sg_of R o) (combine x y) p).
Proof.
move=> L N Ho; rewrite /hull_contains.
rewrite (@in_hull_okF R 0 +%R (fun x y => x - y) *%R (fun x y => x / y) Num.norm -%R Num.sqrt (fun x y => x < y) (fun x y => x == y) eps p.1 p.2 (ready_hull x y o) (ready_hull x y o)) //.
eexists; split; first by []; rewrite -within_edges List.forallb_forall /hpoints /=.
split.
  move=> H c d /H; rewrite /side /area2 /sg_of.
  by case: c d => [cx cy] [dx dy] /=; case: Ho => -> /=; rewrite -leNgt ?mul1r ?mulN1r.
move=> H -[c d] /H; rewrite /side /area2 /sg_of.
by case: c d => [cx cy] [dx dy] /=; case: Ho => -> /=; rewrite -leNgt ?mul1r ?mulN1r.
Qed.
End Distance.
