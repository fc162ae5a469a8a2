(* Examples and counterexamples on distances to convex hulls (C84), with rational numbers. *)
From Coq Require Import QArith Qround.
From Verif Require Import Base HdistModel.

Definition q_add a b := Qred (Qplus a b).
Definition q_sub a b := Qred (Qminus a b).
Definition q_mul a b := Qred (Qmult a b).
Definition q_div a b := Qred (Qdiv a b).
Definition q_abs (a : Q) : Q := Z.abs (Qnum a) # Qden a.
Definition q_opp (a : Q) : Q := Qred (Qopp a).
Definition q_lt a b := negb (Qle_bool b a).
(* right for the squares of rational numbers *)
Definition q_sqrt (a : Q) : Q := Z.sqrt (Qnum a) # Pos.sqrt (Qden a).
Definition q_trunc (a : Q) : Z := Z.quot (Qnum a) (Zpos (Qden a)).
(* vectors stored in a vec<1,int_t>; 0/0 cannot be converted *)
Definition truncate (x : option Q) : outcome (option Q) :=
  match x with Some x => Ok (Some (inject_Z (q_trunc x))) | None => UB end.
Definition q_distance st eps px py h :=
  ' (r, _) <- convex_hull_distance (0 # 1) q_add q_sub q_mul q_div q_abs q_opp q_sqrt q_lt Qeq_bool st eps px py h ;; Ok r.
Definition q_distances eps dims px dims' py h :=
  ' (r, _) <- convex_hull_distance_vec (0 # 1) q_add q_sub q_mul q_div q_abs q_opp q_sqrt q_lt Qeq_bool keep eps dims px dims' py h ;;
  Ok r.
Definition q_z (l : list Z) : list Q := map inject_Z l.
(* a right triangle of sides 4, 3 and 5 *)
Definition tri : fhull Q := built_hull (q_z [0; 4; 0; 0]%Z) (q_z [0; 0; 3; 0]%Z).

Example C84_example_inside : q_distance keep (1 # 1000) (2 # 1) (1 # 1) tri = Ok (Some (2 # 5)).
Proof. reflexivity. Qed.
(* in front of a face, in front of a corner *)
Example C84_example_outside :
  map (fun p => q_distance keep (1 # 1000) (fst p) (snd p) tri) [(2 # 1, -7 # 1); (7 # 1, -4 # 1); (-3 # 1, 7 # 1); (-3 # 1, 2 # 1)] =
  [Ok (Some (-7 # 1)); Ok (Some (-5 # 1)); Ok (Some (-5 # 1)); Ok (Some (-3 # 1))].
Proof. reflexivity. Qed.
Example C84_example_vec :
  q_distances (1 # 1000) [2; 2]%nat (q_z [2; 7; 2; 0]%Z) [2; 2]%nat (q_z [1; -4; -7; 0]%Z) tri =
  Ok [Some (2 # 5); Some (-5 # 1); Some (-7 # 1); Some (0 # 1)] /\
  q_distances (1 # 1000) [2; 2]%nat (q_z [2; 7; 2; 0]%Z) [4]%nat (q_z [1; -4; -7; 0]%Z) tri = CheckFail.
Proof. split; reflexivity. Qed.
(* a clockwise hull with a repeated vertex, given by hand; not closed *)
Example C84_example_made :
  q_distance keep (1 # 1000) (2 # 1) (1 # 1) (raw_hull (q_z [0; 0; 4; 4; 0]%Z) (q_z [0; 3; 0; 0; 0]%Z)) = Ok (Some (2 # 5)) /\
  q_distance keep (1 # 1000) (2 # 1) (1 # 1) (raw_hull (q_z [0; 0; 4]%Z) (q_z [0; 3; 0]%Z)) = CheckFail.
Proof. split; reflexivity. Qed.

(* Finding: the unit and normal vectors of a convex_hull<int_t> are stored as integers, hence as 0 for
   faces that are not parallel to an axis: the distance to the triangle is then 0 everywhere. *)
Theorem C84_integer_hull_refuted : exists px py d,
  q_distance truncate (0 # 1) px py tri = Ok (Some (0 # 1)) /\ q_distance keep (0 # 1) px py tri = Ok (Some d) /\ ~ d == 0.
Proof. exists (2 # 1), (1 # 1), (2 # 5). split; [reflexivity|]. split; [reflexivity|]. discriminate. Qed.
Print Assumptions C84_integer_hull_refuted.

(* Finding: the hull of aligned points is a segment there and back, and the points of the line beyond
   its ends are given a positive distance, as if they were inside. *)
Theorem C84_aligned_refuted : exists x y px py d,
  q_distance keep (1 # 1000) px py (built_hull x y) = Ok (Some d) /\ 0 < d /\ forall v, In v x -> v < px.
Proof.
  exists (q_z [0; 2; 0]%Z), (q_z [0; 0; 0]%Z), (5 # 1), (0 # 1), (3 # 1).
  split; [reflexivity|]. split; [reflexivity|]. cbn. intros v [<-|[<-|[<-|[]]]]; reflexivity.
Qed.
Print Assumptions C84_aligned_refuted.

(* vertices changed after a first call *)
Definition moved (px py : Q) : outcome (option Q) :=
  ' (_, h) <- convex_hull_distance (0 # 1) q_add q_sub q_mul q_div q_abs q_opp q_sqrt q_lt Qeq_bool keep (1 # 1000) px py tri ;;
  q_distance keep (1 # 1000) px py (Fhull (q_z [0; 3; 0; 0]%Z) (q_z [0; 0; 4; 0]%Z) (validated h) (closed h) (orient h) (vectors h)).
(* Finding (documented: mark_as_dirty() is needed): vertices changed after a first call.  The new
   vertices are used with the vectors of the old ones: the result belongs to neither of the hulls. *)
Theorem C84_stale_vectors_refuted : exists px py d d0 d1,
  moved px py = Ok (Some d) /\ q_distance keep (1 # 1000) px py tri = Ok (Some d0) /\
  q_distance keep (1 # 1000) px py (built_hull (q_z [0; 3; 0; 0]%Z) (q_z [0; 0; 4; 0]%Z)) = Ok (Some d1) /\
  ~ d == d0 /\ ~ d == d1.
Proof. exists 2, 1, (-1 # 5), (2 # 5), (1 # 5). repeat split; try reflexivity; discriminate. Qed.
Print Assumptions C84_stale_vectors_refuted.

(* coordinates of different sizes and hulls of fewer than three points are refused by all the functions *)
Theorem C84_checked_sizes : forall F (zero : F) fadd fsub fmul fdiv fabs fopp fsqrt flt feqb store eps px py x y,
  (length x <> length y \/ length x < 3)%nat ->
  convex_hull_distance zero fadd fsub fmul fdiv fabs fopp fsqrt flt feqb store eps px py (raw_hull x y) = CheckFail /\
  in_hull zero fsub fmul fabs fopp flt eps px py (raw_hull x y) = CheckFail.
Proof.
  intros F zero fadd fsub fmul fdiv fabs fopp fsqrt flt feqb store eps px py x y H.
  assert (V : validate zero fsub fmul fabs flt eps (raw_hull x y) = CheckFail).
  { unfold validate, raw_hull. cbn [validated hx hy].
    destruct (Nat.eqb_spec (length x) (length y)) as [E|E]; [|reflexivity]. cbn [check obind].
    destruct (Nat.leb_spec 3 (length x)); [lia|reflexivity]. }
  unfold convex_hull_distance, in_hull. rewrite V. split; reflexivity.
Qed.
Print Assumptions C84_checked_sizes.
