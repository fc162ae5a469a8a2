(* The loops of HdistModel.v as folds over the list of edges. *)
From Verif Require Import Base HdistModel.

Lemma omapl_index {A B} (f : nat -> outcome B) (g : A -> B) (l : list A) k :
  (forall i e, nth_error l i = Some e -> f (k + i) = Ok (g e)) -> omapl f (seq k (length l)) = Ok (map g l).
Proof.
  revert k. induction l as [|e l IH]; intros k H; cbn; [reflexivity|].
  pose proof (H 0 e eq_refl) as E. rewrite Nat.add_0_r in E. rewrite E. cbn.
  rewrite (IH (S k)); [reflexivity|]. intros i x Hx. rewrite <- (H (S i) x Hx). f_equal. lia.
Qed.
Lemma ofold_index {A S} (f : S -> nat -> outcome S) (g : S -> A -> S) (l : list A) k s :
  (forall s i e, nth_error l i = Some e -> f s (k + i) = Ok (g s e)) ->
  ofold f (seq k (length l)) s = Ok (fold_left g l s).
Proof.
  revert k s. induction l as [|e l IH]; intros k s H; cbn; [reflexivity|].
  pose proof (H s 0 e eq_refl) as E. rewrite Nat.add_0_r in E. rewrite E. cbn.
  apply IH. intros s' i x Hx. rewrite <- (H s' (Datatypes.S i) x Hx). f_equal. lia.
Qed.

(* pairs of consecutive elements *)
Definition edges {A} (l : list A) : list (A * A) := combine l (tl l).
Lemma edges_length {A} (l : list A) : length (edges l) = length l - 1.
Proof. unfold edges. rewrite combine_length. destruct l; cbn [length tl]; lia. Qed.
Lemma nth_error_combine {A B} (l : list A) (l' : list B) i a b :
  nth_error (combine l l') i = Some (a, b) <-> nth_error l i = Some a /\ nth_error l' i = Some b.
Proof.
  revert l' i. induction l as [|x l IH]; intros l' i; cbn.
  - destruct i; cbn; split; [discriminate|intros [? _]; discriminate|discriminate|intros [? _]; discriminate].
  - destruct l' as [|y l']; cbn.
    + split; [destruct i; discriminate|intros [_ H]; destruct i; discriminate].
    + destruct i; cbn; [|apply IH]. split; [intros [= <- <-]; auto|intros [[= <-] [= <-]]; reflexivity].
Qed.
Lemma nth_error_tl {A} (l : list A) i : nth_error (tl l) i = nth_error l (i + 1).
Proof. rewrite Nat.add_1_r. destruct l; [destruct i|]; reflexivity. Qed.
Lemma edges_nth {A} (l : list A) i a b :
  nth_error (edges l) i = Some (a, b) <-> nth_error l i = Some a /\ nth_error l (i + 1) = Some b.
Proof. unfold edges. rewrite nth_error_combine, nth_error_tl. reflexivity. Qed.
Lemma edges_split {A} (l : list A) a b : In (a, b) (edges l) <-> exists l1 l2, l = l1 ++ a :: b :: l2.
Proof.
  split.
  - intros H. apply In_nth_error in H. destruct H as [i H]. apply edges_nth in H. destruct H as [Ha Hb].
    apply nth_error_split in Ha. destruct Ha as (l1 & l2 & -> & L). exists l1.
    rewrite nth_error_app2 in Hb by lia. replace (i + 1 - length l1) with 1 in Hb by lia.
    destruct l2 as [|c l2]; [discriminate|]. cbn in Hb. injection Hb as ->. exists l2. reflexivity.
  - intros (l1 & l2 & ->). apply (nth_error_In _ (length l1)). apply edges_nth. split.
    + rewrite nth_error_app2, Nat.sub_diag by lia. reflexivity.
    + rewrite nth_error_app2 by lia. replace (length l1 + 1 - length l1) with 1 by lia. reflexivity.
Qed.

Section Hull.
Context {F : Type} (zero : F) (fadd fsub fmul fdiv : F -> F -> F).
Context (fabs fopp fsqrt : F -> F) (flt : F -> F -> bool) (feqb : F -> F -> bool) (eps : F).

Local Notation bface := (build_face zero fadd fsub fmul fdiv fsqrt feqb keep).
Local Notation bvectors := (build_vectors zero fadd fsub fmul fdiv fsqrt feqb keep).
Local Notation fstep := (face_step zero fadd fsub fmul fabs fsqrt flt).
Local Notation cdist := (convex_hull_distance zero fadd fsub fmul fdiv fabs fopp fsqrt flt feqb keep eps).
Local Notation cdist_vec := (convex_hull_distance_vec zero fadd fsub fmul fdiv fabs fopp fsqrt flt feqb keep eps).
Local Notation val := (validate zero fsub fmul fabs flt eps).

(* the face from a to b *)
Definition eface (o : Z) (e : F * F * (F * F)) : face F :=
  let '((ax, ay), (bx, by_)) := e in
  let mx := if (o =? 1)%Z then fsub by_ ay else fsub ay by_ in
  let my := if (o =? 1)%Z then fsub ax bx else fsub bx ax in
  let l := Some (fsqrt (fadd (fmul mx mx) (fmul my my))) in
  let q x := quot zero fdiv feqb (Some x) l in
  Face (q (fsub bx ax)) (q (fsub by_ ay)) (q mx) (q my) l.
Definition estep (o : Z) (px py : F) (s : option F * bool) (e : F * F * (F * F)) : option F * bool :=
  let '((ax, ay), (bx, by_)) := e in
  let f := eface o e in
  let dx := fsub px ax in let dy := fsub py ay in
  let d := dot fadd fmul dx dy (nx f) (ny f) in
  let inhull := if olt flt (Some zero) d then false else snd s in
  let d := option_map fabs d in
  if above flt (fst s) d then
    let proj := dot fadd fmul dx dy (ux f) (uy f) in
    let d := if olt flt proj (Some zero) then Some (fsqrt (fadd (fmul dx dx) (fmul dy dy)))
          else if olt flt (len f) proj then
            let ex := fsub px bx in let ey := fsub py by_ in Some (fsqrt (fadd (fmul ex ex) (fmul ey ey)))
          else d in
    (if above flt (fst s) d then d else fst s, inhull)
  else (fst s, inhull).

Definition hpoints (h : fhull F) : list (F * F) := combine (hx h) (hy h).
Definition with_vectors (h : fhull F) : fhull F :=
  Fhull (hx h) (hy h) (validated h) (closed h) (orient h) (Some (map (eface (orient h)) (edges (hpoints h)))).
(* the caches, when there are, belong to the vertices *)
Definition fresh (h : fhull F) : Prop :=
  vectors h = None \/ vectors h = Some (map (eface (orient h)) (edges (hpoints h))).

Lemma hedge h i ax ay bx by_ : nth_error (edges (hpoints h)) i = Some ((ax, ay), (bx, by_)) ->
  nth_error (hx h) i = Some ax /\ nth_error (hy h) i = Some ay /\
  nth_error (hx h) (i + 1) = Some bx /\ nth_error (hy h) (i + 1) = Some by_.
Proof. rewrite edges_nth. unfold hpoints. rewrite !nth_error_combine. tauto. Qed.
Lemma hedges_length h : length (hx h) = length (hy h) -> length (edges (hpoints h)) = length (hx h) - 1.
Proof. intros L. rewrite edges_length. unfold hpoints. rewrite combine_length. lia. Qed.

Lemma bface_ok h i e : nth_error (edges (hpoints h)) i = Some e -> bface h i = Ok (eface (orient h) e).
Proof.
  destruct e as [[ax ay] [bx by_]]. intros H. apply hedge in H. destruct H as (A & B & C & D).
  unfold build_face, oget. rewrite A, B, C, D. reflexivity.
Qed.
Lemma bvectors_ok h : length (hx h) = length (hy h) -> hx h <> [] -> fresh h -> bvectors h = Ok (with_vectors h).
Proof.
  intros L N [H|H]; unfold build_vectors; rewrite H.
  - destruct (length (hx h)) eqn:E; [destruct (hx h); [contradiction|discriminate]|].
    pose proof (hedges_length h) as L'. rewrite E in L'. specialize (L' L). cbn in L'. rewrite Nat.sub_0_r in L'.
    rewrite <- L'. rewrite (omapl_index _ (eface (orient h)) _ 0); [reflexivity|].
    intros i e He. apply bface_ok. exact He.
  - unfold with_vectors. rewrite <- H. destruct h; reflexivity.
Qed.
Lemma fstep_ok h px py i e s : nth_error (edges (hpoints h)) i = Some e ->
  fstep h (map (eface (orient h)) (edges (hpoints h))) px py i s = Ok (estep (orient h) px py s e).
Proof.
  intros H. assert (Hf : oget (map (eface (orient h)) (edges (hpoints h))) i = Ok (eface (orient h) e)).
  { unfold oget. rewrite nth_error_map, H. reflexivity. }
  destruct e as [[ax ay] [bx by_]]. apply hedge in H. destruct H as (A & B & C & D).
  destruct s as [r b]. unfold face_step. rewrite Hf. unfold oget. rewrite A, B, C, D. cbn [obind].
  unfold estep. cbn [fst snd]. destruct above; [|reflexivity].
  destruct (olt flt (dot _ _ _ _ (ux _) _) _); [reflexivity|]. destruct (olt flt (len _) _); reflexivity.
Qed.
Definition signed (s : option F * bool) : option F := if snd s then fst s else option_map fopp (fst s).
Definition distance_of (h : fhull F) (px py : F) : option F :=
  signed (fold_left (estep (orient h) px py) (edges (hpoints h)) (None, true)).

Lemma cdist_ok px py h h1 : val h = Ok h1 -> closed h1 = true -> length (hx h1) = length (hy h1) -> hx h1 <> [] ->
  fresh h1 -> cdist px py h = Ok (distance_of h1 px py, with_vectors h1).
Proof.
  intros V C L N Fr. unfold convex_hull_distance. rewrite V. cbn [obind]. rewrite C. cbn [check obind].
  rewrite (bvectors_ok h1 L N Fr). cbn [obind with_vectors get_vectors vectors].
  unfold faces_of. cbn [hx with_vectors]. rewrite <- (hedges_length h1 L).
  rewrite (ofold_index _ (estep (orient h1) px py) _ 0).
  - reflexivity.
  - intros s i e He. cbn [Nat.add]. exact (fstep_ok h1 px py i e s He).
Qed.
Lemma with_vectors_fresh h : fresh (with_vectors h).
Proof. right. reflexivity. Qed.

(* the loop over the points for one face, and the sign changes *)
Local Notation body h fs px py i := (fun (s : list (option F) * list bool) p =>
  r <- oget (fst s) p ;; b <- oget (snd s) p ;;
  qx <- oget px p ;; qy <- oget py p ;;
  ' (r, b) <- fstep h fs qx qy i (r, b) ;;
  rs <- oset (fst s) p r ;; bs <- oset (snd s) p b ;; Ok (rs, bs)).
Lemma oget_mid {A} (a : list A) x b n : n = length a -> oget (a ++ x :: b) n = Ok x.
Proof. intros ->. unfold oget. rewrite nth_error_app2, Nat.sub_diag by lia. reflexivity. Qed.
Lemma oset_mid {A} (a : list A) x y b n : n = length a -> oset (a ++ x :: b) n y = Ok ((a ++ [y]) ++ b).
Proof.
  intros ->.
  unfold oset. assert (T : (length a <? length (a ++ x :: b)) = true) by (apply Nat.ltb_lt; rewrite app_length; cbn; lia).
  rewrite T. f_equal. clear. induction a as [|z a IH]; cbn; [reflexivity|]. now rewrite IH.
Qed.
Lemma body_ok h i e pts l : nth_error (edges (hpoints h)) i = Some e -> length pts = length l ->
  ofold (body h (map (eface (orient h)) (edges (hpoints h))) (map fst pts) (map snd pts) i) (seq 0 (length pts))
    (map fst l, map snd l) =
  let l' := map (fun '(p, s) => estep (orient h) (fst p) (snd p) s e) (combine pts l) in Ok (map fst l', map snd l').
Proof.
  intros He. set (st := fun '(p, s) => estep (orient h) (fst p) (snd p) s e).
  enough (G : forall pr a r lr, length pr = length a -> length r = length lr ->
    ofold (body h (map (eface (orient h)) (edges (hpoints h))) (map fst (pr ++ r)) (map snd (pr ++ r)) i)
      (seq (length pr) (length r)) (map fst (a ++ lr), map snd (a ++ lr)) =
    Ok (map fst (a ++ map st (combine r lr)), map snd (a ++ map st (combine r lr)))).
  { intros L. exact (G [] [] pts l eq_refl L). }
  intros pr a r. revert pr a. induction r as [|q r IH]; intros pr a lr L L'.
  - destruct lr; [reflexivity|discriminate].
  - destruct lr as [|s lr]; [discriminate|]. cbn [length seq ofold fst snd].
    rewrite !map_app. cbn [map].
    assert (Lp1 : length pr = length (map fst pr)) by (now rewrite map_length).
    assert (Lp2 : length pr = length (map snd pr)) by (now rewrite map_length).
    assert (La1 : length pr = length (map (@fst (option F) bool) a)) by (now rewrite map_length).
    assert (La2 : length pr = length (map (@snd (option F) bool) a)) by (now rewrite map_length).
    rewrite (oget_mid _ _ _ _ La1), (oget_mid _ _ _ _ La2), (oget_mid _ _ _ _ Lp1), (oget_mid _ _ _ _ Lp2).
    cbn [obind]. rewrite (fstep_ok h _ _ i e _ He). cbn [obind].
    replace (fst s, snd s) with s by (destruct s; reflexivity).
    change (estep (orient h) (fst q) (snd q) s e) with (st (q, s)).
    destruct (st (q, s)) as [r1 b1] eqn:Es.
    rewrite (oset_mid _ _ _ _ _ La1). cbn [obind]. rewrite (oset_mid _ _ _ _ _ La2). cbn [obind].
    specialize (IH (pr ++ [q]) (a ++ [(r1, b1)]) lr).
    rewrite !map_app, !app_length in IH. cbn [length map fst snd] in IH. rewrite Nat.add_1_r in IH.
    repeat rewrite <- app_assoc in IH. repeat rewrite <- app_assoc. cbn [app] in IH |- *.
    rewrite IH by (cbn in L'; lia). cbn [combine map]. rewrite Es.
    rewrite ?map_app. cbn [map fst snd]. reflexivity.
Qed.
Lemma signs_ok l :
  ofold (fun rs p => b <- oget (map snd l) p ;;
            if b : bool then Ok rs else r <- oget rs p ;; oset rs p (option_map fopp r))
          (seq 0 (length l)) (map fst l) = Ok (map signed l).
Proof.
  enough (G : forall a r, ofold (fun rs p => b <- oget (map snd (a ++ r)) p ;;
            if b : bool then Ok rs else r <- oget rs p ;; oset rs p (option_map fopp r))
          (seq (length a) (length r)) (map signed a ++ map fst r) = Ok (map signed a ++ map signed r)) by apply (G [] l).
  intros a r. revert a. induction r as [|s r IH]; intros a; [reflexivity|]. cbn [length seq ofold map].
  assert (L1 : length a = length (map snd a)) by (now rewrite map_length).
  assert (L2 : length a = length (map signed a)) by (now rewrite map_length).
  rewrite (map_app snd) at 1. cbn [map]. rewrite (oget_mid _ _ _ _ L1). cbn [obind].
  assert (E : (if snd s then Ok (map signed a ++ fst s :: map fst r)
               else r0 <- oget (map signed a ++ fst s :: map fst r) (length a) ;;
                    oset (map signed a ++ fst s :: map fst r) (length a) (option_map fopp r0)) =
              Ok (map signed (a ++ [s]) ++ map fst r)).
  { rewrite map_app. cbn [map]. assert (Sg : signed s = if snd s then fst s else option_map fopp (fst s)) by reflexivity.
    rewrite Sg. destruct (snd s).
    - rewrite <- app_assoc. reflexivity.
    - rewrite (oget_mid _ _ _ _ L2). cbn [obind]. rewrite (oset_mid _ _ _ _ _ L2). reflexivity. }
  rewrite E. cbn [obind]. specialize (IH (a ++ [s])). rewrite app_length, Nat.add_1_r in IH.
  rewrite <- app_assoc in IH. cbn [app length] in IH. rewrite IH. rewrite map_app, <- app_assoc. reflexivity.
Qed.
Lemma folds_apart o es : forall (pts : list (F * F)) (l : list (option F * bool)), length pts = length l ->
  fold_left (fun l e => map (fun '(p, s) => estep o (fst p) (snd p) s e) (combine pts l)) es l =
  map (fun '(p, s) => fold_left (estep o (fst p) (snd p)) es s) (combine pts l).
Proof.
  induction es as [|e es IH]; intros pts l L; cbn [fold_left].
  - revert l L. induction pts as [|p pts IHp]; intros [|s l] L; try discriminate; [reflexivity|].
    cbn [combine map]. injection L as L. now rewrite <- IHp.
  - rewrite IH.
    + revert l L. clear IH. induction pts as [|p pts IHp]; intros [|s l] L; try discriminate; [reflexivity|].
      cbn [combine map]. injection L as L. f_equal. now apply IHp.
    + rewrite map_length, combine_length. lia.
Qed.
Lemma cdist_vec_ok D pts h h1 : val h = Ok h1 -> closed h1 = true -> length (hx h1) = length (hy h1) -> hx h1 <> [] ->
  fresh h1 -> cdist_vec D (map fst pts) D (map snd pts) h =
    Ok (map (fun p => distance_of h1 (fst p) (snd p)) pts, with_vectors h1).
Proof.
  intros V C L N Fr. unfold convex_hull_distance_vec. destruct (list_eq_dec _ D D) as [eqD|]; [clear eqD|contradiction]. cbn [check obind].
  rewrite V. cbn [obind]. rewrite C. cbn [check obind].
  rewrite (bvectors_ok h1 L N Fr). cbn [obind with_vectors get_vectors vectors].
  unfold faces_of. cbn [hx with_vectors]. rewrite <- (hedges_length h1 L). rewrite map_length.
  set (o := orient h1). set (es := edges (hpoints h1)).
  set (out := fun s i => _).
  assert (G : forall k es' l, length pts = length l -> (forall i e, nth_error es' i = Some e -> nth_error es (k + i) = Some e) ->
    let l' := fold_left (fun l e => map (fun '(p, s) => estep o (fst p) (snd p) s e) (combine pts l)) es' l in
    ofold out (seq k (length es')) (map fst l, map snd l) = Ok (map fst l', map snd l')).
  { intros k es'. revert k. induction es' as [|e es' IH]; intros k l Ll He; cbn zeta; [reflexivity|].
    cbn [length seq ofold fold_left]. pose proof (He 0 e eq_refl) as E0. rewrite Nat.add_0_r in E0.
    unfold out at 1. pose proof (body_ok h1 k e pts l E0 Ll) as B. cbn zeta in B.
    unfold with_vectors. unfold o, es. 
    match type of B with ?x = _ => match goal with |- context [obind ?y _] => change y with x end end.
    rewrite B. cbn [obind]. apply IH.
    - rewrite map_length, combine_length. lia.
    - intros i x Hx. rewrite <- (He (S i) x Hx). f_equal. lia. }
  specialize (G 0 es (repeat (None, true) (length pts))). rewrite repeat_length in G. specialize (G eq_refl (fun i e H => H)).
  cbn zeta in G. assert (R1 : forall n, map fst (repeat (@None F, true) n) = repeat None n) by (induction n; cbn; congruence).
  assert (R2 : forall n, map snd (repeat (@None F, true) n) = repeat true n) by (induction n; cbn; congruence).
  rewrite R1, R2 in G. rewrite G. cbn [obind fst snd].
  rewrite folds_apart by (now rewrite repeat_length).
  match goal with |- context [map ?f (combine pts ?l)] => set (l' := map f (combine pts l)) end.
  assert (Ll : length pts = length l') by (unfold l'; rewrite map_length, combine_length, repeat_length; lia).
  rewrite Ll at 1. rewrite signs_ok. cbn [obind]. f_equal. f_equal. unfold l'. rewrite map_map.
  clear. induction pts as [|p pts IH]; [reflexivity|]. cbn. now rewrite IH.
Qed.

(* in_convex_hull *)
Definition side (o : Z) (px py : F) (e : F * F * (F * F)) : bool :=
  let '((ax, ay), (bx, by_)) := e in
  let cross := fsub (fmul (fsub bx ax) (fsub py ay)) (fmul (fsub by_ ay) (fsub px ax)) in
  negb (flt (if (o =? 1)%Z then cross else if (o =? -1)%Z then fopp cross else zero) zero).
Lemma inner_side_ok h px py : forall es k, (forall i e, nth_error es i = Some e -> nth_error (edges (hpoints h)) (k + i) = Some e) ->
  inner_side zero fsub fmul fopp flt h px py (seq k (length es)) = Ok (forallb (side (orient h) px py) es).
Proof.
  induction es as [|e es IH]; intros k H; [reflexivity|]. cbn [length seq inner_side forallb].
  pose proof (H 0 e eq_refl) as E. rewrite Nat.add_0_r in E. destruct e as [[ax ay] [bx by_]].
  apply hedge in E. destruct E as (A & B & C & D). unfold oget. rewrite A, B, C, D. cbn [obind].
  unfold side at 1. cbn zeta. destruct flt; [reflexivity|]. cbn [negb andb].
  apply IH. intros i x Hx. rewrite <- (H (S i) x Hx). f_equal. lia.
Qed.
Lemma in_hull_okF px py h h1 : val h = Ok h1 -> closed h1 = true -> length (hx h1) = length (hy h1) -> hx h1 <> [] ->
  in_hull zero fsub fmul fabs fopp flt eps px py h = Ok (forallb (side (orient h1) px py) (edges (hpoints h1))).
Proof.
  intros V C L N. unfold in_hull. rewrite V. cbn [obind]. rewrite C. cbn [check obind].
  pose proof (hedges_length h1 L) as L'. destruct (length (hx h1)) eqn:E; [destruct (hx h1); [contradiction|discriminate]|].
  cbn in L'. rewrite Nat.sub_0_r in L'. rewrite <- L'. apply inner_side_ok. auto.
Qed.
End Hull.
