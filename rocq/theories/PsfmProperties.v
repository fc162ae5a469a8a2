(* C122: images of point spread functions from a textual model. *)
From Coq Require Import Ascii String QArith Qabs Qround Lqa Setoid Lia.
From Verif Require Import Base ImageModel ImageSpec StrModel StrSpec KeySpec DrizSpec DrizSpec2 RegridSpec TransfModel TransfSpec PsfmModel PsfmSpec PsfmProofs.
From Verif Require HdrProofs StrProofs DrizProofs12 SectModel.
Local Open Scope list_scope.
Local Open Scope nat_scope.
Notation length := List.length.

(* examples: numbers are single digits, exp(v) and sqrt(v) are stood for by 1 + v and v *)
Definition digit (s : list ascii) : option Q :=
  match s with [c] => let n := (Z.of_nat (nat_of_ascii c) - 48)%Z in if ((0 <=? n) && (n <=? 9))%Z%bool then Some (inject_Z n) else None | _ => None end.
Definition expx (v : Q) : Q := (1 + v)%Q.
Definition rootx (v : Q) : Q := v.
Definition image (n m : nat) (l : list Z) : img (option Q) := Img n m (map (fun z => Some (inject_Z z)) l).
Definition seen (r : img (option Q)) : list (option Z) := map (option_map (fun q => Qfloor (q * 8)%Q)) (pix r).
Definition none : img (option Q) := Img 0 0 [].
Definition no_file (_ : list ascii) : outcome (img (option Q)) := Throws.

(* The code of make_psf after the fields are known. *)
Ltac open_fields F ws := let E := fresh "E" in let T := fresh "T" in destruct (fields_code _ _ F) as (ws & E & T);
  unfold make_psf; rewrite E; cbn [obind]; rewrite T; cbn [obind SectModel.at_checked length Nat.ltb Nat.leb check oget nth_error].

(* every text has fields, at least one, and only one way to read them *)
Theorem C122_fields : forall model, (exists p ps, fields model (p :: ps)) /\ forall ps ps', fields model ps -> fields model ps' -> ps = ps'.
Proof.
  intros model. split; [apply fields_some|]. intros ps ps' F F'. destruct (fields_code _ _ F) as (ws & E & T). destruct (fields_code _ _ F') as (ws' & E' & T'). congruence.
Qed.
Print Assumptions C122_fields.
(* a model of another name, and a model with too few arguments: false is returned and the image is not changed *)
Theorem C122_unknown : forall ex sq num read n m x0 y0 model psf p ps, fields model (p :: ps) ->
  ~ In p [txt "gaussian"; txt "gaussring"; txt "file"] -> make_psf ex sq num read n m x0 y0 model psf = Ok (false, psf).
Proof.
  intros ex sq num read n m x0 y0 model psf p ps F N. open_fields F ws.
  rewrite !same_no by (intros ->; apply N; cbn; tauto). reflexivity.
Qed.
Print Assumptions C122_unknown.
Theorem C122_few : forall ex sq num read n m x0 y0 model psf p ps, fields model (p :: ps) ->
  (p = txt "gaussian" /\ length ps < 2 \/ p = txt "gaussring" /\ length ps < 5 \/ p = txt "file" /\ ps = []) ->
  make_psf ex sq num read n m x0 y0 model psf = Ok (false, psf).
Proof.
  intros ex sq num read n m x0 y0 model psf p ps F H. open_fields F ws.
  destruct H as [[-> L]|[[-> L]|[-> ->]]]; [| |reflexivity].
  - do 2 (destruct ps as [|? ps]; [reflexivity|]). cbn in L. lia.
  - do 5 (destruct ps as [|? ps]; [reflexivity|]). cbn in L. lia.
Qed.
Print Assumptions C122_few.
Example C122_few_ex : make_psf expx rootx digit no_file 2 2 0 0 (txt "gaussian, 3") none = Ok (false, none) /\
  make_psf expx rootx digit no_file 2 2 0 0 (txt "Gaussian,3,1") none = Ok (false, none) /\
  make_psf expx rootx digit no_file 2 2 0 0 [] none = Ok (false, none).
Proof. repeat split; vm_compute; reflexivity. Qed.

(* a gaussian: further arguments are ignored *)
Theorem C122_gaussian : forall ex sq num read n m x0 y0 model psf s1 s2 rest amp w,
  fields model (txt "gaussian" :: s1 :: s2 :: rest) -> given num s1 amp -> given num s2 w -> ~ (w == 0)%Q -> fits n m ->
  exists r, make_psf ex sq num read n m x0 y0 model psf = Ok (true, r) /\
    painted n m r (fun x y q => exists e, bell_of ex (dist2 x0 y0 x y) w e /\ q = Some (amp * e)%Q).
Proof.
  intros ex sq num read n m x0 y0 model psf s1 s2 rest amp w F G1 G2 W Fi. open_fields F ws. rewrite same_refl.
  rewrite (arg_given num (txt "gaussian" :: s1 :: s2 :: rest) 1 s1 amp eq_refl G1). cbn [obind].
  rewrite (arg_given num (txt "gaussian" :: s1 :: s2 :: rest) 2 s2 w eq_refl G2). cbn [obind].
  destruct (generate_ok n m (fun x y => Ok (gaussian ex amp w x0 y0 x y)) (gaussian ex amp w x0 y0) Fi ltac:(reflexivity)) as (r & -> & P).
  exists r. split; [reflexivity|]. eapply painted_imp; [|exact P]. cbv beta. intros x y q X Y ->. unfold gaussian.
  destruct (bell_some ex _ _ w (r2_dist x0 y0 x y X Y) W) as (e & -> & B). exists e. split; [exact B|reflexivity].
Qed.
Print Assumptions C122_gaussian.
Example C122_gaussian_ex : omap (fun p => (fst p, seen (snd p))) (make_psf expx rootx digit no_file 2 3 0 1 (txt "gaussian , 3, 1, x") none)
  = Ok (true, [Some 12; Some 24; Some 12; Some 0; Some 12; Some 0]%Z).
Proof. vm_compute. reflexivity. Qed.
(* a gaussian and a ring, at the distance and with the width and the fraction given *)
Theorem C122_gaussring : forall ex sq num read n m x0 y0 model psf s1 s2 s3 s4 s5 rest amp w pos frac rw,
  fields model (txt "gaussring" :: s1 :: s2 :: s3 :: s4 :: s5 :: rest) ->
  given num s1 amp -> given num s2 w -> given num s3 pos -> given num s4 frac -> given num s5 rw ->
  ~ (w == 0)%Q -> ~ (rw == 0)%Q -> fits n m ->
  exists r, make_psf ex sq num read n m x0 y0 model psf = Ok (true, r) /\
    painted n m r (fun x y q => exists d e f, (d == dist2 x0 y0 x y)%Q /\ bell_of ex d w e /\
      bell_of ex ((sq d - pos) ^ 2)%Q rw f /\ q = Some (amp * (e + frac * f))%Q).
Proof.
  intros ex sq num read n m x0 y0 model psf s1 s2 s3 s4 s5 rest amp w pos frac rw F G1 G2 G3 G4 G5 W RW Fi. open_fields F ws.
  change (same (txt "gaussring") "gaussian") with false. cbn iota. rewrite same_refl.
  set (ps := txt "gaussring" :: s1 :: s2 :: s3 :: s4 :: s5 :: rest).
  rewrite (arg_given num ps 1 s1 amp eq_refl G1), (arg_given num ps 2 s2 w eq_refl G2), (arg_given num ps 3 s3 pos eq_refl G3),
    (arg_given num ps 4 s4 frac eq_refl G4), (arg_given num ps 5 s5 rw eq_refl G5). cbn [obind].
  destruct (generate_ok n m (fun x y => Ok (gaussring ex sq amp w pos frac rw x0 y0 x y)) (gaussring ex sq amp w pos frac rw x0 y0) Fi ltac:(reflexivity)) as (r & -> & P).
  exists r. split; [reflexivity|]. eapply painted_imp; [|exact P]. cbv beta. intros x y q X Y ->. unfold gaussring.
  set (d := r2 x0 y0 (Z.to_nat x) (Z.to_nat y)).
  destruct (bell_some ex d d w ltac:(reflexivity) W) as (e & -> & B).
  destruct (bell_some ex ((sq d - pos) * (sq d - pos))%Q ((sq d - pos) ^ 2)%Q rw ltac:(cbn [Qpower Qpower_positive pow_pos]; reflexivity) RW) as (f & -> & B').
  exists d, e, f. split; [apply r2_dist; assumption|]. split; [exact B|]. split; [exact B'|reflexivity].
Qed.
Print Assumptions C122_gaussring.
Example C122_gaussring_ex : omap (fun p => (fst p, seen (snd p))) (make_psf expx rootx digit no_file 1 2 0 0 (txt "gaussring,3,1,1,2,1") none)
  = Ok (true, [Some 48; Some 60]%Z).
Proof. vm_compute. reflexivity. Qed.
(* a gaussian without width is 0, except for a pixel at its very centre, which is not a number *)
Theorem C122_point : forall ex sq num read n m x0 y0 model psf s1 s2 rest amp w,
  fields model (txt "gaussian" :: s1 :: s2 :: rest) -> given num s1 amp -> given num s2 w -> (w == 0)%Q -> fits n m ->
  exists r, make_psf ex sq num read n m x0 y0 model psf = Ok (true, r) /\
    painted n m r (fun x y q => ((inject_Z x == x0 /\ inject_Z y == y0)%Q -> q = None) /\
      (~ (inject_Z x == x0 /\ inject_Z y == y0)%Q -> exists z, q = Some z /\ (z == 0)%Q)).
Proof.
  intros ex sq num read n m x0 y0 model psf s1 s2 rest amp w F G1 G2 W Fi. open_fields F ws. rewrite same_refl.
  rewrite (arg_given num (txt "gaussian" :: s1 :: s2 :: rest) 1 s1 amp eq_refl G1). cbn [obind].
  rewrite (arg_given num (txt "gaussian" :: s1 :: s2 :: rest) 2 s2 w eq_refl G2). cbn [obind].
  destruct (generate_ok n m (fun x y => Ok (gaussian ex amp w x0 y0 x y)) (gaussian ex amp w x0 y0) Fi ltac:(reflexivity)) as (r & -> & P).
  exists r. split; [reflexivity|]. eapply painted_imp; [|exact P]. cbv beta. intros x y q X Y ->. unfold gaussian.
  rewrite (bell_zero ex _ w W). pose proof (r2_dist x0 y0 x y X Y) as R. unfold dist2 in R. cbn [Qpower Qpower_positive pow_pos] in R.
  destruct (Qeq_bool (r2 x0 y0 (Z.to_nat x) (Z.to_nat y)) 0) eqn:B.
  - apply Qeq_bool_iff in B. split; [reflexivity|]. intros N. exfalso. apply N. rewrite B in R.
    assert (A1 : (0 <= (inject_Z x - x0) * (inject_Z x - x0))%Q) by (destruct (Qlt_le_dec (inject_Z x - x0) 0); nra).
    assert (A2 : (0 <= (inject_Z y - y0) * (inject_Z y - y0))%Q) by (destruct (Qlt_le_dec (inject_Z y - y0) 0); nra).
    assert (B1 : ((inject_Z x - x0) * (inject_Z x - x0) == 0)%Q) by lra. assert (B2 : ((inject_Z y - y0) * (inject_Z y - y0) == 0)%Q) by lra.
    apply Qmult_integral in B1, B2. split; destruct B1, B2; lra.
  - split.
    + intros [E1 E2]. exfalso. apply Qeq_bool_neq in B. apply B. rewrite R, E1, E2. ring.
    + intros _. eexists. split; [reflexivity|]. ring.
Qed.
Print Assumptions C122_point.
(* Finding: an argument that is not a number is not noticed; it counts as 0, and true is returned. *)
Theorem C122_text_refuted : forall ex sq num read n m x0 y0 model psf s1 s2 rest w,
  fields model (txt "gaussian" :: s1 :: s2 :: rest) -> s1 <> [] -> num s1 = None -> given num s2 w -> ~ (w == 0)%Q -> fits n m ->
  exists r, make_psf ex sq num read n m x0 y0 model psf = Ok (true, r) /\
    painted n m r (fun x y q => exists z, q = Some z /\ (z == 0)%Q).
Proof.
  intros ex sq num read n m x0 y0 model psf s1 s2 rest w F N1 N2 G2 W Fi. open_fields F ws. rewrite same_refl.
  assert (A : arg num (txt "gaussian" :: s1 :: s2 :: rest) 1 = Ok 0%Q).
  { unfold arg. cbn [SectModel.at_checked length Nat.ltb Nat.leb check obind oget nth_error]. destruct s1; [congruence|]. rewrite N2. reflexivity. }
  rewrite A. cbn [obind]. rewrite (arg_given num (txt "gaussian" :: s1 :: s2 :: rest) 2 s2 w eq_refl G2). cbn [obind].
  destruct (generate_ok n m (fun x y => Ok (gaussian ex 0 w x0 y0 x y)) (gaussian ex 0 w x0 y0) Fi ltac:(reflexivity)) as (r & -> & P).
  exists r. split; [reflexivity|]. eapply painted_imp; [|exact P]. cbv beta. intros x y q X Y ->. unfold gaussian.
  destruct (bell_some ex _ _ w (r2_dist x0 y0 x y X Y) W) as (e & -> & B). eexists. split; [reflexivity|]. ring.
Qed.
Print Assumptions C122_text_refuted.
(* Finding: for an empty argument the number is never set, and its use is undefined. *)
Theorem C122_empty_argument_UB : forall ex sq num read n m x0 y0 model psf s2 rest,
  fields model (txt "gaussian" :: [] :: s2 :: rest) -> make_psf ex sq num read n m x0 y0 model psf = UB.
Proof. intros ex sq num read n m x0 y0 model psf s2 rest F. open_fields F ws. rewrite same_refl. reflexivity. Qed.
Print Assumptions C122_empty_argument_UB.
Example C122_empty_argument_ex : make_psf expx rootx digit no_file 1 1 0 0 (txt "gaussian,,1") none = UB.
Proof. vm_compute. reflexivity. Qed.

(* the image of a file, with its first largest pixel moved to the centre: interpolated between the pixels kept, 0 elsewhere *)
Theorem C122_file : forall ex sq num read n m x0 y0 model psf name rest t,
  fields model (txt "file" :: name :: rest) -> read name = Ok t -> wf t -> all_finite t -> 1 <= nr t -> 1 <= nc t ->
  fits (nr t) (nc t) -> fits n m -> calm x0 -> calm y0 ->
  exists r a b h, make_psf ex sq num read n m x0 y0 model psf = Ok (true, r) /\ peak t a b /\ kept t a b h /\
    painted n m r (fun x y q => stamp t a b h (inject_Z x - x0)%Q (inject_Z y - y0)%Q q).
Proof.
  intros ex sq num read n m x0 y0 model psf name rest t F R W Fi N1 N2 F1 F2 C1 C2. open_fields F ws.
  change (same (txt "file") "gaussian") with false. change (same (txt "file") "gaussring") with false. cbn iota. rewrite same_refl.
  destruct (file_ok read n m x0 y0 name t R W Fi N1 N2 F1 F2 C1 C2) as (r & a & b & h & -> & P). exists r, a, b, h. split; [reflexivity|exact P].
Qed.
Print Assumptions C122_file.
Definition five (_ : list ascii) : outcome (img (option Q)) := Ok (image 5 5
  [1; 0; 0; 0; 0;
   0; 1; 2; 1; 0;
   0; 2; 8; 2; 0;
   0; 1; 2; 1; 0;
   0; 0; 0; 0; 1]%Z).
Example C122_file_ex : omap (fun p => (fst p, seen (snd p))) (make_psf expx rootx digit five 4 4 1 (1#2)%Q (txt "file, a.fits") none)
  = Ok (true, [Some 12; Some 12; Some 4; Some 0; Some 40; Some 40; Some 8; Some 0; Some 12; Some 12; Some 4; Some 0; Some 0; Some 0; Some 0; Some 0]%Z).
Proof. vm_compute. reflexivity. Qed.
(* if the centre is a pixel, the pixels are copied, down to the half size before it and up to one less after it *)
Theorem C122_file_whole : forall ex sq num read n m cx cy model psf name rest t,
  fields model (txt "file" :: name :: rest) -> read name = Ok t -> wf t -> all_finite t -> 1 <= nr t -> 1 <= nc t ->
  fits (nr t) (nc t) -> fits n m -> calm (inject_Z cx) -> calm (inject_Z cy) ->
  exists r a b h, make_psf ex sq num read n m (inject_Z cx) (inject_Z cy) model psf = Ok (true, r) /\ peak t a b /\ kept t a b h /\
    painted n m r (fun x y q => let i := (x - cx)%Z in let j := (y - cy)%Z in
      ((- h <= i < h)%Z /\ (- h <= j < h)%Z -> exists v z, px t (a + i) (b + j) = Some (Some v) /\ q = Some z /\ (z == v)%Q) /\
      (~ ((- h <= i < h)%Z /\ (- h <= j < h)%Z) -> q = Some 0%Q)).
Proof.
  intros ex sq num read n m cx cy model psf name rest t F R W Fi N1 N2 F1 F2 C1 C2.
  destruct (C122_file ex sq num read n m _ _ model psf name rest t F R W Fi N1 N2 F1 F2 C1 C2) as (r & a & b & h & E & P & K & Pa).
  exists r, a, b, h. split; [exact E|]. split; [exact P|]. split; [exact K|]. eapply painted_imp; [|exact Pa]. cbv beta zeta.
  intros x y q _ _ (i & j & I & J & H).
  assert (Whole : forall u c k, cell_of (inject_Z u - inject_Z c) k -> k = (u - c)%Z).
  { intros u c k [A B]. change 1%Q with (inject_Z 1) in B. unfold Qminus in A, B. rewrite <- inject_Z_opp, <- inject_Z_plus in A, B. rewrite <- inject_Z_plus in B.
    rewrite <- Zle_Qle in A. rewrite <- Zlt_Qlt in B. lia. }
  apply Whole in I, J. subst i j. destruct H as [(Hi & Hj & p00 & p01 & p10 & p11 & z & Q1 & Q2 & Q3 & Q4 & -> & Ez)|(N & ->)].
  - split; [|intros N; tauto]. intros _. exists p00, z. split; [exact Q1|]. split; [reflexivity|]. rewrite Ez. unfold mix.
    unfold Z.sub. rewrite !inject_Z_plus, !inject_Z_opp. ring.
  - split; [tauto|]. reflexivity.
Qed.
Print Assumptions C122_file_whole.
(* a file that cannot be read is an exception *)
Theorem C122_file_missing : forall ex sq num read n m x0 y0 model psf name rest,
  fields model (txt "file" :: name :: rest) -> read name = Throws -> make_psf ex sq num read n m x0 y0 model psf = Throws.
Proof.
  intros ex sq num read n m x0 y0 model psf name rest F R. open_fields F ws.
  change (same (txt "file") "gaussian") with false. change (same (txt "file") "gaussring") with false. cbn iota. rewrite same_refl.
  unfold file_psf. rewrite R. reflexivity.
Qed.
Print Assumptions C122_file_missing.
(* Finding: if the largest pixel is in the first or the last line or column of the file, every pixel of the result is 0. *)
Theorem C122_border_refuted : forall ex sq num read n m x0 y0 model psf name rest t,
  fields model (txt "file" :: name :: rest) -> read name = Ok t -> wf t -> all_finite t -> 1 <= nr t -> 1 <= nc t ->
  fits (nr t) (nc t) -> fits n m -> calm x0 -> calm y0 ->
  (forall a b, peak t a b -> (a = 0 \/ b = 0 \/ a + 1 = Z.of_nat (nr t) \/ b + 1 = Z.of_nat (nc t))%Z) ->
  exists r, make_psf ex sq num read n m x0 y0 model psf = Ok (true, r) /\ painted n m r (fun x y q => q = Some 0%Q).
Proof.
  intros ex sq num read n m x0 y0 model psf name rest t F R W Fi N1 N2 F1 F2 C1 C2 B.
  destruct (C122_file ex sq num read n m _ _ model psf name rest t F R W Fi N1 N2 F1 F2 C1 C2) as (r & a & b & h & E & P & K & Pa).
  exists r. split; [exact E|]. eapply painted_imp; [|exact Pa]. cbv beta. intros x y q _ _ (i & j & _ & _ & H). specialize (B a b P).
  assert (h <= 0)%Z by (destruct K as (e & Rm & K); unfold room in Rm; lia).
  destruct H as [(Hi & _)|(_ & H)]; [lia|exact H].
Qed.
Print Assumptions C122_border_refuted.
Example C122_border_ex : omap (fun p => (fst p, seen (snd p))) (make_psf expx rootx digit (fun _ => Ok (image 2 2 [1; 2; 3; 9]%Z)) 2 2 1 1 (txt "file,a") none)
  = Ok (true, [Some 0; Some 0; Some 0; Some 0]%Z).
Proof. vm_compute. reflexivity. Qed.
(* Finding: an image symmetric about its middle does not stay so: the line and the column of the far side are lost even if
   the centre is a pixel. *)
Theorem C122_symmetry_refuted : exists t r, t = image 3 3 [1; 2; 1; 2; 4; 2; 1; 2; 1]%Z /\
  make_psf expx rootx digit (fun _ => Ok t) 3 3 1 1 (txt "file,a") none = Ok (true, r) /\
  seen r = [Some 8; Some 16; Some 0; Some 16; Some 32; Some 0; Some 0; Some 0; Some 0]%Z.
Proof. eexists _, _. split; [reflexivity|]. split; vm_compute; reflexivity. Qed.
Print Assumptions C122_symmetry_refuted.
(* Finding: what is farther than the first cross of zeros is lost, though it may be large. *)
Theorem C122_far_refuted : exists t r, t = image 5 5 [7; 7; 0; 7; 7; 7; 7; 0; 7; 7; 0; 0; 8; 0; 0; 7; 7; 0; 7; 7; 7; 7; 0; 7; 7]%Z /\
  make_psf expx rootx digit (fun _ => Ok t) 3 5 0 2 (txt "file,a") none = Ok (true, r) /\
  seen r = [Some 0; Some 0; Some 64; Some 0; Some 0; Some 0; Some 0; Some 0; Some 0; Some 0; Some 0; Some 0; Some 0; Some 0; Some 0]%Z.
Proof. eexists _, _. split; [reflexivity|]. split; vm_compute; reflexivity. Qed.
Print Assumptions C122_far_refuted.
(* the conditions of C122_file hold of the file of its example *)
Example C122_file_conditions_ex : fields (txt "file, a.fits") [txt "file"; txt "a.fits"] /\ calm (1#2)%Q /\
  exists t, five [] = Ok t /\ wf t /\ peak t 2 2 /\ kept t 2 2 2.
Proof.
  split; [|split; [split; vm_compute; discriminate|]].
  - destruct (StrProofs.split_ok (txt "file, a.fits") [","%char] ltac:(discriminate)) as (ws & E & C). vm_compute in E. injection E as <-.
    exists [txt "file"; txt " a.fits"]. split; [exact C|]. repeat constructor.
    + apply HdrProofs.stripped_bare. split; [intros c u H; injection H as <- <-; cbn; intuition discriminate|].
      intros u c H. apply (f_equal (@List.rev ascii)) in H. rewrite rev_app_distr in H. cbn in H. injection H as <- _. cbn. intuition discriminate.
    + exists [" "%char], []. split; [reflexivity|]. split; [intros c [<-|[]]; cbn; tauto|]. split; [intros c []|].
      split; [intros c u H; injection H as <- <-; cbn; intuition discriminate|].
      intros u c H. apply (f_equal (@List.rev ascii)) in H. rewrite rev_app_distr in H. cbn in H. injection H as <- _. cbn. intuition discriminate.
  - eexists. split; [reflexivity|]. split; [reflexivity|]. split.
    + exists 8%Q. split; [reflexivity|]. intros i j w H.
      destruct (DrizProofs12.px_inv _ _ _ _ H) as (I & J & _). cbn in I, J.
      assert (Ki : (i = 0 \/ i = 1 \/ i = 2 \/ i = 3 \/ i = 4)%Z) by lia. assert (Kj : (j = 0 \/ j = 1 \/ j = 2 \/ j = 3 \/ j = 4)%Z) by lia.
      destruct Ki as [->|[->|[->|[->| ->]]]]; destruct Kj as [->|[->|[->|[->| ->]]]]; vm_compute in H; injection H as <-; (split; [vm_compute; discriminate|]); intros O; try reflexivity; lia.
    + exists 2%Z. split; [unfold room; cbn; lia|]. left. split; [lia|]. split.
      * repeat split; exists 0%Q; split; reflexivity.
      * intros k K. assert (k = 1)%Z by lia. subst k. intros ((v & E & H) & _). vm_compute in E. injection E as <-. discriminate.
Qed.
