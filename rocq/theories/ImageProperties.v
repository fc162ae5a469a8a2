(* C48-C51, C59: image operations. *)
From Coq Require Import NArith.
From Verif Require Import Base IndexModel VecModel VecProofs ImageModel ImageSpec ImageProofs ImageProofs2 ImageProofs3 ImageProofs4 ImageProofs5.

(* an example image, 3 rows of 4 *)
Definition pic : img nat := Img 3 4 (seq 1 12).

(* ---- C48: mask_inflate ---- *)
Theorem C48_mask_inflate : forall (m : img bool) (d : nat), wf m ->
  exists w, mask_inflate m d = Ok w /\ nr w = nr m /\ nc w = nc m /\ wf w /\
    forall x y, (0 <= x < Z.of_nat (nr m))%Z -> (0 <= y < Z.of_nat (nc m))%Z ->
      px w x y = Some true <->
      exists x' y', px m x' y' = Some true /\ (Z.abs (x - x') + Z.abs (y - y') <= Z.of_nat d)%Z.
Proof. exact inflate_spec. Qed.
Print Assumptions C48_mask_inflate.
Example C48_ex : mask_inflate (Img 3 5 [false;false;false;false;false; false;true;true;true;false; false;false;false;false;false]) 1
  = Ok (Img 3 5 [false;true;true;true;false; true;true;true;true;true; false;true;true;true;false]).
Proof. vm_compute. reflexivity. Qed.

(* ---- C49: subregion, enlarge, shrink ---- *)
Theorem C49_subregion : forall {A} (v : img A) r0 r1 r2 r3 def, wf v ->
  (Z.of_nat (nr v) * Z.of_nat (nc v) < two64)%Z ->
  (r0 <= r2 + 1)%Z -> (r1 <= r3 + 1)%Z -> (r2 - r0 < two63 - 1)%Z -> (r3 - r1 < two63 - 1)%Z ->
  ((r2 - r0 + 1) * (r3 - r1 + 1) <= 1152921504606846975)%Z ->
  exists s, subregion v [r0; r1; r2; r3] def = Ok s /\
    shows s (Z.to_nat (r2 - r0 + 1)) (Z.to_nat (r3 - r1 + 1)) (fun x y => px_or def v (x + r0) (y + r1)).
Proof. exact @subregion_spec. Qed.
Print Assumptions C49_subregion.
(* the index lists enumerate the common pixels, in both numberings *)
Theorem C49_index_lists : forall n m r0 r1 r2 r3,
  (- two63 <= r2 - r0 < two63 - 1)%Z -> (- two63 <= r3 - r1 < two63 - 1)%Z ->
  (Z.of_nat n * Z.of_nat m < two64)%Z ->
  ((r2 - r0 + 1) * (r3 - r1 + 1) < two64)%Z \/ (r2 < r0)%Z \/ (r3 < r1)%Z ->
  exists ps : list (Z * Z), NoDup ps /\
    (forall x y, In (x, y) ps <-> (0 <= x < Z.of_nat n /\ r0 <= x <= r2 /\ 0 <= y < Z.of_nat m /\ r1 <= y <= r3)%Z) /\
    subregion_ids n m [r0; r1; r2; r3] =
      Ok (map (fun p => fst p * Z.of_nat m + snd p)%Z ps,
          map (fun p => (fst p - r0) * (r3 - r1 + 1) + (snd p - r1))%Z ps).
Proof.
  intros n m r0 r1 r2 r3 H1 H2 H3 H4. exists (overlap n m r0 r1 r2 r3). split; [apply overlap_nodup|].
  split; [intros; apply overlap_in|]. apply subregion_ids_spec; assumption.
Qed.
Print Assumptions C49_index_lists.
Theorem C49_region_size : forall {A} (v : img A) reg def, length reg <> 4 -> subregion v reg def = CheckFail.
Proof.
  intros A v reg def H. unfold subregion, subregion_ids.
  destruct reg as [|a [|b [|c [|d [|e reg]]]]]; try reflexivity. cbn in H. lia.
Qed.
Print Assumptions C49_region_size.
(* a region turned inside out: the dimensions are negative numbers converted to uint_t, and the
   object does not hold as many pixels as it claims *)
Theorem C49_inverted_region_refuted : exists (v s : img nat), wf v /\ subregion v [2; 2; 0; 0]%Z 0 = Ok s /\ ~ wf s.
Proof.
  exists pic. 
  assert (E : nwrap (Z.to_nat (wrap64 (0 - 2 + 1)) * Z.to_nat (wrap64 (0 - 2 + 1))) = 1).
  { unfold nwrap. rewrite Nat2N.inj_mul, !Z_nat_N. vm_compute. reflexivity. }
  exists (Img (Z.to_nat (wrap64 (0 - 2 + 1))) (Z.to_nat (wrap64 (0 - 2 + 1))) [0]). split; [reflexivity|]. split.
  - unfold subregion. replace (subregion_ids (nr pic) (nc pic) [2; 2; 0; 0]%Z) with (Ok (@nil Z, @nil Z)) by reflexivity.
    cbn [obind]. unfold filled. rewrite E. reflexivity.
  - unfold wf. cbn [pix nr nc length]. intros C. apply (f_equal Z.of_nat) in C. rewrite Nat2Z.inj_mul, !Z2Nat.id in C.
    + vm_compute in C. discriminate.
    + vm_compute. discriminate.
Qed.
Print Assumptions C49_inverted_region_refuted.
Theorem C49_enlarge : forall {A} (v : img A) u0 u1 u2 u3 def, wf v -> fits (nr v + u0 + u2) (nc v + u1 + u3) ->
  exists r, enlarge v u0 u1 u2 u3 def = Ok r /\
    shows r (nr v + u0 + u2) (nc v + u1 + u3) (fun x y => px_or def v (x - Z.of_nat u0) (y - Z.of_nat u1)).
Proof. exact @enlarge_spec. Qed.
Print Assumptions C49_enlarge.
Theorem C49_shrink : forall {A} (dflt : A) (v : img A) u0 u1 u2 u3, wf v -> fits (nr v) (nc v) ->
  (Z.of_nat (u0 + u2) < two64)%Z -> (Z.of_nat (u1 + u3) < two64)%Z ->
  exists r, shrink dflt v u0 u1 u2 u3 = Ok r /\
    if (u0 + u2 <? nr v) && (u1 + u3 <? nc v)
    then shows r (nr v - u0 - u2) (nc v - u1 - u3) (fun x y => px v (x + Z.of_nat u0) (y + Z.of_nat u1))
    else r = Img 0 0 [].
Proof. exact @shrink_spec. Qed.
Print Assumptions C49_shrink.
Theorem C49_shrink_enlarge : forall {A} (dflt : A) (v : img A) u0 u1 u2 u3 def, wf v ->
  fits (nr v + u0 + u2) (nc v + u1 + u3) -> 0 < nr v -> 0 < nc v ->
  exists r, enlarge v u0 u1 u2 u3 def = Ok r /\ shrink dflt r u0 u1 u2 u3 = Ok v.
Proof. exact @shrink_enlarge. Qed.
Print Assumptions C49_shrink_enlarge.
(* an image without rows or columns does not survive *)
Theorem C49_shrink_enlarge_refuted : exists (v r s : img nat), wf v /\ enlarge v 1 1 1 1 0 = Ok r /\
  shrink 0 r 1 1 1 1 = Ok s /\ s <> v.
Proof. exists (Img 0 4 []). do 2 eexists. split; [reflexivity|]. split; [vm_compute; reflexivity|]. split; [vm_compute; reflexivity|]. discriminate. Qed.
Print Assumptions C49_shrink_enlarge_refuted.
(* recenter with new dimensions: pixel (cy,cx) ends up in the middle *)
Theorem C49_recenter : forall {A} (v : img A) cy cx (d0 d1 : nat) def, wf v ->
  (Z.of_nat (nr v) * Z.of_nat (nc v) < two64)%Z -> (Z.of_nat d0 < two63)%Z -> (Z.of_nat d1 < two63)%Z -> fits d0 d1 ->
  exists s, recenter_dims v cy cx d0 d1 def = Ok s /\
    shows s d0 d1 (fun x y => px_or def v (cy + x - Z.of_nat d0 / 2) (cx + y - Z.of_nat d1 / 2)).
Proof. exact @recenter_dims_spec. Qed.
Print Assumptions C49_recenter.
Example C49_ex1 : subregion pic [-1; 2; 1; 4]%Z 0 = Ok (Img 3 3 [0;0;0; 3;4;0; 7;8;0]).
Proof. vm_compute. reflexivity. Qed.
Example C49_ex2 : enlarge (Img 1 2 [5;6]) 1 0 0 2 9 = Ok (Img 2 4 [9;9;9;9; 5;6;9;9]).
Proof. vm_compute. reflexivity. Qed.
Example C49_ex3 : shrink 0 pic 1 1 0 2 = Ok (Img 2 1 [6;10]).
Proof. vm_compute. reflexivity. Qed.
Example C49_ex4 : recenter_dims pic 0 0 3 3 0 = Ok (Img 3 3 [0;0;0; 0;1;2; 0;5;6]).
Proof. vm_compute. reflexivity. Qed.

(* ---- C50: translations and flips ---- *)
Theorem C50_translate : forall {A} (v : img A) dx dy def, wf v ->
  (Z.abs dx < Z.of_nat (nr v))%Z -> (Z.abs dy < Z.of_nat (nc v))%Z -> (Z.of_nat (nr v) < two63)%Z -> (Z.of_nat (nc v) < two63)%Z ->
  exists w, translate_integer v dx dy def = Ok w /\
    shows w (nr v) (nc v) (fun x y => px_or def v (x - dx) (y - dy)).
Proof.
  intros A v dx dy def W Hx Hy Bx By.
  destruct (translate_spec v dx dy def W) as (w & E & S); [lia|lia|lia|lia|].
  exists w. split; [exact E|]. 
  assert (R : forall n d, (Z.abs d < n)%Z -> Z.rem d n = d).
  { intros n d H. apply Z.rem_small_iff; [lia|]. lia. }
  rewrite !R in S by lia. exact S.
Qed.
Print Assumptions C50_translate.
(* for any shift: the shift is first reduced modulo the dimension (keeping its sign) *)
Theorem C50_translate_general : forall {A} (v : img A) dx dy def, wf v -> 0 < nr v -> 0 < nc v ->
  (- two63 < dx < two63)%Z -> (- two63 < dy < two63)%Z ->
  exists w, translate_integer v dx dy def = Ok w /\
    shows w (nr v) (nc v) (fun x y => px_or def v (x - Z.rem dx (Z.of_nat (nr v))) (y - Z.rem dy (Z.of_nat (nc v)))).
Proof. exact @translate_spec. Qed.
Print Assumptions C50_translate_general.
(* so an image shifted by its own size stays where it is *)
Theorem C50_large_shift_refuted : forall {A} (v : img A) def, wf v -> 0 < nr v -> 0 < nc v -> (Z.of_nat (nr v) < two63)%Z ->
  translate_integer v (Z.of_nat (nr v)) 0 def = Ok v.
Proof.
  intros A v def W Hn Hm B.
  destruct (translate_spec v (Z.of_nat (nr v)) 0 def W Hn Hm) as (w & E & S); [unfold two63 in *; lia|unfold two63; lia|].
  rewrite E. f_equal. eapply shows_eq; [exact S|]. pose proof (shows_self v W) as V.
  rewrite Z.rem_same by lia. rewrite Z.rem_0_l by lia.
  destruct V as (V1 & V2 & V3 & V4). split; [exact V1|]. split; [exact V2|]. split; [exact V3|].
  intros x y Hx Hy. rewrite !Z.sub_0_r. unfold px_or.
  destruct (px v x y) eqn:P; [reflexivity|]. exfalso.
  destruct (pget_some v (Z.to_nat x) (Z.to_nat y) W) as (a & _ & Ea); [lia|lia|]. rewrite !Z2Nat.id in Ea by lia. congruence.
Qed.
Print Assumptions C50_large_shift_refuted.
Theorem C50_shift : forall {A} (v : img A) dx dy, wf v -> 0 < nr v -> 0 < nc v ->
  (- two63 < dx < two63)%Z -> (- two63 < dy < two63)%Z ->
  exists w, shift v dx dy = Ok w /\
    shows w (nr v) (nc v) (fun x y => px v ((x - dx) mod Z.of_nat (nr v)) ((y - dy) mod Z.of_nat (nc v))).
Proof. exact @shift_spec. Qed.
Print Assumptions C50_shift.
(* an image without rows: modulo zero *)
Theorem C50_empty_UB : forall {A} (v : img A) dx dy def, nr v = 0 ->
  shift v dx dy = UB /\ translate_integer v dx dy def = UB.
Proof.
  intros A v dx dy def H. unfold shift, translate_integer, neg_rem. rewrite H. unfold signed64.
  destruct ((- two63 <=? - dx) && (- dx <? two63))%Z; split; reflexivity.
Qed.
Print Assumptions C50_empty_UB.
Theorem C50_flip_x : forall {A} (v : img A), wf v -> exists w, flip_x v = Ok w /\
  shows w (nr v) (nc v) (fun x y => px v x (Z.of_nat (nc v) - 1 - y)) /\ flip_x w = Ok v.
Proof.
  intros A v W. destruct (flip_x_spec v W) as (w & E & S). destruct (flip_x_twice v W) as (w' & E' & S').
  exists w. rewrite E in E'. injection E' as <-. auto.
Qed.
Print Assumptions C50_flip_x.
Theorem C50_flip_y : forall {A} (v : img A), wf v -> exists w, flip_y v = Ok w /\
  shows w (nr v) (nc v) (fun x y => px v (Z.of_nat (nr v) - 1 - x) y) /\ flip_y w = Ok v.
Proof.
  intros A v W. destruct (flip_y_spec v W) as (w & E & S). destruct (flip_y_twice v W) as (w' & E' & S').
  exists w. rewrite E in E'. injection E' as <-. auto.
Qed.
Print Assumptions C50_flip_y.
(* recenter moves pixel (cy,cx) of the image to the middle pixel *)
Theorem C50_recenter : forall {A} (v : img A) cy cx def, wf v ->
  (0 <= cy < Z.of_nat (nr v))%Z -> (0 <= cx < Z.of_nat (nc v))%Z -> (Z.of_nat (nr v) < two63)%Z -> (Z.of_nat (nc v) < two63)%Z ->
  exists w, recenter v cy cx def = Ok w /\
    shows w (nr v) (nc v) (fun x y => px_or def v (x - Z.of_nat (nr v) / 2 + cy) (y - Z.of_nat (nc v) / 2 + cx)).
Proof.
  intros A v cy cx def W Hy Hx Bx By. unfold recenter.
  assert (D : forall n c, (0 <= c < n)%Z -> (Z.abs (n / 2 - c) < n)%Z).
  { intros n c H. pose proof (Z.div_mod n 2 ltac:(lia)). pose proof (Z.mod_pos_bound n 2 ltac:(lia)). lia. }
  destruct (C50_translate v (Z.of_nat (nr v) / 2 - cy) (Z.of_nat (nc v) / 2 - cx) def W) as (w & E & S); auto.
  exists w. split; [exact E|]. destruct S as (S1 & S2 & S3 & S4). split; [exact S1|]. split; [exact S2|]. split; [exact S3|].
  intros x y H1 H2. rewrite (S4 x y H1 H2). f_equal; lia.
Qed.
Print Assumptions C50_recenter.
Example C50_ex1 : translate_integer pic 1 (-2) 0 = Ok (Img 3 4 [0;0;0;0; 3;4;0;0; 7;8;0;0]).
Proof. vm_compute. reflexivity. Qed.
Example C50_ex2 : shift pic 1 (-2) = Ok (Img 3 4 [11;12;9;10; 3;4;1;2; 7;8;5;6]).
Proof. vm_compute. reflexivity. Qed.
Example C50_ex3 : flip_x pic = Ok (Img 3 4 [4;3;2;1; 8;7;6;5; 12;11;10;9]).
Proof. vm_compute. reflexivity. Qed.
Example C50_ex4 : recenter pic 0 0 0 = Ok (Img 3 4 [0;0;0;0; 0;0;1;2; 0;0;5;6]).
Proof. vm_compute. reflexivity. Qed.

(* ---- C51: convolve2d_naive ---- *)
(* the laws of arithmetic used are those of zero, and the sum is taken in the order of the
   kernel's pixels, so this also holds for finite floating-point numbers (up to the sign of zero) *)
Theorem C51_convolve : forall {R} (rO : R) radd rmul zerob (m k : img R), wf m -> wf k ->
  (forall a, radd a rO = a) -> (forall a, rmul a rO = rO) -> (forall a, rmul rO a = rO) ->
  (forall a, zerob a = true -> a = rO) ->
  fits (nr m) (nc m) -> nr k / 2 <= nr m -> nc k / 2 <= nc m -> nr k mod 2 = 1 -> nc k mod 2 = 1 ->
  exists w, convolve2d_naive rO radd rmul zerob m k = Ok w /\
    shows w (nr m) (nc m) (fun x y => Some (conv rO radd rmul m k x y)).
Proof.
  intros R rO radd rmul zerob m k Wm Wk A1 A2 A3 A4 (F1 & F2 & F3) H1 H2 O1 O2.
  apply naive_spec; auto; try lia. unfold two64. lia.
Qed.
Print Assumptions C51_convolve.
Theorem C51_even_kernel : forall {R} (rO : R) radd rmul zerob (m k : img R),
  nr k mod 2 = 0 \/ nc k mod 2 = 0 -> convolve2d_naive rO radd rmul zerob m k = CheckFail.
Proof.
  intros R rO radd rmul zerob m k [H|H]; unfold convolve2d_naive; rewrite H; [|rewrite andb_false_r]; reflexivity.
Qed.
Print Assumptions C51_even_kernel.
(* a kernel more than about twice as large as the image in one direction: the loop bound wraps
   around and the loop runs out of the arrays *)
Theorem C51_large_kernel_UB : forall {R} (rO : R) radd rmul zerob (m k : img R), wf m -> wf k -> fits (nr m) (nc m) ->
  (Z.of_nat (nr k) < two64)%Z -> (Z.of_nat (nc k) < two64)%Z -> 0 < nr m -> 0 < nc m ->
  nr k mod 2 = 1 -> nc k mod 2 = 1 -> nr m < nr k / 2 \/ nc m < nc k / 2 ->
  (forall x y a, px k x y = Some a -> zerob a = false) ->
  convolve2d_naive rO radd rmul zerob m k = UB.
Proof. intros. apply naive_UB; auto. lia. Qed.
Print Assumptions C51_large_kernel_UB.
Example C51_ex : convolve2d_naive 0%Z Z.add Z.mul (Z.eqb 0) (Img 2 3 [1;2;3; 4;5;6]%Z) (Img 1 3 [1;10;100]%Z) =
  Ok (Img 2 3 [12;123;230; 45;456;560]%Z).
Proof. vm_compute. reflexivity. Qed.

(* ---- C59: boxcar ---- *)
(* every pixel is func of the pixels of the image in the window of half-size hsize around it, row by
   row *)
Theorem C59_boxcar : forall {A B} (v : img A) (h : nat) (func : list A -> B), wf v -> h <= nr v -> h <= nc v ->
  (Z.of_nat (nr v) < two64)%Z -> (Z.of_nat (nc v) < two64)%Z ->
  exists w, boxcar v h func = Ok w /\ nr w = nr v /\ nc w = nc v /\ wf w /\
    forall x y, (0 <= x < Z.of_nat (nr v))%Z -> (0 <= y < Z.of_nat (nc v))%Z ->
      exists l, px w x y = Some (func l) /\
        map Some l = map (fun p => px v (fst p) (snd p))
          (overlap (nr v) (nc v) (x - Z.of_nat h) (y - Z.of_nat h) (x + Z.of_nat h) (y + Z.of_nat h)).
Proof. exact @boxcar_spec. Qed.
Print Assumptions C59_boxcar.
(* a window larger than the image: hsize is subtracted from the dimension in uint_t *)
Theorem C59_large_window_UB : forall {A B} (v : img A) (h : nat) (func : list A -> B), wf v -> 0 < nr v -> 0 < nc v ->
  (Z.of_nat h < two64)%Z -> nr v < h \/ nc v < h -> boxcar v h func = UB.
Proof. exact @boxcar_UB. Qed.
Print Assumptions C59_large_window_UB.
Example C59_ex : boxcar pic 1 (fold_right Nat.add 0) = Ok (Img 3 4 [14;24;30;22; 33;54;63;45; 30;48;54;38]).
Proof. vm_compute. reflexivity. Qed.
