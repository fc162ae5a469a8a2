(* C124: stacks of images and their bootstrap. *)
From Coq Require Import QArith Qround Qfield Lqa Lia.
From Verif Require Import Base BootModel BootSpec BootProofs BootProofs2.
From Verif Require RandintModel OrderModel ReduceModel ReduceSpec ReduceProofs2.
Local Open Scope nat_scope.

(* The sources that are drawn always exist: even the largest random number, rounded, gives a number below that of the
   sources. *)
Theorem C124_draw : forall rnd u nsrc nsel pos, double_rounding rnd -> uniform u -> 0 < nsrc -> (Z.of_nat nsrc <= 2 ^ 53)%Z ->
  draw rnd u nsrc nsel pos = Ok (map (fun i => Z.of_nat (source rnd u nsrc i)) (seq pos nsel)) /\ (forall i, source rnd u nsrc i < nsrc).
Proof. intros. split; [apply draw_ok; assumption|]. intros i. apply source_bound; assumption. Qed.
Print Assumptions C124_draw.
(* Without rounding a source is drawn when the random number is in its share of the unit interval. *)
Theorem C124_fair : forall u nsrc i k, uniform u -> 0 < nsrc ->
  (source (fun q => q) u nsrc i = k <-> (inject_Z (Z.of_nat k) <= u i * inject_Z (Z.of_nat nsrc) /\ u i * inject_Z (Z.of_nat nsrc) < inject_Z (Z.of_nat k + 1))%Q).
Proof.
  intros u nsrc i k U N. destruct (U i) as [A _]. unfold source. set (x := (u i * inject_Z (Z.of_nat nsrc))%Q). assert (X : (0 <= x)%Q) by (unfold x; assert (0 < inject_Z (Z.of_nat nsrc))%Q by (change 0%Q with (inject_Z 0); rewrite <- Zlt_Qlt; lia); nra).
  assert (F0 : (0 <= Qfloor x)%Z) by (change 0%Z with (Qfloor 0); apply Qfloor_resp_le; exact X). pose proof (Qfloor_le x) as L. pose proof (Qlt_floor x) as H. split.
  - intros <-. rewrite Z2Nat.id by exact F0. split; assumption.
  - intros [B C]. assert (Z.of_nat k < Qfloor x + 1)%Z by (rewrite Zlt_Qlt; lra). assert (Qfloor x < Z.of_nat k + 1)%Z by (rewrite Zlt_Qlt; lra). lia.
Qed.
Print Assumptions C124_fair.
Lemma exact_rounding : double_rounding (fun q => q).
Proof. split; [auto|]. split; [intros; reflexivity|]. split; [intros; reflexivity|]. intros x H. assert (0 < (1 # 2 ^ 53))%Q by reflexivity. split; nra. Qed.
Lemma ex_uniform : uniform (fun i => if i =? 0 then 0%Q else if i =? 1 then (1 # 2)%Q else (1 - (1 # 2 ^ 53))%Q).
Proof. intros i. destruct (i =? 0); [|destruct (i =? 1)]; split; unfold Qle; cbn; lia. Qed.
Example ex_draw : draw (fun q => q) (fun i => if i =? 0 then 0%Q else if i =? 1 then (1 # 2)%Q else (1 - (1 # 2 ^ 53))%Q) 3 3 0 = Ok [0; 1; 2]%Z.
Proof. vm_compute. reflexivity. Qed.

(* Every call of the function gets as many sources as asked for, and the same ones from all cubes; the calls
   together take one random number for each source. *)
Theorem C124_bootstrap : forall A rnd u (cubes : list (cube A)) nb nsel pos nsrc, double_rounding rnd -> uniform u -> 0 < nsrc -> (Z.of_nat nsrc <= 2 ^ 53)%Z ->
  option_map n0 (nth_error cubes 0) = Some nsrc -> Forall (fun c => length (dat c) = n0 c * (n1 c * n2 c) /\ nsrc <= n0 c) cubes ->
  exists calls, qstack_bootstrap rnd u nb nsel cubes pos = Ok (calls, pos + nb * nsel) /\ length calls = nb /\
    forall j, j < nb -> exists cs, nth_error calls j = Some cs /\ length cs = length cubes /\
      forall k c, nth_error cubes k = Some c -> exists t, nth_error cs k = Some t /\ n0 t = nsel /\ n1 t = n1 c /\ n2 t = n2 c /\ length (dat t) = nsel * (n1 c * n2 c) /\
        forall i p, i < nsel -> pixel (n1 c * n2 c) (dat t) i p = pixel (n1 c * n2 c) (dat c) (source rnd u nsrc (pos + j * nsel + i)) p.
Proof.
  intros A rnd u cubes nb nsel pos nsrc R U N0 N1 Fst F. unfold qstack_bootstrap. assert (E : first_size cubes = nsrc) by (destruct cubes as [|c cubes]; cbn in Fst; [discriminate|injection Fst as <-; reflexivity]). rewrite E.
  rewrite (bootstrap_ok rnd u nsrc nsel R U N0 N1 cubes F). eexists. split; [reflexivity|]. split; [rewrite map_length, seq_length; reflexivity|]. intros j J. eexists. split; [rewrite nth_error_map; rewrite (nth_error_nth' _ 0) by (rewrite seq_length; exact J); rewrite seq_nth by exact J; reflexivity|].
  split; [apply map_length|]. intros k c K. eexists. split; [rewrite nth_error_map, K; reflexivity|]. assert (Fc : fit c /\ nsrc <= n0 c) by (rewrite Forall_forall in F; apply F; eapply nth_error_In; exact K). destruct Fc as [Fc Nc].
  pose proof (ids_fit rnd u nsrc nsel R U N0 c (pos + (0 + j) * nsel) Nc) as B. split; [cbn [chosen n0]; apply ids_length|]. split; [reflexivity|]. split; [reflexivity|]. split.
  - pose proof (chosen_fit c _ Fc B) as X. unfold fit in X. rewrite X. cbn [chosen n0 n1 n2]. rewrite ids_length. reflexivity.
  - intros i p I. apply chosen_pixel; [exact Fc|exact B|]. unfold ids_at. rewrite nth_error_map, (nth_error_nth' _ 0) by (rewrite seq_length; exact I). rewrite seq_nth by exact I. reflexivity.
Qed.
Print Assumptions C124_bootstrap.
(* A source that one of the other cubes does not have aborts the program; the cubes are not compared before. *)
Theorem C124_short_cube_aborts : forall A rnd u (cubes : list (cube A)) nb nsel pos nsrc c i, double_rounding rnd -> uniform u -> 0 < nsrc -> (Z.of_nat nsrc <= 2 ^ 53)%Z ->
  option_map n0 (nth_error cubes 0) = Some nsrc -> Forall (fun c => length (dat c) = n0 c * (n1 c * n2 c)) cubes -> In c cubes -> i < nsel -> n0 c <= source rnd u nsrc (pos + i) ->
  qstack_bootstrap rnd u (S nb) nsel cubes pos = CheckFail.
Proof.
  intros A rnd u cubes nb nsel pos nsrc c i R U N0 N1 Fst F Ic I H. unfold qstack_bootstrap. assert (E : first_size cubes = nsrc) by (destruct cubes as [|d cubes]; cbn in Fst; [discriminate|injection Fst as <-; reflexivity]). rewrite E.
  cbn [bootstrap]. rewrite draw_ok by assumption. cbn [obind].
  assert (T : forall d, In d cubes -> forall l, (exists y, omapl (take_image d) (map (fun i => Z.of_nat (source rnd u nsrc i)) l) = Ok y) \/ omapl (take_image d) (map (fun i => Z.of_nat (source rnd u nsrc i)) l) = CheckFail).
  { intros d Id l. rewrite Forall_forall in F. pose proof (F d Id) as Fd. induction l as [|a l IH]; [left; eexists; reflexivity|]. cbn [map omapl]. destruct (Nat.lt_ge_cases (source rnd u nsrc a) (n0 d)) as [L|L]; [rewrite take_image_ok by assumption|rewrite take_image_fail by exact L; right; reflexivity].
    cbn [obind]. destruct IH as [[y Y]|Y]; rewrite Y; [left; eexists; reflexivity|right; reflexivity]. }
  rewrite omapl_fail; [reflexivity| |].
  - intros d Id. unfold choose. destruct (T d Id (seq pos nsel)) as [[y Y]|Y]; rewrite Y; [left; eexists; reflexivity|right; reflexivity].
  - exists c. split; [exact Ic|]. unfold choose. rewrite omapl_fail; [reflexivity| |].
    + intros z Iz. apply in_map_iff in Iz. destruct Iz as (a & <- & _). destruct (Nat.lt_ge_cases (source rnd u nsrc a) (n0 c)) as [L|L]; [left; eexists; apply take_image_ok; [rewrite Forall_forall in F; apply F; exact Ic|exact L]|right; apply take_image_fail; exact L].
    + eexists. split; [apply in_map_iff; exists (pos + i); split; [reflexivity|apply in_seq; lia]|]. apply take_image_fail. exact H.
Qed.
Print Assumptions C124_short_cube_aborts.
(* Finding: the bootstrap of a cube without sources aborts the program as soon as one source is drawn: the number of
   the last source wraps around and source 0 is drawn.  It is not checked before. *)
Theorem C124_no_sources_abort : forall A u (c : cube A) l nb nsel pos, n0 c = 0 -> 0 < nsel -> qstack_bootstrap (fun q => q) u (S nb) nsel (c :: l) pos = CheckFail.
Proof.
  intros A u c l nb nsel pos E N. unfold qstack_bootstrap. cbn [first_size bootstrap]. rewrite E. unfold draw, RandintModel.randomi. change (wrap64 (Z.of_nat 0 - 1)) with (two64 - 1)%Z.
  change (RandintModel.arith RandintModel.uint64 (two64 - 1 + 1)) with (Ok 0%Z : outcome Z). cbn [obind]. change (RandintModel.arith RandintModel.uint64 (0 - 0)) with (Ok 0%Z : outcome Z). cbn [obind].
  rewrite (omapl_map _ (fun _ => 0%Z)).
  - cbn [obind omapl]. destruct nsel as [|nsel]; [lia|]. cbn [seq map]. unfold choose. cbn [omapl]. change 0%Z with (Z.of_nat 0) at 1. rewrite take_image_fail by lia. reflexivity.
  - intros x _. unfold RandintModel.randomi_one, RandintModel.to_int. rewrite (RandintProofs.trunc_comp (x * inject_Z 0 + inject_Z 0)%Q (inject_Z 0)) by (change (inject_Z 0) with 0%Q; ring). rewrite RandintProofs.trunc_int. reflexivity.
Qed.
Print Assumptions C124_no_sources_abort.
Example ex_bootstrap : qstack_bootstrap (fun q => q) (fun i => if i =? 0 then (1 # 2)%Q else 0%Q) 2 2 [mk_cube 2 1 2 [1; 2; 3; 4]; mk_cube 3 1 1 [5; 6; 7]] 0
  = Ok ([[mk_cube 2 1 2 [3; 4; 1; 2]; mk_cube 2 1 1 [6; 5]]; [mk_cube 2 1 2 [1; 2; 1; 2]; mk_cube 2 1 1 [5; 5]]], 4).
Proof. vm_compute. reflexivity. Qed.

(* The mean stack: each pixel is the average of its values in all images, and not a number without images. *)
Theorem C124_mean : forall c, length (dat c) = n0 c * (n1 c * n2 c) ->
  exists r, qstack_mean c = Ok r /\ m1 r = n1 c /\ m2 r = n2 c /\ length (pix r) = n1 c * n2 c /\
    forall p, p < n1 c * n2 c -> (n0 c = 0 -> nth_error (pix r) p = Some None) /\
      (0 < n0 c -> exists m, nth_error (pix r) p = Some (Some m) /\ (m * inject_Z (Z.of_nat (n0 c)) == qtotal (values (n1 c * n2 c) (dat c) (seq 0 (n0 c)) p))%Q).
Proof.
  intros c F. rewrite mean_ok by exact F. eexists. split; [reflexivity|]. cbn [mean_img m1 m2 pix]. rewrite map_length, seq_length. split; [reflexivity|]. split; [reflexivity|]. split; [reflexivity|]. intros p P.
  rewrite nth_error_map, (nth_error_nth' _ 0) by (rewrite seq_length; exact P). rewrite seq_nth by exact P. cbn [option_map Nat.add].
  assert (L : length (values (n1 c * n2 c) (dat c) (seq 0 (n0 c)) p) = n0 c) by (rewrite values_length; [apply seq_length|exact F|apply Forall_forall; intros i I; apply in_seq in I; lia|exact P]). split.
  - intros Z. rewrite Z. reflexivity.
  - intros N. destruct (avg_ok (values (n1 c * n2 c) (dat c) (seq 0 (n0 c)) p)) as (m & E & M); [intros X; rewrite X in L; cbn in L; lia|]. exists m. split; [rewrite E; reflexivity|]. rewrite L in M. exact M.
Qed.
Print Assumptions C124_mean.
(* The weighted mean stack, not a number (or infinite) where the weights add up to 0. *)
Theorem C124_weighted_mean : forall f w, length (dat f) = n0 f * (n1 f * n2 f) -> length (dat w) = n0 w * (n1 w * n2 w) ->
  (n0 f = n0 w -> n1 f = n1 w -> n2 f = n2 w -> exists r, qstack_wmean f w = Ok r /\ m1 r = n1 f /\ m2 r = n2 f /\ length (pix r) = n1 f * n2 f /\
    forall p, p < n1 f * n2 f -> let fs := values (n1 f * n2 f) (dat f) (seq 0 (n0 f)) p in let ws := values (n1 f * n2 f) (dat w) (seq 0 (n0 f)) p in
      ((qtotal ws == 0)%Q -> nth_error (pix r) p = Some None) /\
      (~ (qtotal ws == 0)%Q -> exists m, nth_error (pix r) p = Some (Some m) /\ (m * qtotal ws == qtotal (map (fun xy => fst xy * snd xy) (combine fs ws)))%Q)) /\
  (n0 f <> n0 w \/ n1 f <> n1 w \/ n2 f <> n2 w -> qstack_wmean f w = CheckFail).
Proof.
  intros f w F W. split.
  - intros E0 E1 E2. rewrite wmean_ok by assumption. eexists. split; [reflexivity|]. cbn [wmean_img m1 m2 pix]. rewrite map_length, seq_length. split; [reflexivity|]. split; [reflexivity|]. split; [reflexivity|]. intros p P. set (fs := values (n1 f * n2 f) (dat f) (seq 0 (n0 f)) p). set (ws := values (n1 f * n2 f) (dat w) (seq 0 (n0 f)) p).
    rewrite nth_error_map, (nth_error_nth' _ 0) by (rewrite seq_length; exact P). rewrite seq_nth by exact P. cbn [option_map Nat.add]. fold fs. fold ws. split.
    + intros Z. rewrite wavg_none by exact Z. reflexivity.
    + intros Z. destruct (wavg_some fs ws Z) as (m & E & M). exists m. rewrite E. split; [reflexivity|exact M].
  - intros H. unfold qstack_wmean. destruct (Nat.eqb_spec (n0 f) (n0 w)), (Nat.eqb_spec (n1 f) (n1 w)), (Nat.eqb_spec (n2 f) (n2 w)); try reflexivity. lia.
Qed.
Print Assumptions C124_weighted_mean.
Example ex_means : qstack_mean (mk_cube 2 1 2 [1; 2; 3; 6]%Q) = Ok (mk_img 1 2 [Some (4 # 2); Some (8 # 2)]%Q) /\
  qstack_wmean (mk_cube 2 1 2 [1; 2; 3; 6]%Q) (mk_cube 2 1 2 [1; 1; 3; -1]%Q) = Ok (mk_img 1 2 [Some (10 # 4); None]%Q).
Proof. vm_compute. split; reflexivity. Qed.

(* The bootstrap of the mean stack: one image for each trial, the average of the sources drawn in it. *)
Theorem C124_mean_bootstrap : forall rnd u c nb nsel pos, double_rounding rnd -> uniform u -> 0 < n0 c -> (Z.of_nat (n0 c) <= 2 ^ 53)%Z ->
  length (dat c) = n0 c * (n1 c * n2 c) -> 0 < n1 c * n2 c -> 0 < nb -> 0 < nsel ->
  exists b, qstack_mean_bootstrap rnd u c nb nsel pos = Ok (b, pos + nb * nsel) /\ n0 b = nb /\ n1 b = n1 c /\ n2 b = n2 c /\ length (dat b) = nb * (n1 c * n2 c) /\
    forall j p, j < nb -> p < n1 c * n2 c -> exists m, pixel (n1 c * n2 c) (dat b) j p = Some (Some m) /\
      (m * inject_Z (Z.of_nat nsel) == qtotal (values (n1 c * n2 c) (dat c) (map (source rnd u (n0 c)) (seq (pos + j * nsel) nsel)) p))%Q.
Proof.
  intros rnd u c nb nsel pos R U N0 N1 F P NB NS. set (g := fun ids => mk_img (n1 c) (n2 c) (map (fun p => avg (values (n1 c * n2 c) (dat c) ids p)) (seq 0 (n1 c * n2 c)))).
  assert (Bd : forall q, Forall (fun i => i < n0 c) (ids_at rnd u (n0 c) nsel q)) by (intros q; apply ids_bound; assumption).
  assert (Sh : forall ids, shaped (n1 c) (n2 c) (g ids)) by (intros; unfold shaped, g; cbn [m1 m2 pix]; rewrite map_length, seq_length; auto).
  pose proof (stack_ok rnd u (n0 c) nsel R U N0 N1 qstack_mean c g eq_refl F P) as St.
  specialize (St ltac:(intros q; split; [rewrite mean_ok by (apply chosen_fit; [exact F|apply Bd]); rewrite mean_chosen by (try exact F; apply Bd); reflexivity|apply Sh]) nb pos [] ltac:(constructor)).
  unfold qstack_mean_bootstrap. change (no_images (A := option Q)) with (rep (B := option Q) (n1 c) (n2 c) []). rewrite St. cbn [app]. eexists. split; [reflexivity|].
  assert (Fs : Forall (shaped (n1 c) (n2 c)) (map (fun j => g (ids_at rnd u (n0 c) nsel (pos + j * nsel))) (seq 0 nb))) by (apply Forall_forall; intros x I; apply in_map_iff in I; destruct I as (j & <- & _); apply Sh).
  assert (NeL : map (fun j => g (ids_at rnd u (n0 c) nsel (pos + j * nsel))) (seq 0 nb) <> []) by (intros X; apply (f_equal (@length _)) in X; rewrite map_length, seq_length in X; cbn in X; lia).
  destruct (rep_dims (n1 c) (n2 c) _ NeL Fs) as (D0 & D1 & D2 & D3). rewrite map_length, seq_length in D0, D3. split; [exact D0|]. split; [exact D1|]. split; [exact D2|]. split; [exact D3|].
  intros j p J Hp. rewrite (rep_pixel (n1 c) (n2 c) _ j p (g (ids_at rnd u (n0 c) nsel (pos + j * nsel))) Fs); [|rewrite nth_error_map, (nth_error_nth' _ 0) by (rewrite seq_length; exact J); rewrite seq_nth by exact J; reflexivity|exact Hp].
  unfold g. cbn [pix]. rewrite nth_error_map, (nth_error_nth' _ 0) by (rewrite seq_length; exact Hp). rewrite seq_nth by exact Hp. cbn [option_map Nat.add].
  assert (L : length (values (n1 c * n2 c) (dat c) (ids_at rnd u (n0 c) nsel (pos + j * nsel)) p) = nsel) by (rewrite values_length; [apply ids_length|exact F|apply Bd|exact Hp]).
  destruct (avg_ok (values (n1 c * n2 c) (dat c) (ids_at rnd u (n0 c) nsel (pos + j * nsel)) p)) as (m & E & M); [intros X; rewrite X in L; cbn in L; lia|]. exists m. split; [rewrite E; reflexivity|]. rewrite L in M. exact M.
Qed.
Print Assumptions C124_mean_bootstrap.
(* The same with weights: value and weight are taken from the same source. *)
Theorem C124_weighted_bootstrap : forall rnd u f w nb nsel pos, double_rounding rnd -> uniform u -> 0 < n0 f -> (Z.of_nat (n0 f) <= 2 ^ 53)%Z ->
  length (dat f) = n0 f * (n1 f * n2 f) -> length (dat w) = n0 w * (n1 w * n2 w) -> n0 f <= n0 w -> n1 f = n1 w -> n2 f = n2 w -> 0 < n1 f * n2 f -> 0 < nb ->
  exists b, qstack_wmean_bootstrap rnd u f w nb nsel pos = Ok (b, pos + nb * nsel) /\ n0 b = nb /\ n1 b = n1 f /\ n2 b = n2 f /\ length (dat b) = nb * (n1 f * n2 f) /\
    forall j p, j < nb -> p < n1 f * n2 f -> let ids := map (source rnd u (n0 f)) (seq (pos + j * nsel) nsel) in
      let fs := values (n1 f * n2 f) (dat f) ids p in let ws := values (n1 f * n2 f) (dat w) ids p in
      ((qtotal ws == 0)%Q -> pixel (n1 f * n2 f) (dat b) j p = Some None) /\
      (~ (qtotal ws == 0)%Q -> exists m, pixel (n1 f * n2 f) (dat b) j p = Some (Some m) /\ (m * qtotal ws == qtotal (map (fun xy => fst xy * snd xy) (combine fs ws)))%Q).
Proof.
  intros rnd u f w nb nsel pos R U N0 N1 F W E0 E1 E2 P NB. set (g := fun ids => mk_img (n1 f) (n2 f) (map (fun p => wavg (values (n1 f * n2 f) (dat f) ids p) (values (n1 f * n2 f) (dat w) ids p)) (seq 0 (n1 f * n2 f)))).
  assert (Bd : forall q, Forall (fun i => i < n0 f) (ids_at rnd u (n0 f) nsel q)) by (intros q; apply ids_bound; assumption).
  assert (Bw : forall q, Forall (fun i => i < n0 w) (ids_at rnd u (n0 f) nsel q)) by (intros q; eapply Forall_impl; [|apply Bd]; cbn; intros; lia).
  assert (Sh : forall ids, shaped (n1 f) (n2 f) (g ids)) by (intros; unfold shaped, g; cbn [m1 m2 pix]; rewrite map_length, seq_length; auto).
  pose proof (wstack_ok rnd u (n0 f) nsel R U N0 N1 f w g eq_refl E0 F W P) as St.
  specialize (St ltac:(intros q; split; [rewrite wmean_ok by (try (apply chosen_fit; [assumption|first [apply Bd|apply Bw]]); try reflexivity; try (cbn [chosen n1 n2]; assumption)); rewrite wmean_chosen by (try assumption; first [apply Bd|apply Bw]); reflexivity|apply Sh]) nb pos [] ltac:(constructor)).
  unfold qstack_wmean_bootstrap. change (no_images (A := option Q)) with (rep (B := option Q) (n1 f) (n2 f) []). rewrite St. cbn [app]. eexists. split; [reflexivity|].
  assert (Fs : Forall (shaped (n1 f) (n2 f)) (map (fun j => g (ids_at rnd u (n0 f) nsel (pos + j * nsel))) (seq 0 nb))) by (apply Forall_forall; intros x I; apply in_map_iff in I; destruct I as (j & <- & _); apply Sh).
  assert (NeL : map (fun j => g (ids_at rnd u (n0 f) nsel (pos + j * nsel))) (seq 0 nb) <> []) by (intros X; apply (f_equal (@length _)) in X; rewrite map_length, seq_length in X; cbn in X; lia).
  destruct (rep_dims (n1 f) (n2 f) _ NeL Fs) as (D0 & D1 & D2 & D3). rewrite map_length, seq_length in D0, D3. split; [exact D0|]. split; [exact D1|]. split; [exact D2|]. split; [exact D3|].
  intros j p J Hp. set (ids := map (source rnd u (n0 f)) (seq (pos + j * nsel) nsel)). set (fs := values (n1 f * n2 f) (dat f) ids p). set (ws := values (n1 f * n2 f) (dat w) ids p). rewrite (rep_pixel (n1 f) (n2 f) _ j p (g (ids_at rnd u (n0 f) nsel (pos + j * nsel))) Fs); [|rewrite nth_error_map, (nth_error_nth' _ 0) by (rewrite seq_length; exact J); rewrite seq_nth by exact J; reflexivity|exact Hp].
  unfold g. cbn [pix]. rewrite nth_error_map, (nth_error_nth' _ 0) by (rewrite seq_length; exact Hp). rewrite seq_nth by exact Hp. cbn [option_map Nat.add]. fold (ids_at rnd u (n0 f) nsel (pos + j * nsel)) in ids. fold ids. fold fs. fold ws. split.
  - intros Z. rewrite wavg_none by exact Z. reflexivity.
  - intros Z. destruct (wavg_some fs ws Z) as (m & E & M). exists m. rewrite E. split; [reflexivity|exact M].
Qed.
Print Assumptions C124_weighted_bootstrap.
Lemma median_some v : v <> [] -> exists x, ReduceModel.median v = Ok x.
Proof.
  intros H. destruct (ReduceSpec.numbers v) as [|z0 l0] eqn:E; [exists OrderModel.NaN; apply ReduceProofs2.median_nan; assumption|]. destruct (ReduceProofs2.median_ok v) as (z & Z & _); [rewrite E; discriminate|]. eexists. exact Z.
Qed.
(* The bootstrap of the median stack; NaN is ignored and is the result where there is no number. *)
Theorem C124_median_bootstrap : forall rnd u c nb nsel pos, double_rounding rnd -> uniform u -> 0 < n0 c -> (Z.of_nat (n0 c) <= 2 ^ 53)%Z ->
  length (dat c) = n0 c * (n1 c * n2 c) -> 0 < n1 c * n2 c -> 0 < nb -> 0 < nsel ->
  exists b, qstack_median_bootstrap rnd u c nb nsel pos = Ok (b, pos + nb * nsel) /\ n0 b = nb /\ n1 b = n1 c /\ n2 b = n2 c /\ length (dat b) = nb * (n1 c * n2 c) /\
    forall j p, j < nb -> p < n1 c * n2 c -> let vs := ReduceSpec.numbers (values (n1 c * n2 c) (dat c) (map (source rnd u (n0 c)) (seq (pos + j * nsel) nsel)) p) in
      (vs = [] -> pixel (n1 c * n2 c) (dat b) j p = Some OrderModel.NaN) /\
      (vs <> [] -> exists z, pixel (n1 c * n2 c) (dat b) j p = Some (OrderModel.Num z) /\ ReduceSpec.order_stat Z.ltb vs (length vs / 2) z).
Proof.
  intros rnd u c nb nsel pos R U N0 N1 F P NB NS. set (med := fun v => match ReduceModel.median v with Ok x => x | _ => OrderModel.NaN end).
  assert (Med : forall v, v <> [] -> ReduceModel.median v = Ok (med v)) by (intros v H; unfold med; destruct (median_some v H) as [x X]; rewrite X; reflexivity).
  set (g := fun ids => mk_img (n1 c) (n2 c) (map (fun p => med (values (n1 c * n2 c) (dat c) ids p)) (seq 0 (n1 c * n2 c)))).
  assert (Bd : forall q, Forall (fun i => i < n0 c) (ids_at rnd u (n0 c) nsel q)) by (intros q; apply ids_bound; assumption).
  assert (Ne : forall q p, p < n1 c * n2 c -> values (n1 c * n2 c) (dat c) (ids_at rnd u (n0 c) nsel q) p <> []).
  { intros q p Hp X. pose proof (values_length c (ids_at rnd u (n0 c) nsel q) p F (Bd q) Hp) as L. rewrite X, ids_length in L. cbn in L. lia. }
  assert (Sh : forall ids, shaped (n1 c) (n2 c) (g ids)) by (intros; unfold shaped, g; cbn [m1 m2 pix]; rewrite map_length, seq_length; auto).
  assert (Gq : forall q, qstack_median (chosen c (ids_at rnd u (n0 c) nsel q)) = Ok (g (ids_at rnd u (n0 c) nsel q))).
  { intros q. unfold qstack_median. rewrite along_ok by (apply chosen_fit; [exact F|apply Bd]). cbn [chosen n0 n1 n2]. rewrite (omapl_map _ (fun p => med (values (n1 c * n2 c) (dat c) (ids_at rnd u (n0 c) nsel q) p))); [reflexivity|].
    intros p I. apply in_seq in I. pose proof (values_chosen c (ids_at rnd u (n0 c) nsel q) p F (Bd q)) as V. change (ReduceModel.median (values (n1 c * n2 c) (dat (chosen c (ids_at rnd u (n0 c) nsel q))) (seq 0 (length (ids_at rnd u (n0 c) nsel q))) p) = Ok (med (values (n1 c * n2 c) (dat c) (ids_at rnd u (n0 c) nsel q) p))). rewrite V. apply Med. apply Ne. lia. }
  pose proof (stack_ok rnd u (n0 c) nsel R U N0 N1 qstack_median c g eq_refl F P ltac:(intros q; split; [apply Gq|apply Sh]) nb pos [] ltac:(constructor)) as St.
  unfold qstack_median_bootstrap. change (no_images (A := OrderModel.fnum)) with (rep (B := OrderModel.fnum) (n1 c) (n2 c) []). rewrite St. cbn [app]. eexists. split; [reflexivity|].
  assert (Fs : Forall (shaped (n1 c) (n2 c)) (map (fun j => g (ids_at rnd u (n0 c) nsel (pos + j * nsel))) (seq 0 nb))) by (apply Forall_forall; intros x I; apply in_map_iff in I; destruct I as (j & <- & _); apply Sh).
  assert (NeL : map (fun j => g (ids_at rnd u (n0 c) nsel (pos + j * nsel))) (seq 0 nb) <> []) by (intros X; apply (f_equal (@length _)) in X; rewrite map_length, seq_length in X; cbn in X; lia).
  destruct (rep_dims (n1 c) (n2 c) _ NeL Fs) as (D0 & D1 & D2 & D3). rewrite map_length, seq_length in D0, D3. split; [exact D0|]. split; [exact D1|]. split; [exact D2|]. split; [exact D3|].
  intros j p J Hp. set (vs := ReduceSpec.numbers _). rewrite (rep_pixel (n1 c) (n2 c) _ j p (g (ids_at rnd u (n0 c) nsel (pos + j * nsel))) Fs); [|rewrite nth_error_map, (nth_error_nth' _ 0) by (rewrite seq_length; exact J); rewrite seq_nth by exact J; reflexivity|exact Hp].
  unfold g. cbn [pix]. rewrite nth_error_map, (nth_error_nth' _ 0) by (rewrite seq_length; exact Hp). rewrite seq_nth by exact Hp. cbn [option_map Nat.add]. unfold med. fold (ids_at rnd u (n0 c) nsel (pos + j * nsel)) in vs. split.
  - intros V. rewrite ReduceProofs2.median_nan; [reflexivity|apply Ne; exact Hp|exact V].
  - intros V. destruct (ReduceProofs2.median_ok _ V) as (z & Z & O). rewrite Z. exists z. split; [reflexivity|exact O].
Qed.
Print Assumptions C124_median_bootstrap.
(* The median of no images aborts the program, as soon as there is a pixel. *)
Theorem C124_median_empty_aborts : forall c, n0 c = 0 -> 0 < n1 c * n2 c -> qstack_median c = CheckFail.
Proof. intros c E P. unfold qstack_median, along. rewrite E. destruct (n1 c * n2 c) as [|k]; [lia|]. reflexivity. Qed.
Print Assumptions C124_median_empty_aborts.
(* Finding: of images without pixels the result has one image instead of one for each trial, and without trials the
   dimensions of the images are lost. *)
Theorem C124_no_pixels_refuted : forall rnd u c nb nsel pos, double_rounding rnd -> uniform u -> 0 < n0 c -> (Z.of_nat (n0 c) <= 2 ^ 53)%Z ->
  length (dat c) = n0 c * (n1 c * n2 c) ->
  (n1 c * n2 c = 0 -> 0 < nb -> qstack_mean_bootstrap rnd u c nb nsel pos = Ok (mk_cube 1 (n1 c) (n2 c) [], pos + nb * nsel)) /\
  qstack_mean_bootstrap rnd u c 0 nsel pos = Ok (mk_cube 0 0 0 [], pos).
Proof.
  intros rnd u c nb nsel pos R U N0 N1 F. split; [|reflexivity]. intros P NB. unfold qstack_mean_bootstrap.
  assert (St : forall nb pos b, dat b = [] -> stack_loop rnd u qstack_mean (S nb) nsel c pos b = stack_loop rnd u qstack_mean nb nsel c (pos + nsel) (mk_cube 1 (n1 c) (n2 c) [])).
  { clear nb pos NB. intros nb pos b B. cbn [stack_loop]. rewrite (draw_ids rnd u (n0 c) nsel R U N0 N1). cbn [obind]. rewrite choose_ok by (try exact F; apply ids_bound; assumption). cbn [obind].
    rewrite mean_ok by (apply chosen_fit; [exact F|apply ids_bound; assumption]). cbn [obind]. unfold push_back. rewrite B. cbn [length Nat.eqb obind mean_img m1 m2 pix chosen n1 n2]. rewrite P. reflexivity. }
  assert (G : forall nb pos b, dat b = [] -> stack_loop rnd u qstack_mean (S nb) nsel c pos b = Ok (mk_cube 1 (n1 c) (n2 c) [], pos + S nb * nsel)).
  { clear nb pos NB. induction nb as [|nb IH]; intros pos b B; rewrite St by exact B; [cbn [stack_loop]; f_equal; f_equal; lia|]. rewrite IH by reflexivity. f_equal. f_equal. lia. }
  destruct nb as [|nb]; [lia|]. apply G. reflexivity.
Qed.
Print Assumptions C124_no_pixels_refuted.
Example ex_mean_bootstrap : qstack_mean_bootstrap (fun q => q) (fun i => if i =? 0 then (1 # 2)%Q else 0%Q) (mk_cube 2 1 1 [1; 4]%Q) 2 2 0 = Ok (mk_cube 2 1 1 [Some (5 # 2); Some (2 # 2)]%Q, 4) /\
  qstack_median_bootstrap (fun q => q) (fun i => if i =? 0 then (1 # 2)%Q else 0%Q) (mk_cube 2 1 1 [OrderModel.Num 1; OrderModel.NaN]) 2 2 0 = Ok (mk_cube 2 1 1 [OrderModel.Num 1; OrderModel.Num 1], 4).
Proof. vm_compute. split; reflexivity. Qed.
