(* C124: the loops of the bootstrap. *)
From Coq Require Import QArith Qround Qfield Lqa Lia.
From Verif Require Import Base BootModel BootSpec BootProofs.
From Verif Require RandintModel OrderModel ReduceModel.
Local Open Scope nat_scope.

Definition ids_at (rnd : Q -> Q) (u : nat -> Q) (nsrc nsel pos : nat) : list nat := map (source rnd u nsrc) (seq pos nsel).

Section Loops.
Variables (rnd : Q -> Q) (u : nat -> Q) (nsrc nsel : nat).
Hypothesis R : double_rounding rnd.
Hypothesis U : uniform u.
Hypothesis N0 : 0 < nsrc.
Hypothesis N1 : (Z.of_nat nsrc <= 2 ^ 53)%Z.
Let ids := ids_at rnd u nsrc nsel.
Lemma draw_ids pos : draw rnd u nsrc nsel pos = Ok (map Z.of_nat (ids pos)).
Proof. rewrite draw_ok by assumption. unfold ids, ids_at. rewrite map_map. reflexivity. Qed.
Lemma ids_bound pos : Forall (fun i => i < nsrc) (ids pos).
Proof. unfold ids, ids_at. apply Forall_forall. intros x I. apply in_map_iff in I. destruct I as (i & <- & _). apply source_bound; assumption. Qed.
Lemma ids_length pos : length (ids pos) = nsel.
Proof. unfold ids, ids_at. rewrite map_length, seq_length. reflexivity. Qed.
Lemma ids_fit {A} (c : cube A) pos : nsrc <= n0 c -> Forall (fun i => i < n0 c) (ids pos).
Proof. intros H. eapply Forall_impl; [|apply ids_bound]. cbn. intros. lia. Qed.

Lemma bootstrap_ok {A} (cubes : list (cube A)) : Forall (fun c => fit c /\ nsrc <= n0 c) cubes ->
  forall nb pos, bootstrap rnd u nb nsel nsrc cubes pos = Ok (map (fun j => map (fun c => chosen c (ids (pos + j * nsel))) cubes) (seq 0 nb), pos + nb * nsel).
Proof.
  intros F. induction nb as [|nb IH]; intros pos; [cbn; f_equal; f_equal; lia|]. cbn [bootstrap]. rewrite draw_ids. cbn [obind].
  rewrite (omapl_map _ (fun c => chosen c (ids pos))); [|intros c I; rewrite Forall_forall in F; destruct (F c I); apply choose_ok; [assumption|apply ids_fit; assumption]].
  cbn [obind]. rewrite IH. cbn [obind]. cbn [seq map]. rewrite <- seq_shift, map_map. f_equal. f_equal; [|lia]. f_equal; [apply map_ext; intros; f_equal; f_equal; lia|]. apply map_ext. intros j. apply map_ext. intros c. f_equal. f_equal. lia.
Qed.

Section Push.
Context {B : Type}.
Variables (a b : nat).
Hypothesis P : 0 < a * b.
Definition rep (l : list (img B)) : cube B := match l with [] => no_images | _ => mk_cube (length l) a b (concat (map pix l)) end.
Definition shaped (t : img B) : Prop := m1 t = a /\ m2 t = b /\ length (pix t) = a * b.
Lemma push_rep l t : Forall shaped l -> shaped t -> push_back (rep l) t = Ok (rep (l ++ [t])).
Proof.
  intros F (E1 & E2 & E3). unfold push_back. destruct l as [|x l]; [cbn; rewrite E1, E2, app_nil_r; reflexivity|].
  inversion F as [|? ? (X1 & X2 & X3) F']. cbn [rep dat n0 n1 n2 map concat]. rewrite app_length. destruct (Nat.eqb_spec (length (pix x) + length (concat (map pix l))) 0); [nia|].
  rewrite E1, E2, !Nat.eqb_refl. cbn [andb check obind]. cbn [app]. unfold rep. assert (L1 : length (x :: l ++ [t]) = length (x :: l) + 1) by (cbn; rewrite app_length; cbn; lia). rewrite L1. cbn [map]. rewrite map_app. cbn [map concat]. rewrite concat_app. cbn [concat]. rewrite app_nil_r, app_assoc. reflexivity.
Qed.
Lemma rep_pixel l j p t : Forall shaped l -> nth_error l j = Some t -> p < a * b -> pixel (a * b) (dat (rep l)) j p = nth_error (pix t) p.
Proof.
  intros F H L. unfold pixel. rewrite (proj2 (Nat.ltb_lt _ _) L). destruct l as [|x l]; [destruct j; discriminate|]. cbn [rep dat]. change (pix x :: map pix l) with (map pix (x :: l)).
  apply (nth_concat (a * b)); [|rewrite nth_error_map, H; reflexivity|exact L]. clear - F. induction F as [|y l' (_ & _ & Y)]; cbn; constructor; auto.
Qed.
Lemma rep_dims l : l <> [] -> Forall shaped l -> n0 (rep l) = length l /\ n1 (rep l) = a /\ n2 (rep l) = b /\ length (dat (rep l)) = length l * (a * b).
Proof.
  intros H F. destruct l as [|x l]; [contradiction|]. cbn [rep n0 n1 n2 dat]. repeat split. change (concat (map pix (x :: l))) with (concat (map pix (x :: l))). rewrite (concat_length _ (a * b)); [rewrite map_length; reflexivity|]. clear - F. induction F as [|y l' (_ & _ & Y)]; cbn; constructor; auto.
Qed.
End Push.

Lemma stack_ok {A B} (stack : cube A -> outcome (img B)) (c : cube A) (g : list nat -> img B) : n0 c = nsrc -> fit c -> 0 < n1 c * n2 c ->
  (forall pos, stack (chosen c (ids pos)) = Ok (g (ids pos)) /\ shaped (n1 c) (n2 c) (g (ids pos))) ->
  forall nb pos l, Forall (shaped (n1 c) (n2 c)) l ->
  stack_loop rnd u stack nb nsel c pos (rep (n1 c) (n2 c) l) = Ok (rep (n1 c) (n2 c) (l ++ map (fun j => g (ids (pos + j * nsel))) (seq 0 nb)), pos + nb * nsel).
Proof.
  intros E F P G. induction nb as [|nb IH]; intros pos l H; [cbn; rewrite app_nil_r; f_equal; f_equal; lia|]. cbn [stack_loop]. rewrite E, draw_ids. cbn [obind]. rewrite choose_ok by (try assumption; apply ids_fit; lia). cbn [obind].
  destruct (G pos) as [G1 G2]. rewrite G1. cbn [obind]. rewrite push_rep by assumption. cbn [obind]. rewrite IH by (apply Forall_app; split; [assumption|constructor; [assumption|constructor]]).
  cbn [seq map]. rewrite <- seq_shift, map_map, <- app_assoc. cbn [app]. f_equal. f_equal; [|lia]. f_equal. f_equal. f_equal; [f_equal; f_equal; lia|]. apply map_ext. intros j. f_equal. f_equal. lia.
Qed.
Lemma wstack_ok (f w : cube Q) (g : list nat -> img (option Q)) : n0 f = nsrc -> nsrc <= n0 w -> fit f -> fit w -> 0 < n1 f * n2 f ->
  (forall pos, qstack_wmean (chosen f (ids pos)) (chosen w (ids pos)) = Ok (g (ids pos)) /\ shaped (n1 f) (n2 f) (g (ids pos))) ->
  forall nb pos l, Forall (shaped (n1 f) (n2 f)) l ->
  wstack_loop rnd u nb nsel f w pos (rep (n1 f) (n2 f) l) = Ok (rep (n1 f) (n2 f) (l ++ map (fun j => g (ids (pos + j * nsel))) (seq 0 nb)), pos + nb * nsel).
Proof.
  intros E Ew F Fw P G. induction nb as [|nb IH]; intros pos l H; [cbn; rewrite app_nil_r; f_equal; f_equal; lia|]. cbn [wstack_loop]. rewrite E, draw_ids. cbn [obind]. rewrite (choose_ok f) by (try assumption; apply ids_fit; lia). cbn [obind]. rewrite (choose_ok w) by (try assumption; apply ids_fit; lia). cbn [obind].
  destruct (G pos) as [G1 G2]. rewrite G1. cbn [obind]. rewrite push_rep by assumption. cbn [obind]. rewrite IH by (apply Forall_app; split; [assumption|constructor; [assumption|constructor]]).
  cbn [seq map]. rewrite <- seq_shift, map_map, <- app_assoc. cbn [app]. f_equal. f_equal; [|lia]. f_equal. f_equal. f_equal; [f_equal; f_equal; lia|]. apply map_ext. intros j. f_equal. f_equal. lia.
Qed.
End Loops.

Definition avg (s : list Q) : option Q := quot (sum s) (inject_Z (Z.of_nat (length s))).
Definition mean_img (c : cube Q) : img (option Q) := mk_img (n1 c) (n2 c) (map (fun p => avg (values (n1 c * n2 c) (dat c) (seq 0 (n0 c)) p)) (seq 0 (n1 c * n2 c))).
Lemma mean_ok c : fit c -> qstack_mean c = Ok (mean_img c).
Proof. intros F. unfold qstack_mean. rewrite along_ok by exact F. rewrite (omapl_map _ (fun p => avg (values (n1 c * n2 c) (dat c) (seq 0 (n0 c)) p))) by reflexivity. reflexivity. Qed.
Lemma mean_chosen c ids : fit c -> Forall (fun i => i < n0 c) ids -> mean_img (chosen c ids) = mk_img (n1 c) (n2 c) (map (fun p => avg (values (n1 c * n2 c) (dat c) ids p)) (seq 0 (n1 c * n2 c))).
Proof. intros F H. unfold mean_img. cbn [chosen n0 n1 n2]. f_equal. apply map_ext. intros p. f_equal. apply (values_chosen c ids p F H). Qed.
Lemma avg_ok s : s <> [] -> exists m, avg s = Some m /\ (m * inject_Z (Z.of_nat (length s)) == qtotal s)%Q.
Proof.
  intros H. unfold avg, quot. assert (L : (0 < inject_Z (Z.of_nat (length s)))%Q) by (change 0%Q with (inject_Z 0); rewrite <- Zlt_Qlt; destruct s; [contradiction|cbn; lia]).
  destruct (Qeq_bool (inject_Z (Z.of_nat (length s))) 0) eqn:E; [apply Qeq_bool_eq in E; rewrite E in L; discriminate|]. eexists. split; [reflexivity|]. rewrite sum_total. field. intros X. rewrite X in L. discriminate.
Qed.
Lemma avg_nil : avg [] = None.
Proof. reflexivity. Qed.

Lemma combine_values (f w : list Q) np ids p : length f = length w ->
  values np (map (fun xy => fst xy * snd xy)%Q (combine f w)) ids p = map (fun xy => fst xy * snd xy)%Q (combine (values np f ids p) (values np w ids p)).
Proof.
  intros L. induction ids as [|i t IH]; [reflexivity|]. cbn [values]. unfold pixel. destruct (Nat.ltb_spec p np) as [K|K]; [|exact IH]. rewrite nth_error_map.
  assert (G : forall f w : list Q, length f = length w -> forall k, nth_error (combine f w) k = match nth_error f k, nth_error w k with Some x, Some y => Some (x, y) | _, _ => None end).
  { clear. induction f as [|x f IH]; intros [|y w] L [|k]; try discriminate; try reflexivity. cbn. apply IH. cbn in L. lia. }
  rewrite (G f w L). destruct (nth_error f (i * np + p)) eqn:E1, (nth_error w (i * np + p)) eqn:E2; cbn [option_map fst snd]; rewrite IH.
  - reflexivity.
  - exfalso. apply nth_error_None in E2. assert (i * np + p < length f) by (apply nth_error_Some; congruence). lia.
  - exfalso. apply nth_error_None in E1. assert (i * np + p < length w) by (apply nth_error_Some; congruence). lia.
  - reflexivity.
Qed.
Definition wavg (f w : list Q) : option Q := quot (sum (map (fun xy => fst xy * snd xy)%Q (combine f w))) (sum w).
Definition wmean_img (f w : cube Q) : img (option Q) := mk_img (n1 f) (n2 f) (map (fun p => wavg (values (n1 f * n2 f) (dat f) (seq 0 (n0 f)) p) (values (n1 f * n2 f) (dat w) (seq 0 (n0 f)) p)) (seq 0 (n1 f * n2 f))).
Lemma wmean_ok f w : fit f -> fit w -> n0 f = n0 w -> n1 f = n1 w -> n2 f = n2 w -> qstack_wmean f w = Ok (wmean_img f w).
Proof.
  intros F W E0 E1 E2. unfold qstack_wmean. rewrite E0, E1, E2, !Nat.eqb_refl. cbn [andb check obind]. assert (L : length (dat f) = length (dat w)) by (unfold fit in *; rewrite F, W, E0, E1, E2; reflexivity).
  rewrite along_ok by (unfold fit; cbn [dat n0 n1 n2]; rewrite map_length, combine_length, L, Nat.min_id; exact W). cbn [dat n0 n1 n2]. rewrite (omapl_map _ (fun p => sum (values (n1 w * n2 w) (map (fun xy => (fst xy * snd xy)%Q) (combine (dat f) (dat w))) (seq 0 (n0 w)) p))) by reflexivity.
  cbn [obind]. rewrite along_ok by exact W. rewrite (omapl_map _ (fun p => sum (values (n1 w * n2 w) (dat w) (seq 0 (n0 w)) p))) by reflexivity. cbn [obind m1 m2 pix]. unfold wmean_img. rewrite E0, E1, E2. f_equal. f_equal.
  generalize (seq 0 (n1 w * n2 w)). intros l. induction l as [|p l IH]; [reflexivity|]. cbn [map combine]. rewrite IH. f_equal. cbn [fst snd]. unfold wavg. rewrite combine_values by exact L. reflexivity.
Qed.
Lemma wmean_chosen f w ids : fit f -> fit w -> Forall (fun i => i < n0 f) ids -> Forall (fun i => i < n0 w) ids -> n1 f = n1 w -> n2 f = n2 w ->
  wmean_img (chosen f ids) (chosen w ids) = mk_img (n1 f) (n2 f) (map (fun p => wavg (values (n1 f * n2 f) (dat f) ids p) (values (n1 f * n2 f) (dat w) ids p)) (seq 0 (n1 f * n2 f))).
Proof.
  intros F W H K E1 E2. unfold wmean_img. cbn [n0 n1 n2 chosen]. f_equal. apply map_ext. intros p. f_equal; [apply (values_chosen f ids p F H)|]. rewrite E1, E2. apply (values_chosen w ids p W K).
Qed.
Lemma wavg_some f w : ~ (qtotal w == 0)%Q -> exists m, wavg f w = Some m /\ (m * qtotal w == qtotal (map (fun xy => fst xy * snd xy)%Q (combine f w)))%Q.
Proof.
  intros H. unfold wavg, quot. destruct (Qeq_bool (sum w) 0) eqn:E; [apply Qeq_bool_eq in E; rewrite sum_total in E; contradiction|]. eexists. split; [reflexivity|]. rewrite !sum_total. field. exact H.
Qed.
Lemma wavg_none f w : (qtotal w == 0)%Q -> wavg f w = None.
Proof. intros H. unfold wavg, quot. rewrite (proj2 (Qeq_bool_iff (sum w) 0)); [reflexivity|]. rewrite sum_total. exact H. Qed.
