(* C62: cross matching with buckets (the default algorithm of qxmatch), linear mode. *)
From Coq Require Import ZifyBool ZifyNat Psatz.
From Verif Require Import Base IndexModel VecModel VecProofs ImageModel MatModel MatProofs XmatchModel XmatchSpec XmatchProofs XmatchProofs2 XmatchProofs3 XmatchProofs4 XbuckModel XbuckSpec XbuckProofs XbuckProofs2 XbuckProofs3.
Local Open Scope nat_scope.

(* The search always ends; what is returned first for a source is a source of the other
   catalogue, at the distance returned.  It is the nearest one if the field has at most six
   buckets in each direction, or if some source is nearer than max(nx, ny) - 1.5 buckets. *)
Theorem C62_nearest sqrtf ra1 de1 ra2 de2 nth0 self no_mirror :
  sqrt_ok sqrtf -> catalogue ra1 de1 -> catalogue ra2 de2 -> extended ra2 -> extended de2 -> nth0 <= length ra2 ->
  exists f r, mk_field sqrtf ra1 de1 ra2 de2 = Ok f /\
    qxmatch_bucket sqrtf ra1 de1 ra2 de2 nth0 self no_mirror = Ok r /\
    length (x_id r) = Nat.max nth0 1 * length ra1 /\ length (x_d r) = Nat.max nth0 1 * length ra1 /\
    forall i, i < length ra1 -> exists e,
      nth_error (x_id r) i = Some (option_map snd e) /\ nth_error (x_d r) i = Some (option_map fst e) /\
      (forall c, e = Some c -> In c (candidates (proxy ra1 de1 ra2 de2) (length ra2) self i)) /\
      ((f_nx f <= 6 /\ f_ny f <= 6) \/
       (exists c, In c (candidates (proxy ra1 de1 ra2 de2) (length ra2) self i) /\ within_reach f (fst c)) ->
       is_nearest (candidates (proxy ra1 de1 ra2 de2) (length ra2) self i) e).
Proof.
  intros Hs K1 K2 X1 X2 Hth. destruct (mk_field_ok sqrtf ra1 de1 ra2 de2 Hs K1 K2 X1 X2) as (f & Ef & Hc & Hx & Hy & W1 & W2).
  set (n := Nat.max nth0 1). assert (Hn : 1 <= n) by (unfold n; lia).
  assert (L1 : 0 < length ra1) by (destruct K1 as (_ & K); destruct ra1; [congruence|cbn; lia]).
  assert (L2 : 0 < length ra2) by (destruct K2 as (_ & K); destruct ra2; [congruence|cbn; lia]).
  destruct (search_all_ok sqrtf f ra1 de1 ra2 de2 n self Hc Hx Hy W2 Hn) as (r & C & E & (HC1 & (LD & HC2) & (LI & HC3)) & F).
  assert (Main : forall rid rd, forall r', r' = XRes (x_id r) (x_d r) rid rd ->
    length (x_id r') = n * length ra1 /\ length (x_d r') = n * length ra1 /\
    forall i, i < length ra1 -> exists e,
      nth_error (x_id r') i = Some (option_map snd e) /\ nth_error (x_d r') i = Some (option_map fst e) /\
      (forall c, e = Some c -> In c (candidates (proxy ra1 de1 ra2 de2) (length ra2) self i)) /\
      ((f_nx f <= 6 /\ f_ny f <= 6) \/
       (exists c, In c (candidates (proxy ra1 de1 ra2 de2) (length ra2) self i) /\ within_reach f (fst c)) ->
       is_nearest (candidates (proxy ra1 de1 ra2 de2) (length ra2) self i) e)).
  { intros rid rd r' ->. cbn [x_id x_d]. split; [exact LI|]. split; [exact LD|]. intros i Hi. exists (hd None (C i)).
    assert (E0 : nth 0 (C i) None = hd None (C i)) by (destruct (C i); reflexivity).
    split; [|split; [|split]].
    - rewrite <- E0. change i with (0 * length ra1 + i) at 1. apply HC3; lia.
    - rewrite <- E0. change i with (0 * length ra1 + i) at 1. apply HC2; lia.
    - exact (found_sound sqrtf f ra1 de1 ra2 de2 n self i (C i) (F i Hi)).
    - intros Hcase. apply (found_nearest sqrtf f ra1 de1 ra2 de2 n self); auto. }
  unfold qxmatch_bucket. cbv zeta. destruct K1 as (K1 & _), K2 as (K2 & _). rewrite <- K1, <- K2, !Nat.eqb_refl. cbn [check obind].
  replace (length ra1 =? 0) with false by lia. replace (length ra2 =? 0) with false by lia. cbn [orb]. rewrite Ef. cbn [obind].
  rewrite (fill_ok _ _ _ W1), (fill_ok _ _ _ W2). cbn [obind]. fold n. replace (length ra2 <? n) with false by lia. rewrite E. cbn [obind].
  destruct (self || no_mirror) eqn:Em.
  - eexists f, _. split; [reflexivity|]. split; [reflexivity|]. eapply Main. reflexivity.
  - destruct (search_all_ok sqrtf f ra2 de2 ra1 de1 1 false Hc Hx Hy W1 (le_n 1)) as (r2 & C2 & E2 & _). rewrite E2. cbn [obind].
    eexists f, _. split; [reflexivity|]. split; [reflexivity|]. eapply Main. reflexivity.
Qed.
Print Assumptions C62_nearest.

(* The same for the reverse matches. *)
Theorem C62_mirror sqrtf ra1 de1 ra2 de2 nth0 :
  sqrt_ok sqrtf -> catalogue ra1 de1 -> catalogue ra2 de2 -> extended ra2 -> extended de2 -> nth0 <= length ra2 ->
  exists f r, mk_field sqrtf ra1 de1 ra2 de2 = Ok f /\
    qxmatch_bucket sqrtf ra1 de1 ra2 de2 nth0 false false = Ok r /\
    length (x_rid r) = length ra2 /\ length (x_rd r) = length ra2 /\
    forall j, j < length ra2 -> exists e,
      nth_error (x_rid r) j = Some (option_map snd e) /\ nth_error (x_rd r) j = Some (option_map fst e) /\
      (forall c, e = Some c -> In c (candidates (proxy ra2 de2 ra1 de1) (length ra1) false j)) /\
      ((f_nx f <= 6 /\ f_ny f <= 6) \/
       (exists c, In c (candidates (proxy ra2 de2 ra1 de1) (length ra1) false j) /\ within_reach f (fst c)) ->
       is_nearest (candidates (proxy ra2 de2 ra1 de1) (length ra1) false j) e).
Proof.
  intros Hs K1 K2 X1 X2 Hth. destruct (mk_field_ok sqrtf ra1 de1 ra2 de2 Hs K1 K2 X1 X2) as (f & Ef & Hc & Hx & Hy & W1 & W2).
  set (n := Nat.max nth0 1). assert (Hn : 1 <= n) by (unfold n; lia).
  assert (L1 : 0 < length ra1) by (destruct K1 as (_ & K); destruct ra1; [congruence|cbn; lia]).
  assert (L2 : 0 < length ra2) by (destruct K2 as (_ & K); destruct ra2; [congruence|cbn; lia]).
  destruct (search_all_ok sqrtf f ra1 de1 ra2 de2 n false Hc Hx Hy W2 Hn) as (r & C & E & _).
  destruct (search_all_ok sqrtf f ra2 de2 ra1 de1 1 false Hc Hx Hy W1 (le_n 1)) as (r2 & C2 & E2 & (HC1 & (LD & HC2) & (LI & HC3)) & F).
  unfold qxmatch_bucket. cbv zeta. destruct K1 as (K1 & _), K2 as (K2 & _). rewrite <- K1, <- K2, !Nat.eqb_refl. cbn [check obind].
  replace (length ra1 =? 0) with false by lia. replace (length ra2 =? 0) with false by lia. cbn [orb]. rewrite Ef. cbn [obind].
  rewrite (fill_ok _ _ _ W1), (fill_ok _ _ _ W2). cbn [obind]. fold n. replace (length ra2 <? n) with false by lia. rewrite E. cbn [obind].
  rewrite E2. cbn [obind]. eexists f, _. split; [reflexivity|]. split; [reflexivity|]. cbn [x_rid x_rd].
  split; [lia|]. split; [lia|]. intros i Hi. exists (hd None (C2 i)).
  assert (E0 : nth 0 (C2 i) None = hd None (C2 i)) by (destruct (C2 i); reflexivity).
  split; [|split; [|split]].
  - rewrite <- E0. change i with (0 * length ra2 + i) at 1. apply HC3; lia.
  - rewrite <- E0. change i with (0 * length ra2 + i) at 1. apply HC2; lia.
  - exact (found_sound sqrtf f ra2 de2 ra1 de1 1 false i (C2 i) (F i Hi)).
  - intros Hcase. apply (found_nearest sqrtf f ra2 de2 ra1 de1 1 false); auto.
Qed.
Print Assumptions C62_mirror.

(* In a field of at most six buckets the nearest distances are those of brute force. *)
Theorem C62_same_as_brute sqrtf ra1 de1 ra2 de2 self f :
  sqrt_ok sqrtf -> catalogue ra1 de1 -> catalogue ra2 de2 -> extended ra2 -> extended de2 ->
  mk_field sqrtf ra1 de1 ra2 de2 = Ok f -> f_nx f <= 6 -> f_ny f <= 6 -> (Z.of_nat (length ra1) <= max_ptrs)%Z ->
  exists r o, qxmatch_bucket sqrtf ra1 de1 ra2 de2 1 self true = Ok r /\
    brute (proxy ra1 de1 ra2 de2) 1 (length ra1) (length ra2) self true 1 0 = Ok o /\ x_d r = x_d o.
Proof.
  intros Hs K1 K2 X1 X2 Ef H1 H2 Hb.
  assert (L1 : 0 < length ra1) by (destruct K1 as (_ & K); destruct ra1; [congruence|cbn; lia]).
  assert (L2 : 0 < length ra2) by (destruct K2 as (_ & K); destruct ra2; [congruence|cbn; lia]).
  destruct (C62_nearest sqrtf ra1 de1 ra2 de2 1 self true Hs K1 K2 X1 X2) as (f' & r & Ef' & Er & _ & LD & HN); [lia|].
  rewrite Ef in Ef'. injection Ef' as <-.
  destruct (brute_one (proxy ra1 de1 ra2 de2) 1 (length ra1) (length ra2) self true (le_n 1) 1 0 (le_n 1)) as (o & Eo & ((HC1 & (LO & HO) & _) & _) & _).
  exists r, o. split; [exact Er|]. split; [exact Eo|]. apply list_eq_nth_error. intros p.
  destruct (Nat.lt_ge_cases p (length ra1)) as [Hp|Hp].
  - destruct (HN p Hp) as (e & _ & -> & _ & Hnear). specialize (Hnear (or_introl (conj H1 H2))).
    specialize (HO 0 p (le_n 1) Hp). change (0 * length ra1 + p) with p in HO. rewrite HO. f_equal.
    assert (HC : n_nearest 1 (candidates (proxy ra1 de1 ra2 de2) (length ra2) self p) (colf (proxy ra1 de1 ra2 de2) 1 self p (length ra2)))
      by (unfold colf; apply colstep_nearest; lia).
    destruct HC as (s & P & S & ->). destruct s as [|c s]; cbn [map app firstn nth repeat].
    + apply Permutation_sym, Permutation_nil in P. rewrite P in Hnear. destruct e as [c|]; [destruct Hnear as ([] & _)|reflexivity].
    + destruct e as [c'|]; [|cbn in Hnear; rewrite Hnear in P; apply Permutation_nil in P; discriminate].
      destruct Hnear as (I' & M'). cbn. f_equal.
      assert (Ic : In c (candidates (proxy ra1 de1 ra2 de2) (length ra2) self p)) by (apply (Permutation_in _ (Permutation_sym P)); left; reflexivity).
      specialize (M' _ Ic). apply (Permutation_in _ P) in I'. destruct I' as [->|I']; [reflexivity|].
      apply StronglySorted_inv in S as (_ & Fo). rewrite Forall_forall in Fo. specialize (Fo _ I'). unfold nearer in Fo. lia.
  - rewrite (proj2 (nth_error_None (x_d r) p)), (proj2 (nth_error_None (x_d o) p)) by lia. reflexivity.
Qed.
Print Assumptions C62_same_as_brute.

(* Finding: in larger fields a source may stay without any match: the search stops before the
   buckets in the opposite corner of the field are reached. *)
Theorem C62_far_corner_refuted : exists ra1 de1 ra2 de2 r,
  catalogue ra1 de1 /\ catalogue ra2 de2 /\ extended ra2 /\ extended de2 /\
  qxmatch_bucket Z.sqrt_up ra1 de1 ra2 de2 1 false false = Ok r /\
  x_id r = [None] /\ candidates (proxy ra1 de1 ra2 de2) (length ra2) false 0 <> [].
Proof.
  exists [20]%Z, [20]%Z, [0; 1]%Z, [0; 1]%Z. eexists. split; [split; [reflexivity|discriminate]|].
  split; [split; [reflexivity|discriminate]|].
  split; [exists 0%Z, 1%Z; cbn; lia|]. split; [exists 0%Z, 1%Z; cbn; lia|]. split; [vm_compute; reflexivity|].
  split; [reflexivity|discriminate].
Qed.
Print Assumptions C62_far_corner_refuted.

(* Finding: with nth >= 2 the same neighbour is listed twice if it lies in a bucket of the same
   row or column as the source. *)
Theorem C62_twice_refuted : exists ra1 de1 ra2 de2 r,
  catalogue ra1 de1 /\ catalogue ra2 de2 /\ extended ra2 /\ extended de2 /\
  qxmatch_bucket Z.sqrt_up ra1 de1 ra2 de2 2 false false = Ok r /\
  x_id r = [Some 0; Some 0] /\ length (candidates (proxy ra1 de1 ra2 de2) (length ra2) false 0) = 3.
Proof.
  exists [30]%Z, [5]%Z, [10; 0; 0]%Z, [5; 0; 10]%Z. eexists. split; [split; [reflexivity|discriminate]|].
  split; [split; [reflexivity|discriminate]|].
  split; [exists 0%Z, 10%Z; cbn; lia|]. split; [exists 0%Z, 10%Z; cbn; lia|]. split; [vm_compute; reflexivity|].
  split; reflexivity.
Qed.
Print Assumptions C62_twice_refuted.

(* Finding: if all sources of the second catalogue have the same x or the same y (or if it has
   a single source), the size of the buckets is zero, and the behaviour is undefined. *)
Theorem C62_aligned_UB sqrtf ra1 de1 ra2 de2 nth0 self no_mirror :
  sqrtf 0%Z = 0%Z -> catalogue ra1 de1 -> catalogue ra2 de2 ->
  (exists a, forall x, In x ra2 -> x = a) \/ (exists a, forall x, In x de2 -> x = a) ->
  qxmatch_bucket sqrtf ra1 de1 ra2 de2 nth0 self no_mirror = UB.
Proof.
  intros H0 (K1 & N1) (K2 & N2) Hal. unfold qxmatch_bucket. cbv zeta. rewrite <- K1, <- K2, !Nat.eqb_refl. cbn [check obind].
  assert (L1 : 0 < length ra1) by (destruct ra1; [congruence|cbn; lia]).
  assert (L2 : 0 < length ra2) by (destruct ra2; [congruence|cbn; lia]).
  replace (length ra1 =? 0) with false by lia. replace (length ra2 =? 0) with false by lia. cbn [orb].
  assert (Same : forall l a, l <> [] -> (forall x, In x l -> x = a) -> lmin l = a /\ lmax l = a).
  { intros l a Hne Hl. unfold lmin, lmax. assert (Hh : hd 0%Z l = a) by (destruct l; [congruence|apply Hl; left; reflexivity]). rewrite Hh.
    clear Hne Hh. induction l as [|x l IH]; cbn [fold_right]; [auto|]. destruct IH as (-> & ->); [intros y Hy; apply Hl; right; exact Hy|].
    rewrite (Hl x (or_introl eq_refl)). lia. }
  assert (Z0 : ((lmax ra2 - lmin ra2) * (lmax de2 - lmin de2) = 0)%Z).
  { destruct Hal as [(a & Ha)|(a & Ha)].
    - destruct (Same ra2 a N2 Ha) as (-> & ->). lia.
    - destruct (Same de2 a) as (-> & ->); [destruct de2; [destruct ra2; [congruence|discriminate]|discriminate]|exact Ha|]. lia. }
  unfold mk_field. cbv zeta. rewrite Z0, H0. reflexivity.
Qed.
Print Assumptions C62_aligned_UB.

(* Finding: in self mode the reverse matches are not computed (brute force does compute them). *)
Theorem C62_self_no_reverse sqrtf ra de nth0 r : catalogue ra de ->
  qxmatch_bucket sqrtf ra de ra de nth0 true false = Ok r ->
  x_rid r = repeat None (length ra) /\ x_rd r = repeat None (length ra).
Proof.
  intros (K & N) H. unfold qxmatch_bucket in H. cbv zeta in H. rewrite <- K, !Nat.eqb_refl in H. cbn [check obind] in H.
  assert (L1 : 0 < length ra) by (destruct ra; [congruence|cbn; lia]).
  replace (length ra =? 0) with false in H by lia. cbn [orb] in H.
  destruct (mk_field sqrtf ra de ra de) as [f| | | |]; try discriminate. cbn [obind] in H.
  destruct (fill f ra de); try discriminate. cbn [obind] in H.
  match type of H with obind ?s _ = _ => destruct s; try discriminate end. cbn [obind] in H. injection H as <-. split; reflexivity.
Qed.
Print Assumptions C62_self_no_reverse.

(* the assumption on sqrt is satisfied by the integer root rounded up *)
Theorem C62_sqrt_up : sqrt_ok Z.sqrt_up.
Proof.
  intros x Hx. pose proof (Z.sqrt_up_nonneg x). split; [assumption|].
  destruct (Z.eq_dec x 0) as [->|Hx0]; [cbn; lia|]. pose proof (Z.sqrt_up_spec x ltac:(lia)) as (A & B).
  rewrite <- Z.sub_1_r in A. split; [nia|]. right. nia.
Qed.
Print Assumptions C62_sqrt_up.

Example C62_ex : qxmatch_bucket Z.sqrt_up [12; 3; 9]%Z [4; 8; 1]%Z [0; 10; 2; 8]%Z [0; 10; 3; 9]%Z 1 false false =
  Ok (XRes [Some 1; Some 2; Some 2] [Some 40; Some 26; Some 53]%Z [Some 1; Some 0; Some 1; Some 1] [Some 73; Some 40; Some 26; Some 26]%Z).
Proof. vm_compute. reflexivity. Qed.
