From Coq Require Import Ascii String QArith Qpower Qround Qabs Lqa.
From Verif Require Import Base StrModel StrSpec StrProofs StrProofs2 NumModel NumSpec NumProofs RealModel RealSpec RealProofs RealProofs2.
Local Open Scope Z_scope.

(* the mantissa in one form *)
Definition dotted (dot : bool) (d f : list ascii) : list ascii := d ++ (if dot then "."%char :: f else []).
Lemma writes0_iff : forall d n, writes0 d n <-> all_digits d /\ n = value d.
Proof.
  intros d n. unfold writes0. rewrite writes_iff. split.
  - intros [[-> ->]|(_ & A & E)]; auto. split; [intros ? []|reflexivity].
  - intros [A ->]. destruct d; [left; auto|right; split; [discriminate|auto]].
Qed.
Lemma mantissa_iff : forall m w, mantissa m w <-> exists dot d f, m = dotted dot d f /\ d ++ f <> [] /\ all_digits d /\ all_digits f /\
  (dot = false -> f = []) /\ (w == inject_Z (value (d ++ f)) * 10 ^ (- Z.of_nat (List.length f)))%Q.
Proof.
  assert (K : forall d f, (inject_Z (value d) + inject_Z (value f) / 10 ^ Z.of_nat (List.length f) ==
    inject_Z (value (d ++ f)) * 10 ^ (- Z.of_nat (List.length f)))%Q).
  { intros d f. rewrite value_app, inject_Z_plus, inject_Z_mult, <- p10_Z by lia. rewrite Qpower_opp. field. apply p10_nz. }
  intros m w. split.
  - intros [(n & W & E)|(d & f & n & k & -> & N & Wd & Wf & E)].
    + apply writes_iff in W. destruct W as (N & A & ->). exists false, m, []. unfold dotted. rewrite !app_nil_r.
      split; auto. split; auto. split; auto. split; [intros ? []|]. split; auto. rewrite E. cbn. ring.
    + apply writes0_iff in Wd, Wf. destruct Wd as [Ad ->], Wf as [Af ->]. exists true, d, f.
      split; auto. split; auto. split; auto. split; auto. split; [discriminate|]. now rewrite E.
  - intros (dot & d & f & -> & N & Ad & Af & Df & E). destruct dot.
    + right. exists d, f, (value d), (value f). split; auto. split; auto. split; [now apply writes0_iff|]. split; [now apply writes0_iff|].
      now rewrite K.
    + rewrite Df in * by auto. left. unfold dotted. rewrite app_nil_r in *. exists (value d). split; [apply writes_iff; auto|].
      rewrite E. cbn. ring.
Qed.
Definition no_digit_first (b : list ascii) : Prop := b = [] \/ exists c t, b = c :: t /\ is_digit c = false.
Lemma take_sign_text : forall u f c r, sign_text u f -> c <> "-"%char -> c <> "+"%char -> take_sign (u ++ c :: r) = (f <? 0, c :: r).
Proof.
  intros u f c r [[-> ->]|[[-> ->]|[-> ->]]] A B; cbn [app take_sign]; auto.
  destruct (Ascii.eqb_spec c "-"%char); [contradiction|]. destruct (Ascii.eqb_spec c "+"%char); [contradiction|]. reflexivity.
Qed.
Definition mag (v : Q) : Q := if Qle_bool 0 v then v else (- v)%Q.
Lemma mag_abs : forall v, (mag v == Qabs v)%Q.
Proof.
  intros v. unfold mag. destruct (Qle_bool 0 v) eqn:E.
  - apply Qle_bool_iff in E. now rewrite Qabs_pos.
  - rewrite Qabs_neg; [reflexivity|]. apply Qlt_le_weak, Qnot_le_lt. intros C. apply Qle_bool_iff in C. congruence.
Qed.
Definition number (f : Z) (d1 d2 : list ascii) (k : Z) : Q :=
  (inject_Z (if f <? 0 then - value (d1 ++ d2) else value (d1 ++ d2)) * 10 ^ (k - Z.of_nat (List.length d2)))%Q.
Lemma number_val : forall u f d1 d2 k, sign_text u f ->
  (number f d1 d2 k == inject_Z f * (inject_Z (value (d1 ++ d2)) * 10 ^ (- Z.of_nat (List.length d2))) * 10 ^ k)%Q.
Proof.
  intros u f d1 d2 k Sg. unfold number. unfold Z.sub. rewrite p10_plus.
  assert (E : (inject_Z (if f <? 0 then - value (d1 ++ d2) else value (d1 ++ d2)) == inject_Z f * inject_Z (value (d1 ++ d2)))%Q).
  { rewrite <- inject_Z_mult. destruct Sg as [[_ ->]|[[_ ->]|[_ ->]]]; cbn [Z.ltb Z.compare];
      apply inject_Z_injective; lia. }
  rewrite E. ring.
Qed.
Lemma extract_number : forall a u f dot d1 d2 p k b, made_of white_space a -> sign_text u f -> d1 ++ d2 <> [] -> all_digits d1 -> all_digits d2 ->
  (dot = false -> d2 = []) -> power_text p k -> made_of white_space b ->
  extract_real (a ++ u ++ dotted dot d1 d2 ++ p ++ b) =
    (if Qle_bool double_limit (mag (number f d1 d2 k)) then None else Some (number f d1 d2 k), b).
Proof.
  intros a u f dot d1 d2 p k b A Sg N A1 A2 Df P B. unfold extract_real.
  (* the first character after the sign *)
  assert (C : exists c r, dotted dot d1 d2 ++ p ++ b = c :: r /\ ~ In c white_space /\ c <> "-"%char /\ c <> "+"%char).
  { unfold dotted. destruct d1 as [|c d1].
    - destruct dot; [|rewrite Df in N by auto; now destruct N]. cbn [app]. do 2 eexists. split; [reflexivity|].
      split; [cbn; intuition discriminate|split; discriminate].
    - cbn [app]. do 2 eexists. split; [reflexivity|]. apply digit_not_white, A1. now left. }
  destruct C as (c & r & Ec & Nw & Nm & Np).
  assert (Es : take_sign (skip_white (a ++ u ++ dotted dot d1 d2 ++ p ++ b)) = (f <? 0, dotted dot d1 d2 ++ p ++ b)).
  { rewrite skip_made by auto. rewrite Ec. rewrite <- (take_sign_text u f c r) by auto. f_equal.
    destruct Sg as [[-> ->]|[[-> ->]|[-> ->]]]; cbn [app]; apply skip_keep; auto; cbn; intuition discriminate. }
  rewrite Es. clear c r Ec Nw Nm Np Es.
  (* the digits *)
  set (e := p ++ b).
  assert (Fe : no_digit_first e /\ (e = [] \/ exists c t, e = c :: t /\ c <> "."%char)).
  { unfold e. destruct P as [[-> ->]|(c & su & g & d & n & -> & Hc & _)]; cbn [app].
    - split; [now apply made_head|]. destruct b as [|c t]; auto. right. exists c, t. split; auto. intros ->.
      specialize (B "."%char (or_introl eq_refl)). cbn in B. intuition discriminate.
    - split; right; do 2 eexists; (split; [reflexivity|]); destruct Hc; subst c; auto; discriminate. }
  destruct Fe as [Fd Fp].
  assert (Sp : span_digits (dotted dot d1 d2 ++ e) = (d1, (if dot then "."%char :: d2 else []) ++ e)).
  { unfold dotted. rewrite <- app_assoc. apply span_app; auto. destruct dot; cbn [app]; [|exact Fd]. right. eauto. }
  rewrite Sp.
  assert (S2 : match (if dot then "."%char :: d2 else []) ++ e with
               | [] => ([], (if dot then "."%char :: d2 else []) ++ e)
               | c :: r => if Ascii.eqb c "."%char then span_digits r else ([], (if dot then "."%char :: d2 else []) ++ e)
               end = (d2, e)).
  { destruct dot; cbn [app].
    - change (Ascii.eqb "."%char "."%char) with true. cbv iota. now apply span_app.
    - rewrite (Df eq_refl). destruct Fp as [->|(c & t & -> & Nc)]; auto. destruct (Ascii.eqb_spec c "."%char); [contradiction|auto]. }
  rewrite S2. clear S2 Sp. destruct (d1 ++ d2) as [|d0 dr] eqn:Ed; [tauto|]. rewrite <- Ed. change digits_value with value. cbv zeta.
  assert (S3 : match e with
               | c :: r =>
                   if Ascii.eqb c "e"%char || Ascii.eqb c "E"%char then
                     let '(neg, r) := take_sign r in
                     let '(d3, r) := span_digits r in
                     (match d3 with [] => None | _ => Some (if neg then - value d3 else value d3) end, r)
                   else (Some 0, e)
               | [] => (Some 0, e)
               end = (Some k, b)).
  { unfold e. destruct P as [[-> ->]|(c & su & g & d & n & -> & Hc & Sg' & W & ->)]; cbn [app].
    - destruct b as [|c t]; auto. destruct (Ascii.eqb_spec c "e"%char) as [->|_]; [|destruct (Ascii.eqb_spec c "E"%char) as [->|_]; auto].
      + specialize (B _ (or_introl eq_refl)). cbn in B. intuition discriminate.
      + specialize (B _ (or_introl eq_refl)). cbn in B. intuition discriminate.
    - assert (X : (Ascii.eqb c "e" || Ascii.eqb c "E")%bool = true) by (destruct Hc; subst c; reflexivity). rewrite X.
      apply writes_iff in W. destruct W as (Nd & Ad & ->). rewrite <- app_assoc. destruct d as [|c0 d]; [tauto|]. cbn [app].
      assert (Dc : is_digit c0 = true) by (apply Ad; now left). apply digit_not_white in Dc. destruct Dc as (_ & Q1 & Q2).
      rewrite (take_sign_text su g c0 _ Sg' Q1 Q2). change (c0 :: d ++ b) with ((c0 :: d) ++ b).
      rewrite span_app; auto; [|now apply made_head]. f_equal. f_equal.
      destruct Sg' as [[_ ->]|[[_ ->]|[_ ->]]]; cbn [Z.ltb Z.compare]; lia. }
  rewrite S3. reflexivity.
Qed.
Lemma read_white : forall v r, made_of white_space r ->
  match r with
  | [] => Some (Num v)
  | _ => match find_first (hasnt [" "; "009"]%char) (word (skip_white r)) (Some 0%nat) with None => Some (Num v) | Some _ => None end
  end = Some (Num v).
Proof.
  intros v r H. destruct r as [|c r]; auto. pose proof (proj2 (rest_ok (c :: r) ltac:(discriminate)) H) as E.
  destruct (find_first _ _ _); [discriminate E|reflexivity].
Qed.
Lemma read_number : forall s v, real_number s v -> (Qabs v < double_limit)%Q -> exists q, real_from_string s = Some (Num q) /\ (q == v)%Q.
Proof.
  intros s v (a & u & f & m & w & p & k & b & -> & A & B & Sg & M & P & E) L.
  apply mantissa_iff in M. destruct M as (dot & d1 & d2 & -> & N & A1 & A2 & Df & Ew).
  unfold real_from_string. rewrite (extract_number a u f dot d1 d2 p k b) by auto.
  assert (Ev : (number f d1 d2 k == v)%Q) by (rewrite (number_val u) by auto; rewrite E, Ew; reflexivity).
  assert (X : Qle_bool double_limit (mag (number f d1 d2 k)) = false).
  { destruct (Qle_bool _ _) eqn:Y; auto. exfalso. apply Qle_bool_iff in Y. rewrite mag_abs, Ev in Y. lra. }
  rewrite X. exists (number f d1 d2 k). split; auto. now apply read_white.
Qed.
(* what is read is a number *)
Lemma take_sign_inv : forall s neg r, take_sign s = (neg, r) -> exists u f, s = u ++ r /\ sign_text u f /\ neg = (f <? 0).
Proof.
  intros s neg r H. unfold take_sign in H. destruct s as [|c s].
  - injection H as <- <-. exists [], 1. split; auto. split; [now left|auto].
  - destruct (Ascii.eqb_spec c "-"%char) as [->|_]; [|destruct (Ascii.eqb_spec c "+"%char) as [->|_]]; injection H as <- <-.
    + exists ["-"%char], (-1). split; auto. split; [right; right; auto|auto].
    + exists ["+"%char], 1. split; auto. split; [right; left; auto|auto].
    + exists [], 1. split; auto. split; [now left|auto].
Qed.
Lemma extract_inv_real : forall s v r, extract_real s = (Some v, r) -> exists a u f m w p k, s = a ++ u ++ m ++ p ++ r /\
  made_of white_space a /\ sign_text u f /\ mantissa m w /\ power_text p k /\ (v == inject_Z f * w * 10 ^ k)%Q /\ (Qabs v < double_limit)%Q.
Proof.
  intros s v r H. unfold extract_real in H. destruct (skip_white_spec s) as (a & Ea & A & _).
  destruct (take_sign (skip_white s)) as [neg s1] eqn:T. apply take_sign_inv in T. destruct T as (u & f & Eu & Sg & ->).
  rewrite Eu in Ea. clear Eu. destruct (span_digits s1) as [d1 s2] eqn:S1. apply span_spec in S1. destruct S1 as (-> & A1 & _).
  assert (D : exists dot d2 s3, s2 = (if dot : bool then "."%char :: d2 else []) ++ s3 /\ all_digits d2 /\ (dot = false -> d2 = []) /\
     match s2 with [] => ([], s2) | c :: r => if Ascii.eqb c "."%char then span_digits r else ([], s2) end = (d2, s3)).
  { destruct s2 as [|c t]; [exists false, [], []; repeat split; auto; intros ? []|].
    destruct (Ascii.eqb_spec c "."%char) as [->|_].
    - destruct (span_digits t) as [d2 s3] eqn:S2. apply span_spec in S2. destruct S2 as (-> & A2 & _). exists true, d2, s3. repeat split; auto. discriminate.
    - exists false, [], (c :: t). repeat split; auto; intros ? []. }
  destruct D as (dot & d2 & s3 & E2 & A2 & Df & M). rewrite M in H. clear M.
  destruct (d1 ++ d2) as [|d0 dr] eqn:Ed; [discriminate|]. rewrite <- Ed in H. change digits_value with value in H. cbv zeta in H.
  assert (D : forall e0 s4, match s3 with
               | c :: r =>
                   if Ascii.eqb c "e"%char || Ascii.eqb c "E"%char then
                     let '(neg, r) := take_sign r in
                     let '(d3, r) := span_digits r in
                     (match d3 with [] => None | _ => Some (if neg then - value d3 else value d3) end, r)
                   else (Some 0, s3)
               | [] => (Some 0, s3)
               end = (Some e0, s4) -> exists p, s3 = p ++ s4 /\ power_text p e0).
  { intros e0 s4. destruct s3 as [|c t]; [intros X; injection X as <- <-; exists []; split; auto; now left|].
    destruct (Ascii.eqb c "e"%char || Ascii.eqb c "E"%char) eqn:Ec.
    - destruct (take_sign t) as [ng t1] eqn:T. apply take_sign_inv in T. destruct T as (su & g & -> & Sg' & ->).
      destruct (span_digits t1) as [d3 t2] eqn:S3. apply span_spec in S3. destruct S3 as (-> & A3 & _).
      destruct d3 as [|c3 d3]; [discriminate|]. intros X. injection X as <- <-. exists (c :: su ++ c3 :: d3).
      split; [cbn; now rewrite <- app_assoc|]. right. exists c, su, g, (c3 :: d3), (value (c3 :: d3)).
      split; auto. split; [apply Bool.orb_true_iff in Ec; destruct Ec as [X|X]; apply Ascii.eqb_eq in X; auto|]. split; auto.
      split; [apply writes_iff; split; [discriminate|auto]|].
      destruct Sg' as [[_ ->]|[[_ ->]|[_ ->]]]; cbn [Z.ltb Z.compare]; lia.
    - intros X. injection X as <- <-. exists []. split; auto. now left. }
  match type of H with (let '(e9, s9) := ?X in _) = _ => change X with (match s3 with
               | c :: r =>
                   if Ascii.eqb c "e"%char || Ascii.eqb c "E"%char then
                     let '(neg, r) := take_sign r in
                     let '(d3, r) := span_digits r in
                     (match d3 with [] => None | _ => Some (if neg then - value d3 else value d3) end, r)
                   else (Some 0, s3)
               | [] => (Some 0, s3)
               end) in H; destruct X as [[k|] s4] eqn:X1 end; [|discriminate].
  destruct (D k s4 eq_refl) as (p & -> & P). clear D X1. fold (number f d1 d2 k) in H. fold (mag (number f d1 d2 k)) in H.
  destruct (Qle_bool double_limit (mag (number f d1 d2 k))) eqn:L; [discriminate|]. injection H as <- <-.
  exists a, u, f, (dotted dot d1 d2), (inject_Z (value (d1 ++ d2)) * 10 ^ (- Z.of_nat (List.length d2)))%Q, p, k.
  split; [rewrite Ea, E2; unfold dotted; now rewrite <- !app_assoc|]. split; auto. split; auto. split.
  { apply mantissa_iff. exists dot, d1, d2. split; auto. split; [rewrite Ed; discriminate|]. repeat split; auto. }
  split; auto. split; [now apply (number_val u)|]. rewrite <- mag_abs. apply Qnot_le_lt. intros C. apply Qle_bool_iff in C. congruence.
Qed.
Lemma read_number_inv : forall s q, real_from_string s = Some (Num q) -> real_number s q /\ (Qabs q < double_limit)%Q.
Proof.
  intros s q H. unfold real_from_string in H. destruct (extract_real s) as [[v|] r] eqn:E.
  - destruct (extract_inv_real s v r E) as (a & u & f & m & w & p & k & -> & A & Sg & M & P & Ev & L).
    assert (X : v = q /\ made_of white_space r).
    { destruct r as [|c r]; [injection H as ->; split; auto; intros ? []|].
      pose proof (proj1 (rest_ok (c :: r) ltac:(discriminate))) as R. destruct (find_first _ _ _) eqn:F; [discriminate H|].
      injection H as ->. auto. }
    destruct X as [-> B]. split; auto. exists a, u, f, m, w, p, k, r. repeat split; auto.
  - destruct (fallback s); discriminate.
Qed.
(* the special texts are not numbers *)
Lemma upper_first : forall c, In (upper c) ["N"; "I"; "F"; "A"]%char -> is_digit c = false /\ c <> "."%char /\ c <> "+"%char /\ c <> "-"%char /\ ~ In c white_space.
Proof.
  intros c. destruct c as [[] [] [] [] [] [] [] []]; intros H; cbn in H; intuition; try discriminate; cbn in *; intuition discriminate.
Qed.
Lemma map_lit : forall s (l : list ascii), map upper s = l -> Forall2 (fun c x => upper c = x) s l.
Proof. induction s as [|c s IH]; intros [|x l] H; try discriminate; constructor; injection H; auto. Qed.
Lemma letter_fails : forall c r, In (upper c) ["N"; "I"; "F"; "A"]%char ->
  extract_real (c :: r) = (None, c :: r) /\ forall g, g = "+"%char \/ g = "-"%char -> extract_real (g :: c :: r) = (None, c :: r).
Proof.
  intros c r H. apply upper_first in H. destruct H as (D & P & Q1 & Q2 & W).
  assert (Sp : span_digits (c :: r) = ([], c :: r)) by (cbn; now rewrite D).
  assert (T : Ascii.eqb c "."%char = false) by now apply Ascii.eqb_neq.
  split.
  - unfold extract_real. rewrite skip_keep by auto. unfold take_sign.
    rewrite (proj2 (Ascii.eqb_neq c "-"%char)), (proj2 (Ascii.eqb_neq c "+"%char)) by auto. rewrite Sp, T. reflexivity.
  - intros g Hg. unfold extract_real. rewrite skip_keep by (destruct Hg; subst g; cbn; intuition discriminate).
    destruct Hg; subst g; cbn [take_sign Ascii.eqb Bool.eqb]; rewrite Sp, T; reflexivity.
Qed.
Lemma fallback_no_number : forall s x, fallback s = Some x -> exists r, extract_real s = (None, r).
Proof.
  intros s x H. unfold fallback in H. cbv zeta in H.
  assert (G : forall w, map upper s = lit' w ->
    match lit' w with
    | c :: _ => In c ["N"; "I"]%char \/ ((c = "+"%char \/ c = "-"%char) /\ exists c' r', lit' w = c :: c' :: r' /\ In c' ["N"; "I"]%char)
    | [] => False end -> exists r, extract_real s = (None, r)).
  { intros w E F. destruct s as [|c s]; [cbn in E; rewrite <- E in F; destruct F|]. cbn [map] in E. rewrite <- E in F.
    destruct F as [F|[F (c' & r' & E' & F')]].
    - exists (c :: s). apply letter_fails. cbn in *. tauto.
    - injection E' as E1. destruct s as [|c2 s]; [discriminate|]. injection E1 as E2 E3. exists (c2 :: s). apply letter_fails.
      + rewrite E2. cbn in *. tauto.
      + assert (U : forall z, In (upper c) [z] -> (z = "+"%char \/ z = "-"%char) -> c = z).
        { intros z Hz. destruct c as [[] [] [] [] [] [] [] []]; intros [->| ->]; cbn in Hz; intuition; discriminate. }
        destruct F as [F|F]; [left|right]; apply U; auto; rewrite F; now left. }
  repeat match type of H with
  | context [list_eq_dec ascii_dec (map upper s) (lit' ?w)] =>
      destruct (list_eq_dec ascii_dec (map upper s) (lit' w)) as [E|_];
      [apply (G w E); cbn; solve [auto | right; split; [auto|do 2 eexists; split; [reflexivity|cbn; auto]]]|]
  end. discriminate.
Qed.
Lemma read_special : forall s x, real_from_string s = Some (Special x) <-> fallback s = Some x.
Proof.
  intros s x. unfold real_from_string. split.
  - intros H. destruct (extract_real s) as [[v|] r].
    + destruct r as [|c r]; [discriminate|]. destruct (find_first _ _ _); discriminate.
    + destruct (fallback s); [|discriminate]. injection H as ->. reflexivity.
  - intros H. destruct (fallback_no_number s x H) as (r & E). rewrite E, H. reflexivity.
Qed.
