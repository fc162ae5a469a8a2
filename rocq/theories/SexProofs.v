From Coq Require Import Ascii String QArith Qpower Qround Qabs Lqa.
From Verif Require Import Base StrModel StrSpec StrProofs StrProofs2 NumModel NumSpec NumProofs TimeModel TimeSpec TimeProofs
  RealModel RealSpec RealProofs RealProofs2 RealProofs3 RealProofs4 ArgvModel RealProperties SexModel SexSpec.
Local Open Scope Z_scope.

(* --- the three fields ------------------------------------------------------------------ *)
Lemma occurs_char : forall c s, occurs [c] s <-> In c s.
Proof.
  intros c s. split.
  - intros (i & a & b & -> & _). apply in_or_app. right. now left.
  - intros H. apply in_split in H. destruct H as (a & b & ->). exists (List.length a), a, b. auto.
Qed.
Lemma first_char : forall c a b i, ~ In c a -> occurs_at [c] (a ++ [c] ++ b) i -> (List.length a <= i)%nat.
Proof.
  intros c a b i N (u & v & E & <-). destruct (Nat.le_gt_cases (List.length a) (List.length u)) as [|L]; auto. exfalso.
  apply N. assert (X : nth_error (a ++ [c] ++ b) (List.length u) = Some c) by (rewrite E, nth_error_app2, Nat.sub_diag; auto).
  rewrite nth_error_app1 in X by auto. eapply nth_error_In; eauto.
Qed.
Lemma split_three : forall s a b c, three s a b c -> split s [":"%char] = Ok [a; b; c].
Proof.
  intros s a b c (-> & A & B & C). destruct (split_ok (a ++ ":"%char :: b ++ ":"%char :: c) [":"%char]) as (w & E & W); [discriminate|].
  rewrite E. f_equal. eapply cut_fun; eauto. change (a ++ ":"%char :: b ++ ":"%char :: c) with (a ++ [":"%char] ++ (b ++ [":"%char] ++ c)).
  apply cut_first; [intros i; now apply first_char|]. apply cut_first; [intros i; now apply first_char|]. apply cut_none. now rewrite occurs_char.
Qed.
Lemma split_three_inv : forall s a b c, split s [":"%char] = Ok [a; b; c] -> three s a b c.
Proof.
  intros s a b c H. destruct (split_ok s [":"%char]) as (w & E & W); [discriminate|]. rewrite E in H. injection H as ->.
  assert (P : forall x, In x [a; b; c] -> ~ In ":"%char x).
  { intros x I. rewrite <- occurs_char. eapply cut_pieces; eauto. discriminate. }
  split; [|repeat split; apply P; cbn; auto]. inversion W as [|? t ? _ W1]; subst. inversion W1 as [|? t1 ? _ W2]; subst. inversion W2 as [|? ? ? _ W3]; subst; [reflexivity|inversion W3].
Qed.
(* --- reading ------------------------------------------------------------------------------ *)
Lemma read_three_some : forall a b c, (exists p, read_three a b c = Some p) <->
  (exists h, int_text a h /\ int64 h) /\ (exists m, int_text b m /\ int64 m) /\ double_text c.
Proof.
  intros a b c. unfold read_three.
  assert (I : forall s, (exists h, int_text s h /\ int64 h) <-> fst (from_string true 64 s 0) = true).
  { intros s. destruct (from_string true 64 s 0) as [r h] eqn:E. cbn [fst]. split.
    - intros (h' & T & B). assert (X : from_string true 64 s 0 = (true, h')) by (apply from_string_signed; [lia|split; auto]). congruence.
    - intros ->. apply from_string_signed in E; [|lia]. exists h. exact E. }
  assert (D : double_text c <-> real_from_string c <> None).
  { unfold double_text. split.
    - intros [(v & R & L)|(w & I1 & S0)].
      + destruct (read_number c v R L) as (q & E & _). rewrite E. discriminate.
      + assert (X : exists x, real_from_string c = Some (Special x)).
        { cbn in I1. decompose [or] I1; subst; try contradiction;
            [exists NaN|exists NaN|exists NaN|exists PlusInf|exists PlusInf|exists PlusInf|exists MinusInf|exists MinusInf];
            apply C82_special; eexists; (split; [exact S0|cbn; auto]). }
        destruct X as (x & ->). discriminate.
    - intros N. destruct (real_from_string c) as [[q|x]|] eqn:E; [left|right|tauto].
      + apply read_number_inv in E. exists q. exact E.
      + apply C82_special in E. destruct E as (w & S0 & W). exists w. split; [|exact S0]. destruct x; decompose [or] W; subst w; cbn; tauto. }
  rewrite !I, D. destruct (from_string true 64 a 0) as [b1 h]. destruct (from_string true 64 b 0) as [b2 m]. cbn [fst].
  destruct b1, b2; cbn [andb]; try (split; [intros (? & ?); discriminate|intros (? & ? & ?); discriminate]).
  destruct (real_from_string c); split; try (intros (? & ?); discriminate); try tauto.
  - intros _. repeat split; auto. discriminate.
  - intros _. eexists. reflexivity.
Qed.
Lemma sex2deg_total : forall sra sdec, exists b ra dec, sex2deg sra sdec = Ok (b, ra, dec) /\
  (b = true <-> well_formed sra /\ well_formed sdec) /\ (b = false -> ra = None /\ dec = None).
Proof.
  intros sra sdec. unfold sex2deg.
  destruct (split_ok sra [":"%char]) as (w1 & E1 & _); [discriminate|]. destruct (split_ok sdec [":"%char]) as (w2 & E2 & _); [discriminate|].
  rewrite E1, E2. cbn [obind].
  assert (F : forall s w, split s [":"%char] = Ok w -> well_formed s -> exists a b c p, w = [a; b; c] /\ read_three a b c = Some p).
  { intros s w E (a & b & c & T & H). rewrite (split_three s a b c T) in E. injection E as <-. apply read_three_some in H. destruct H as (p & H). eauto 8. }
  assert (G : forall s a b c p, split s [":"%char] = Ok [a; b; c] -> read_three a b c = Some p -> well_formed s).
  { intros s a b c p E H. exists a, b, c. split; [now apply split_three_inv|]. apply read_three_some. eauto. }
  assert (Fail : ~ (well_formed sra /\ well_formed sdec) -> exists b (ra dec : option Q), Ok (false, None, None) = Ok (b, ra, dec) /\
    (b = true <-> well_formed sra /\ well_formed sdec) /\ (b = false -> ra = None /\ dec = None)).
  { intros N. exists false, None, None. split; auto. split; [|auto]. split; [discriminate|tauto]. }
  assert (N1 : ~ (exists a b c p, w1 = [a; b; c] /\ read_three a b c = Some p) -> ~ (well_formed sra /\ well_formed sdec)).
  { intros N [A _]. apply N. eapply F; eauto. }
  assert (N2 : ~ (exists a b c p, w2 = [a; b; c] /\ read_three a b c = Some p) -> ~ (well_formed sra /\ well_formed sdec)).
  { intros N [_ A]. apply N. eapply F; eauto. }
  destruct w1 as [|h1 [|m1 [|s1 [|? ?]]]]; try (apply Fail, N1; intros (? & ? & ? & ? & X & _); discriminate).
  destruct w2 as [|h2 [|m2 [|s2 [|? ?]]]]; try (apply Fail, N2; intros (? & ? & ? & ? & X & _); discriminate).
  destruct (read_three h1 m1 s1) as [p1|] eqn:R1; [|apply Fail, N1; intros (? & ? & ? & ? & X & Y); injection X as <- <- <-; congruence].
  destruct (read_three h2 m2 s2) as [p2|] eqn:R2; [|apply Fail, N2; intros (? & ? & ? & ? & X & Y); injection X as <- <- <-; congruence].
  do 3 eexists. split; [reflexivity|]. split; [|discriminate]. split; auto. intros _. split; eapply G; eauto.
Qed.
(* the value *)
Lemma digits_colon : forall d, all_digits d -> ~ In ":"%char d.
Proof. intros d A I. apply A in I. discriminate I. Qed.
Lemma mantissa_colon : forall s v, mantissa s v -> ~ In ":"%char s.
Proof.
  intros s v M. apply mantissa_iff in M. destruct M as (dot & d & f & -> & _ & A & F & _). unfold dotted. intros I.
  apply in_app_or in I. destruct I as [I|I]; [now apply (digits_colon d)|]. destruct dot; [|destruct I].
  destruct I as [I|I]; [discriminate|now apply (digits_colon f)].
Qed.
Lemma sexagesimal_three : forall s neg h m sec, sexagesimal s neg h m sec -> exists a b c,
  three s a b c /\ int_text a ((if neg then -1 else 1) * h) /\ int_text b m /\ mantissa c sec /\ 0 <= h /\ 0 <= m.
Proof.
  intros s neg h m sec (dh & dm & ds & -> & Wh & Wm & M). exists ((if neg then ["-"%char] else []) ++ dh), dm, ds.
  split; [|split; [|split; [|split; auto]]].
  - split; [now rewrite <- app_assoc|]. apply writes_iff in Wh, Wm. destruct Wh as (_ & Ah & _), Wm as (_ & Am & _).
    split; [|split; [now apply digits_colon|now apply mantissa_colon in M]]. intros I. apply in_app_or in I.
    destruct I as [I|I]; [destruct neg; [destruct I as [I|[]]; discriminate|destruct I]|now apply (digits_colon dh)].
  - exists [], (if neg then ["-"%char] else []), (if neg then -1 else 1), dh, h, []. rewrite app_nil_r. split; auto.
    split; [intros ? []|]. split; [intros ? []|]. split; [destruct neg; [right; right|left]; auto|]. auto.
  - exists [], [], 1, dm, m, []. rewrite app_nil_r. split; auto. split; [intros ? []|]. split; [intros ? []|]. split; [left; auto|].
    split; auto. lia.
  - split; eapply writes_nonneg; eauto.
Qed.
Lemma mantissa_number : forall s v, mantissa s v -> real_number s v.
Proof.
  intros s v M. exists [], [], 1, s, v, [], 0, []. rewrite !app_nil_r. split; auto. split; [intros ? []|]. split; [intros ? []|].
  split; [now left|]. split; auto. split; [now left|]. cbn. ring.
Qed.
Lemma read_sexagesimal : forall s neg h m sec, sexagesimal s neg h m sec -> int64 ((if neg then -1 else 1) * h) -> int64 m ->
  (Qabs sec < double_limit)%Q -> exists a b c p v, split s [":"%char] = Ok [a; b; c] /\ read_three a b c = Some p /\ hours p = Some v /\
  (v == sex_value (neg && negb (h =? 0)) h m sec)%Q.
Proof.
  intros s neg h m sec H Ih Im L. destruct (sexagesimal_three s neg h m sec H) as (a & b & c & T & A & B & C & Ph & Pm).
  destruct (read_number c sec (mantissa_number _ _ C) L) as (q & Rq & Eq).
  exists a, b, c, ((if neg then -1 else 1) * h, m, Some q). eexists. split; [now apply split_three|]. split.
  { unfold read_three. assert (X : from_string true 64 a 0 = (true, (if neg then -1 else 1) * h)) by (apply from_string_signed; [lia|split; auto]).
    assert (Y : from_string true 64 b 0 = (true, m)) by (apply from_string_signed; [lia|split; auto]).
    rewrite X, Y, Rq. reflexivity. }
  cbn [hours option_map]. split; [reflexivity|]. rewrite Eq. unfold sex_value.
  assert (Sg : signQ (inject_Z ((if neg then -1 else 1) * h)) = if neg && negb (h =? 0) then -1 else 1).
  { unfold signQ. destruct (Qle_bool 0 _) eqn:E.
    - apply Qle_bool_iff in E. change 0%Q with (inject_Z 0) in E. rewrite <- Zle_Qle in E.
      destruct neg; auto. destruct (Z.eqb_spec h 0); auto. lia.
    - assert (N : ~ (0 <= inject_Z ((if neg then -1 else 1) * h))%Q) by (intros X; apply Qle_bool_iff in X; congruence).
      change 0%Q with (inject_Z 0) in N. rewrite <- Zle_Qle in N. destruct neg; [|lia]. destruct (Z.eqb_spec h 0); [lia|auto]. }
  rewrite Sg. destruct neg; cbn [andb].
  - destruct (Z.eqb_spec h 0) as [->|N]; cbn [negb]; rewrite !inject_Z_mult; unfold Qdiv; [change (inject_Z (-1)) with (-(1))%Q; change (inject_Z 0) with 0%Q; change (inject_Z 1) with 1%Q; ring|].
    change (inject_Z (-1)) with (-(1))%Q. ring.
  - rewrite !inject_Z_mult. change (inject_Z 1) with 1%Q. unfold Qdiv. ring.
Qed.
