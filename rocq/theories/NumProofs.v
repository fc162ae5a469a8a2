From Coq Require Import Ascii String.
From Verif Require Import Base StrModel StrSpec StrProofs NumModel NumSpec.
Local Open Scope Z_scope.

Lemma digit_iff : forall c, is_digit c = true <-> exists k, figure c k.
Proof.
  intros c. split.
  - intros H. exists (Z.to_nat (digit_of c)). revert H.
    destruct c as [[] [] [] [] [] [] [] []]; vm_compute; auto; discriminate.
  - intros (k & H). unfold figure in H.
    do 10 (destruct k as [|k]; [injection H as <-; reflexivity|]). destruct k; discriminate.
Qed.
Lemma figure_digit : forall c k, figure c k -> digit_of c = Z.of_nat k.
Proof.
  intros c k H. unfold figure in H.
  do 10 (destruct k as [|k]; [injection H as <-; reflexivity|]). destruct k; discriminate.
Qed.
Lemma digit_range : forall c, is_digit c = true -> 0 <= digit_of c <= 9.
Proof. intros c H. unfold is_digit in H. apply andb_prop in H. destruct H as [H1 H2]. unfold digit_of. lia. Qed.
Lemma digit_not_white : forall c, is_digit c = true -> ~ In c white_space /\ c <> "-"%char /\ c <> "+"%char.
Proof.
  intros c H. repeat split; [intros I; cbn in I; intuition (subst; discriminate)| |]; intros ->; discriminate.
Qed.

Definition value (d : list ascii) : Z := fold_left (fun a c => 10 * a + digit_of c) d 0.
Definition all_digits (d : list ascii) : Prop := forall c, In c d -> is_digit c = true.
Lemma value_snoc : forall d c, value (d ++ [c]) = 10 * value d + digit_of c.
Proof. intros. unfold value. now rewrite fold_left_app. Qed.
Lemma writes_iff : forall d n, writes d n <-> d <> [] /\ all_digits d /\ n = value d.
Proof.
  intros d n. split.
  - intros H. induction H as [c k F|d n c k H (N & A & E) F].
    + split; [discriminate|]. split.
      * intros x [<-|[]]. apply digit_iff. eauto.
      * rewrite <- (figure_digit _ _ F). unfold value. cbn [fold_left]. lia.
    + split; [destruct d; discriminate|]. split.
      * intros x I. apply in_app_or in I. destruct I as [I|[<-|[]]]; auto. apply digit_iff. eauto.
      * rewrite value_snoc, (figure_digit _ _ F). lia.
  - intros (N & A & ->). induction d as [|c d IH] using rev_ind; [tauto|].
    assert (Dc : is_digit c = true) by (apply A, in_or_app; right; now left).
    apply digit_iff in Dc. destruct Dc as (k & F). rewrite value_snoc, (figure_digit _ _ F).
    destruct d as [|c0 d].
    + cbn [app]. replace (10 * value [] + Z.of_nat k) with (Z.of_nat k) by (unfold value; cbn [fold_left]; lia). now constructor.
    + constructor; auto. apply IH; [discriminate|]. intros x I. apply A, in_or_app. now left.
Qed.
Lemma value_nonneg : forall d, all_digits d -> 0 <= value d.
Proof.
  induction d as [|c d IH] using rev_ind; intros A; [unfold value; cbn; lia|]. rewrite value_snoc.
  assert (0 <= value d) by (apply IH; intros x I; apply A, in_or_app; now left).
  assert (0 <= digit_of c <= 9) by (apply digit_range, A, in_or_app; right; now left). lia.
Qed.
Lemma writes_nonneg : forall d n, writes d n -> 0 <= n.
Proof. intros d n H. apply writes_iff in H. destruct H as (_ & A & ->). now apply value_nonneg. Qed.

Lemma white_eq : white = white_space. Proof. reflexivity. Qed.
Lemma skip_white_spec : forall s, exists a, s = a ++ skip_white s /\ made_of white_space a /\
  (skip_white s = [] \/ exists c t, skip_white s = c :: t /\ ~ In c white_space).
Proof.
  induction s as [|c s IH]; cbn [skip_white].
  - exists []. split; auto. split; [intros ? []|auto].
  - destruct (has white c) eqn:E.
    + destruct IH as (a & E1 & A & H). exists (c :: a). split; [cbn; now f_equal|]. split; auto.
      intros x [<-|I]; auto. now apply has_In in E.
    + exists []. split; auto. split; [intros ? []|]. right. exists c, s. split; auto. now apply has_false in E.
Qed.
Lemma skip_made : forall a s, made_of white_space a -> skip_white (a ++ s) = skip_white s.
Proof.
  induction a as [|c a IH]; intros s H; auto. cbn [app skip_white].
  assert (E : has white c = true) by (apply has_In, H; now left). rewrite E. apply IH. intros x I. apply H. now right.
Qed.
Lemma skip_all : forall a, made_of white_space a -> skip_white a = [].
Proof. intros a H. rewrite <- (app_nil_r a), skip_made; auto. Qed.
Lemma skip_keep : forall c s, ~ In c white_space -> skip_white (c :: s) = c :: s.
Proof. intros c s N. cbn [skip_white]. apply has_false in N. rewrite <- white_eq in N. now rewrite N. Qed.
Lemma span_spec : forall s d r, span_digits s = (d, r) ->
  s = d ++ r /\ all_digits d /\ (r = [] \/ exists c t, r = c :: t /\ is_digit c = false).
Proof.
  induction s as [|c s IH]; intros d r H; cbn [span_digits] in H.
  - injection H as <- <-. split; auto. split; [intros ? []|auto].
  - destruct (is_digit c) eqn:E.
    + destruct (span_digits s) as [d' r']. injection H as <- <-. destruct (IH d' r' eq_refl) as (-> & A & R).
      split; auto. split; auto. intros x [<-|I]; auto.
    + injection H as <- <-. split; auto. split; [intros ? []|]. right. eauto.
Qed.
Lemma span_app : forall d b, all_digits d -> (b = [] \/ exists c t, b = c :: t /\ is_digit c = false) ->
  span_digits (d ++ b) = (d, b).
Proof.
  induction d as [|c d IH]; intros b A B; cbn [app].
  - destruct B as [->|(c & t & -> & E)]; auto. cbn. now rewrite E.
  - cbn [span_digits]. rewrite A by (now left). rewrite IH; auto. intros x I. apply A. now right.
Qed.
Lemma made_head : forall b, made_of white_space b -> b = [] \/ exists c t, b = c :: t /\ is_digit c = false.
Proof.
  intros [|c t] H; auto. right. exists c, t. split; auto.
  destruct (is_digit c) eqn:E; auto. apply digit_not_white in E. exfalso. apply (proj1 E), H. now left.
Qed.
(* what follows the number is accepted when it is white space *)
Lemma rest_ok : forall r, r <> [] ->
  match find_first (hasnt [" "; "009"]%char) (word (skip_white r)) (Some 0%nat) with None => true | Some _ => false end = true <->
  made_of white_space r.
Proof.
  intros r N. cbn [find_first skipn]. split.
  - intros H. destruct (skip_white_spec r) as (a & E & A & [Z|(c & t & Ec & Nc)]).
    + rewrite Z, app_nil_r in E. now subst r.
    + exfalso. rewrite Ec in H. cbn [word] in H. assert (Hc : has white c = false) by now apply has_false. rewrite Hc in H.
      cbn [first_at] in H. assert (X : hasnt [" "%char; "009"%char] c = true).
      { apply hasnt_In. intros [<-|[<-|[]]]; apply Nc; cbn; auto. }
      rewrite X in H. discriminate.
  - intros H. rewrite skip_all by auto. reflexivity.
Qed.

(* the number, its sign and the rest *)
Lemma extract_text : forall sg bits a u f d b t, made_of white_space a -> sign_text u f -> d <> [] -> all_digits d ->
  (b = [] \/ exists c r, b = c :: r /\ is_digit c = false) ->
  extract sg bits (a ++ u ++ d ++ b) t =
    let neg := f <? 0 in
    if (if neg && sg then - min_of sg bits else max_of sg bits) <? value d
    then (true, if neg && sg then min_of sg bits else max_of sg bits, b)
    else (false, if neg then (if sg then - value d else (- value d) mod 2 ^ bits) else value d, b).
Proof.
  intros sg bits a u f d b t A Sg N Ad B. unfold extract. rewrite skip_made by auto.
  destruct d as [|c d]; [tauto|].
  assert (Dc : is_digit c = true) by (apply Ad; now left). destruct (digit_not_white c Dc) as (W & M & P).
  destruct Sg as [[-> ->]|[[-> ->]|[-> ->]]]; cbn [app].
  - rewrite skip_keep by auto. cbv iota beta zeta.
    destruct (Ascii.eqb_spec c "-"%char); [contradiction|]. destruct (Ascii.eqb_spec c "+"%char); [contradiction|].
    change (c :: d ++ b) with ((c :: d) ++ b). rewrite span_app by auto. reflexivity.
  - rewrite skip_keep by (cbn; intuition discriminate).
    change (Ascii.eqb "+"%char "-"%char) with false. change (Ascii.eqb "+"%char "+"%char) with true. cbv iota beta zeta.
    change (c :: d ++ b) with ((c :: d) ++ b). rewrite span_app by auto. reflexivity.
  - rewrite skip_keep by (cbn; intuition discriminate).
    change (Ascii.eqb "-"%char "-"%char) with true. cbv iota beta zeta.
    change (c :: d ++ b) with ((c :: d) ++ b). rewrite span_app by auto. reflexivity.
Qed.
Lemma extract_inv : forall sg bits s t v r, extract sg bits s t = (false, v, r) ->
  exists a u f d, s = a ++ u ++ d ++ r /\ made_of white_space a /\ sign_text u f /\ d <> [] /\ all_digits d /\
    (r = [] \/ exists c t, r = c :: t /\ is_digit c = false).
Proof.
  intros sg bits s t v r H. unfold extract in H.
  destruct (skip_white_spec s) as (a & E & A & [Z|(c & w & Ec & Nc)]); [rewrite Z in H; discriminate|].
  rewrite Ec in H, E.
  assert (G : forall neg q, (let '(d, r) := span_digits q in
      let v := fold_left (fun a c => 10 * a + digit_of c) d 0 in
      let limit := if neg && sg then - min_of sg bits else max_of sg bits in
      match d with
      | [] => (true, 0, r)
      | _ => if limit <? v then (true, if neg && sg then min_of sg bits else max_of sg bits, r)
             else (false, if neg then (if sg then - v else (- v) mod 2 ^ bits) else v, r)
      end) = (false, v, r) -> exists d, q = d ++ r /\ d <> [] /\ all_digits d /\ (r = [] \/ exists c t, r = c :: t /\ is_digit c = false)).
  { intros neg q Hq. destruct (span_digits q) as [d r'] eqn:S. apply span_spec in S. destruct S as (-> & Ad & R).
    cbn zeta in Hq. destruct d as [|x d]; [discriminate|].
    destruct (_ <? _); [discriminate|]. injection Hq as _ <-. exists (x :: d). repeat split; auto. discriminate. }
  destruct (Ascii.eqb_spec c "-"%char) as [->|N1].
  - apply G in H. destruct H as (d & -> & Nd & Ad & R). exists a, ["-"%char], (-1), d. repeat split; auto. right. right. auto.
  - destruct (Ascii.eqb_spec c "+"%char) as [->|N2].
    + apply G in H. destruct H as (d & -> & Nd & Ad & R). exists a, ["+"%char], 1, d. repeat split; auto. right. left. auto.
    + apply (G false (c :: w)) in H. destruct H as (d & Eq & Nd & Ad & R). exists a, [], 1, d. repeat split; auto.
      * rewrite E, Eq. reflexivity. * left. auto.
Qed.

Lemma from_string_text : forall sg bits a u f d b t, made_of white_space a -> made_of white_space b -> sign_text u f ->
  d <> [] -> all_digits d ->
  from_string sg bits (a ++ u ++ d ++ b) t =
    let neg := f <? 0 in
    if (if neg && sg then - min_of sg bits else max_of sg bits) <? value d
    then (false, if neg && sg then min_of sg bits else max_of sg bits)
    else (true, if neg then (if sg then - value d else (- value d) mod 2 ^ bits) else value d).
Proof.
  intros sg bits a u f d b t A B Sg N Ad. unfold from_string.
  rewrite (extract_text sg bits a u f d b t A Sg N Ad (made_head b B)). cbn zeta.
  destruct (_ <? value d); auto. destruct b as [|c b]; auto. f_equal. apply rest_ok; auto. discriminate.
Qed.
Lemma from_string_inv : forall sg bits s t v, from_string sg bits s t = (true, v) ->
  exists a u f d b, s = a ++ u ++ d ++ b /\ made_of white_space a /\ made_of white_space b /\ sign_text u f /\ d <> [] /\ all_digits d.
Proof.
  intros sg bits s t v H. unfold from_string in H. destruct (extract sg bits s t) as [[fl v'] r] eqn:E.
  destruct fl; [discriminate|]. apply extract_inv in E. destruct E as (a & u & f & d & -> & A & Sg & N & Ad & R).
  exists a, u, f, d, r. repeat split; auto. destruct r as [|c r]; [intros ? []|]. injection H as H _.
  apply rest_ok; auto. discriminate.
Qed.

Ltac ltb_case :=
  match goal with
  | H : context[?a <? value ?d] |- _ => destruct (Z.ltb_spec a (value d))
  | |- context[?a <? value ?d] => destruct (Z.ltb_spec a (value d))
  end.
Lemma from_string_signed : forall bits s t x, 1 <= bits ->
  (from_string true bits s t = (true, x) <-> int_text s x /\ - 2 ^ (bits - 1) <= x <= 2 ^ (bits - 1) - 1).
Proof.
  intros bits s t x Hb. assert (P : 0 < 2 ^ (bits - 1)) by (apply Z.pow_pos_nonneg; lia). split.
  - intros H. destruct (from_string_inv _ _ _ _ _ H) as (a & u & f & d & b & -> & A & B & Sg & N & Ad).
    rewrite (from_string_text true bits a u f d b t A B Sg N Ad) in H. cbn zeta in H.
    pose proof (value_nonneg d Ad) as V0. unfold max_of, min_of in H.
    assert (W : writes d (value d)) by now apply writes_iff.
    destruct Sg as [[-> ->]|[[-> ->]|[-> ->]]]; cbn [Z.ltb Z.compare andb] in H;
      ltb_case; try discriminate; injection H as <-; (split; [|lia]).
    + exists a, [], 1, d, (value d), b. repeat split; auto; first [lia|left; auto].
    + exists a, ["+"%char], 1, d, (value d), b. repeat split; auto; first [lia|right; left; auto].
    + exists a, ["-"%char], (-1), d, (value d), b. repeat split; auto; first [lia|right; right; auto].
  - intros [(a & u & f & d & n & b & -> & A & B & Sg & W & ->) R].
    apply writes_iff in W. destruct W as (N & Ad & ->). pose proof (value_nonneg d Ad) as V0.
    rewrite (from_string_text true bits a u f d b t A B Sg N Ad). cbn zeta. unfold max_of, min_of.
    destruct Sg as [[-> ->]|[[-> ->]|[-> ->]]]; cbn [Z.ltb Z.compare andb];
      ltb_case; try lia; f_equal; lia.
Qed.
Lemma from_string_unsigned : forall bits s t x, 0 <= bits ->
  (from_string false bits s t = (true, x) <-> exists y, int_text s y /\ Z.abs y <= 2 ^ bits - 1 /\ x = y mod 2 ^ bits).
Proof.
  intros bits s t x Hb. assert (P : 0 < 2 ^ bits) by (apply Z.pow_pos_nonneg; lia). split.
  - intros H. destruct (from_string_inv _ _ _ _ _ H) as (a & u & f & d & b & -> & A & B & Sg & N & Ad).
    rewrite (from_string_text false bits a u f d b t A B Sg N Ad) in H. cbn zeta in H.
    pose proof (value_nonneg d Ad) as V0. unfold max_of, min_of in H. rewrite Bool.andb_false_r in H.
    assert (W : writes d (value d)) by now apply writes_iff.
    destruct (Z.ltb_spec (2 ^ bits - 1) (value d)); try discriminate.
    destruct Sg as [[-> ->]|[[-> ->]|[-> ->]]]; cbn [Z.ltb Z.compare] in H; injection H as <-.
    + exists (value d). split; [exists a, [], 1, d, (value d), b; repeat split; auto; first [lia|left; auto]|]. split; [lia|].
      symmetry. apply Z.mod_small. lia.
    + exists (value d). split; [exists a, ["+"%char], 1, d, (value d), b; repeat split; auto; first [lia|right; left; auto]|]. split; [lia|].
      symmetry. apply Z.mod_small. lia.
    + exists (- value d). split; [exists a, ["-"%char], (-1), d, (value d), b; repeat split; auto; first [lia|right; right; auto]|]. split; [lia|auto].
  - intros (y & (a & u & f & d & n & b & -> & A & B & Sg & W & ->) & R & ->).
    apply writes_iff in W. destruct W as (N & Ad & ->). pose proof (value_nonneg d Ad) as V0.
    rewrite (from_string_text false bits a u f d b t A B Sg N Ad). cbn zeta. unfold max_of, min_of. rewrite Bool.andb_false_r.
    assert (Z.abs (value d) <= 2 ^ bits - 1).
    { destruct Sg as [[_ ->]|[[_ ->]|[_ ->]]]; lia. }
    destruct (Z.ltb_spec (2 ^ bits - 1) (value d)); [lia|].
    destruct Sg as [[_ ->]|[[_ ->]|[_ ->]]]; cbn [Z.ltb Z.compare]; apply f_equal.
    + rewrite Z.mod_small; lia.
    + rewrite Z.mod_small; lia.
    + apply (f_equal (fun z => z mod 2 ^ bits)). lia.
Qed.
Lemma from_string_blank : forall sg bits s t, made_of white_space s -> from_string sg bits s t = (false, t).
Proof. intros sg bits s t H. unfold from_string, extract. now rewrite skip_all. Qed.
Lemma from_string_range : forall bits s t x, 1 <= bits -> int_text s x ->
  (2 ^ (bits - 1) - 1 < x -> from_string true bits s t = (false, 2 ^ (bits - 1) - 1)) /\
  (x < - 2 ^ (bits - 1) -> from_string true bits s t = (false, - 2 ^ (bits - 1))).
Proof.
  intros bits s t x Hb (a & u & f & d & n & b & -> & A & B & Sg & W & ->).
  assert (P : 0 < 2 ^ (bits - 1)) by (apply Z.pow_pos_nonneg; lia).
  apply writes_iff in W. destruct W as (N & Ad & ->). pose proof (value_nonneg d Ad) as V0.
  rewrite (from_string_text true bits a u f d b t A B Sg N Ad). cbn zeta. unfold max_of, min_of.
  destruct Sg as [[_ ->]|[[_ ->]|[_ ->]]]; cbn [Z.ltb Z.compare andb]; split; intros R;
    ltb_case; try lia; auto.
Qed.

(* --- to_string --------------------------------------------------------------------------- *)
Lemma figure_char : forall k, 0 <= k <= 9 -> figure (ascii_of_N (Z.to_N (48 + k))) (Z.to_nat k) /\
   digit_of (ascii_of_N (Z.to_N (48 + k))) = k.
Proof.
  intros k H. assert (E : figure (ascii_of_N (Z.to_N (48 + k))) (Z.to_nat k)).
  { assert (k = 0 \/ k = 1 \/ k = 2 \/ k = 3 \/ k = 4 \/ k = 5 \/ k = 6 \/ k = 7 \/ k = 8 \/ k = 9) as K by lia.
    decompose [or] K; subst k; reflexivity. }
  split; auto. rewrite (figure_digit _ _ E). lia.
Qed.
Lemma digits_spec : forall fuel n acc, 0 <= n < 10 ^ Z.of_nat fuel -> (1 <= fuel)%nat ->
  exists d, digits fuel n acc = d ++ acc /\ d <> [] /\ all_digits d /\ value d = n /\ shortest d.
Proof.
  induction fuel as [|fuel IH]; intros n acc Hn Hf; [lia|]. cbn [digits].
  assert (M : 0 <= n mod 10 <= 9) by (pose proof (Z.mod_pos_bound n 10); lia).
  destruct (figure_char _ M) as [F D]. set (c := ascii_of_N (Z.to_N (48 + n mod 10))) in *.
  assert (Dc : is_digit c = true) by (apply digit_iff; eauto).
  destruct (Z.ltb_spec n 10).
  - exists [c]. split; auto. split; [discriminate|]. split; [intros x [<-|[]]; auto|].
    rewrite Z.mod_small in D by lia. split; [unfold value; cbn [fold_left]; lia|].
    destruct (Z.eq_dec n 0) as [->|Nz]; [left; reflexivity|].
    right. exists c, []. split; auto. intros Ec. rewrite Ec in D. change (digit_of "0"%char) with 0 in D. lia.
  - destruct (IH (n / 10) (c :: acc)) as (d & E & Nd & Ad & V & Sh).
    + rewrite Nat2Z.inj_succ, Z.pow_succ_r in Hn by lia. split; [apply Z.div_pos; lia|apply Z.div_lt_upper_bound; lia].
    + destruct fuel; [|lia]. rewrite Nat2Z.inj_succ, Z.pow_succ_r in Hn by lia. change (Z.of_nat 0) with 0 in Hn. lia.
    + exists (d ++ [c]). split; [now rewrite <- app_assoc|]. split; [destruct d; discriminate|]. split; [|split].
      * intros x I. apply in_app_or in I. destruct I as [I|[<-|[]]]; auto.
      * rewrite value_snoc, V, D. symmetry. apply Z.div_mod. lia.
      * destruct Sh as [->|(c0 & r & -> & N0)].
        -- exfalso. unfold value in V. cbn in V. assert (n / 10 >= 1); [|lia]. apply Z.le_ge, Z.div_le_lower_bound; lia.
        -- right. exists c0, (r ++ [c]). auto.
Qed.
Lemma fuel_ok : forall n, 0 <= n -> n < 10 ^ Z.of_nat (S (Z.to_nat (Z.log2 n))).
Proof.
  intros n H. rewrite Nat2Z.inj_succ, Z2Nat.id by apply Z.log2_nonneg.
  destruct (Z.eq_dec n 0) as [->|N]; [reflexivity|].
  apply Z.lt_le_trans with (2 ^ Z.succ (Z.log2 n)); [apply Z.log2_spec; lia|].
  apply Z.pow_le_mono_l. pose proof (Z.log2_nonneg n). lia.
Qed.
Lemma to_string_spec : forall x, exists d, writes d (Z.abs x) /\ shortest d /\
  to_string x = (if x <? 0 then ["-"%char] else []) ++ d.
Proof.
  intros x. destruct (digits_spec (S (Z.to_nat (Z.log2 (Z.abs x)))) (Z.abs x) []) as (d & E & N & A & V & Sh).
  - split; [lia|apply fuel_ok; lia].
  - lia.
  - exists d. split; [apply writes_iff; auto|]. split; auto. unfold to_string. rewrite E, app_nil_r.
    destruct (x <? 0); reflexivity.
Qed.
Lemma to_string_text : forall x, int_text (to_string x) x.
Proof.
  intros x. destruct (to_string_spec x) as (d & W & _ & ->).
  destruct (Z.ltb_spec x 0).
  - exists [], ["-"%char], (-1), d, (Z.abs x), []. rewrite app_nil_r. repeat split; auto; try (intros ? []); first [lia|right; right; auto].
  - exists [], [], 1, d, (Z.abs x), []. rewrite app_nil_r. repeat split; auto; try (intros ? []); first [lia|left; auto].
Qed.

(* --- special values ------------------------------------------------------------------------- *)
Lemma upper_small : forall k a b, nth_error small k = Some a -> nth_error capital k = Some b -> upper a = b /\ upper b = b.
Proof.
  intros k a b. do 26 (destruct k as [|k]; [intros [= <-] [= <-]; split; reflexivity|]). destruct k; discriminate.
Qed.
Lemma upper_same : forall a b, same_letter a b <-> upper a = upper b.
Proof.
  intros a b. split.
  - intros [->|(k & [[A B]|[A B]])]; auto; destruct (upper_small _ _ _ A B); congruence.
  - intros E. assert (G : forall c, upper c = c \/ exists k, nth_error small k = Some c /\ nth_error capital k = Some (upper c)).
    { intros c. destruct (in_dec ascii_dec c small) as [I|N].
      - right. apply In_nth_error in I. destruct I as (k & I). exists k. split; auto.
        assert (L : (k < 26)%nat) by (change 26%nat with (length small); apply nth_error_Some; congruence).
        destruct (nth_error capital k) as [b'|] eqn:B.
        + f_equal. symmetry. now apply (upper_small k).
        + apply nth_error_None in B. change (length capital) with 26%nat in B. lia.
      - left. unfold upper. destruct ((97 <=? Z.of_N (N_of_ascii c)) && (Z.of_N (N_of_ascii c) <=? 122)) eqn:R; auto.
        exfalso. apply N. revert R. clear. destruct c as [[] [] [] [] [] [] [] []]; vm_compute; intros R; try discriminate;
          repeat first [left; reflexivity | right]. }
    destruct (G a) as [Ea|(k & Ka & Ka')], (G b) as [Eb|(m & Kb & Kb')].
    + left. congruence.
    + right. exists m. right. split; auto. congruence.
    + right. exists k. left. split; auto. congruence.
    + left. rewrite E in Ka'. assert (k = m); [|congruence].
      assert (ND : NoDup capital) by (vm_compute; repeat constructor; cbn; intuition discriminate).
      apply (proj1 (NoDup_nth_error capital) ND); [apply nth_error_Some; congruence|congruence].
Qed.
Lemma upper_word : forall u v, same_word u v <-> map upper u = map upper v.
Proof.
  intros u v. split.
  - intros H. induction H; cbn; auto. f_equal; auto. now apply upper_same.
  - revert v. induction u as [|a u IH]; intros [|b v] H; cbn in H; try discriminate; constructor.
    + apply upper_same. now injection H.
    + apply IH. now injection H.
Qed.
