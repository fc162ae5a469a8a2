(* Proofs about the axes and the conversions of astro::wcs. *)
From Coq Require Import Ascii String QArith Qcanon.
From Verif Require Import Base StrModel StrSpec StrProofs AstwModel AstwSpec.
From Verif Require TblModel KeySpec KeyProofs.
Local Open Scope list_scope.
Local Open Scope nat_scope.
Notation length := List.length.

Lemma same_text_iff a b : same_text a b = true <-> a = b.
Proof. unfold same_text. destruct (list_eq_dec ascii_dec a b); split; intros; try congruence; discriminate. Qed.
Lemma same_text_false a b : same_text a b = false <-> a <> b.
Proof. unfold same_text. destruct (list_eq_dec ascii_dec a b); split; intros; try congruence; discriminate. Qed.
Lemma occurs1 (c : ascii) s : occurs [c] s <-> In c s.
Proof.
  unfold occurs, occurs_at. split.
  - intros (k & a & b & -> & _). apply in_or_app. right. left. reflexivity.
  - intros I. apply in_split in I. destruct I as (a & b & ->). exists (length a), a, b. auto.
Qed.
Lemma first_word_ok s : exists t, first_word s = Ok t /\ kind_of s t.
Proof.
  unfold first_word. destruct (split_ok s (lit "-")) as (l & -> & C); [discriminate|]. cbn [obind].
  inversion C as [s' N|a b l' F C' E]; subst; cbn [oget nth_error].
  - exists s. split; [reflexivity|]. split; [|left; reflexivity]. intros I. apply N. apply occurs1. exact I.
  - exists a. split; [reflexivity|]. split; [|right; exists b; reflexivity].
    intros I. apply in_split in I. destruct I as (x & y & ->). assert (L : length (x ++ "-"%char :: y) <= length x).
    { apply F. exists x, (y ++ "-"%char :: b). split; [now rewrite <- !app_assoc|reflexivity]. }
    rewrite app_length in L. cbn [length] in L. lia.
Qed.
Lemma kind_fun s t t' : kind_of s t -> kind_of s t' -> t = t'.
Proof.
  intros [N [->|(r & ->)]] [N' E].
  - destruct E as [->|(r & ->)]; [reflexivity|]. destruct N. apply in_or_app. right. left. reflexivity.
  - destruct E as [<-|(r' & E)]; [destruct N'; apply in_or_app; right; left; reflexivity|].
    now destruct (KeyProofs.first_split _ _ _ _ _ N N' E).
Qed.
Lemma axis_word p f : f < naxis p -> exists c t, nth_error (ctype p) f = Some c /\ first_word c = Ok t /\ forall u, axis_is p f u <-> t = u.
Proof.
  intros L. destruct (nth_error (ctype p) f) as [c|] eqn:E; [|apply nth_error_None in E; unfold naxis in L; lia].
  destruct (first_word_ok c) as (t & W & K). exists c, t. split; [reflexivity|]. split; [exact W|]. intros u. split.
  - intros (s & S & K'). rewrite E in S. injection S as <-. now apply (kind_fun c).
  - intros <-. exists c. auto.
Qed.
Lemma oget_some {A} (l : list A) i x : nth_error l i = Some x -> oget l i = Ok x.
Proof. unfold oget. now intros ->. Qed.
Lemma find_loop_ok p name : forall k s, s + k = naxis p ->
  (find_loop p name (seq s k) = Ok npos /\ forall f, s <= f < naxis p -> ~ axis_is p f (TblModel.to_upper name)) \/
  exists f, s <= f < naxis p /\ find_loop p name (seq s k) = Ok (Z.of_nat (naxis p - 1 - f)) /\ axis_is p f (TblModel.to_upper name) /\
    forall g, s <= g < f -> ~ axis_is p g (TblModel.to_upper name).
Proof.
  induction k as [|k IH]; intros s E; cbn [seq find_loop].
  - left. split; [reflexivity|]. intros f F. lia.
  - destruct (axis_word p s) as (c & t & C & W & U); [lia|]. rewrite (oget_some _ _ _ C). cbn [obind]. rewrite W. cbn [obind].
    destruct (same_text t (TblModel.to_upper name)) eqn:T.
    + apply same_text_iff in T. right. exists s. split; [lia|]. split; [reflexivity|]. split; [now apply U|]. intros g G. lia.
    + apply same_text_false in T. destruct (IH (S s)) as [(H & N)|(f & F & H & A & N)]; [lia| |].
      * left. split; [exact H|]. intros f F. destruct (Nat.eq_dec f s) as [->|]; [rewrite U; exact T|apply N; lia].
      * right. exists f. split; [lia|]. split; [exact H|]. split; [exact A|]. intros g G. destruct (Nat.eq_dec g s) as [->|]; [rewrite U; exact T|apply N; lia].
Qed.
Lemma axis_in p f t : axis_is p f t -> f < naxis p.
Proof. intros (s & E & _). apply nth_error_Some. congruence. Qed.
Lemma find_axis_some p name f : first_axis p (TblModel.to_upper name) f -> find_axis p name = Ok (Z.of_nat (naxis p - 1 - f)).
Proof.
  intros [A N]. unfold find_axis. destruct (find_loop_ok p name (naxis p) 0 eq_refl) as [(_ & H)|(g & G & E & A' & N')].
  - destruct (H f); [split; [lia|now apply axis_in in A]|exact A].
  - assert (f = g); [|now subst]. destruct (Nat.lt_trichotomy f g) as [L|[L|L]]; [|exact L|].
    + destruct (N' f); [lia|exact A].
    + destruct (N g L A').
Qed.
Lemma find_axis_none p name : (forall f, ~ axis_is p f (TblModel.to_upper name)) -> find_axis p name = Ok npos.
Proof.
  intros N. unfold find_axis. destruct (find_loop_ok p name (naxis p) 0 eq_refl) as [(E & _)|(g & _ & _ & A & _)]; [exact E|].
  destruct (N g A).
Qed.
Lemma upper_ra : TblModel.to_upper (lit "RA") = word "RA". Proof. reflexivity. Qed.
Lemma upper_dec : TblModel.to_upper (lit "DEC") = word "DEC". Proof. reflexivity. Qed.

(* filling an array backwards *)
Lemma fill {A} (st : list A -> nat -> outcome (list A)) (d0 : A) (R : nat -> A -> Prop) n :
  (forall l i, i < n -> length l = n -> nth_error l (n - 1 - i) = Some d0 ->
    exists l' x, st l i = Ok l' /\ length l' = n /\ nth_error l' (n - 1 - i) = Some x /\ R i x /\ forall k, k <> n - 1 - i -> nth_error l' k = nth_error l k) ->
  exists r, ofold st (seq 0 n) (repeat d0 n) = Ok r /\ length r = n /\ forall i, i < n -> exists x, nth_error r (n - 1 - i) = Some x /\ R i x.
Proof.
  intros H. assert (G : forall m, m <= n -> exists r, ofold st (seq 0 m) (repeat d0 n) = Ok r /\ length r = n /\
    (forall i, i < m -> exists x, nth_error r (n - 1 - i) = Some x /\ R i x) /\ forall k, k < n - m -> nth_error r k = Some d0).
  { induction m as [|m IH]; intros L.
    - exists (repeat d0 n). split; [reflexivity|]. split; [apply repeat_length|]. split; [intros i I; lia|]. intros k K.
      rewrite Nat.sub_0_r in K. clear - K. revert k K. induction n as [|n IH]; intros [|k] K; cbn; try lia; [reflexivity|]. apply IH. lia.
    - destruct IH as (r & E & Lr & F & Z); [lia|]. destruct (H r m) as (r' & x & E' & Lr' & X & Rx & O); [lia|exact Lr|apply Z; lia|].
      exists r'. rewrite seq_S, ofold_app, E. cbn [obind ofold Nat.add]. rewrite E'. cbn [obind]. split; [reflexivity|]. split; [exact Lr'|]. split.
      + intros i I. destruct (Nat.eq_dec i m) as [->|]; [exists x; auto|]. rewrite O by lia. apply F. lia.
      + intros k K. rewrite O by lia. apply Z. lia. }
  destruct (G n) as (r & E & L & F & _); [lia|]. exists r. auto.
Qed.
Lemma set_step {A} (l : list A) n i x : i < n -> length l = n ->
  oset l (n - 1 - i) x = Ok (upd l (n - 1 - i) x) /\ length (upd l (n - 1 - i) x) = n /\ nth_error (upd l (n - 1 - i) x) (n - 1 - i) = Some x /\
  forall k, k <> n - 1 - i -> nth_error (upd l (n - 1 - i) x) k = nth_error l k.
Proof.
  intros I L. split; [|split; [|split]].
  - unfold oset. rewrite (proj2 (Nat.ltb_lt _ _)) by lia. reflexivity.
  - now rewrite upd_length.
  - apply nth_error_upd_same. lia.
  - intros k K. now apply nth_error_upd_other.
Qed.
Lemma dims_ok p key : exists r, read_dims p key = Ok r /\ length r = naxis p /\
  forall i, i < naxis p -> exists x, nth_error r (naxis p - 1 - i) = Some x /\ x = match key (i + 1) with Some d => d | None => 0%Z end.
Proof.
  unfold read_dims. apply fill. intros l i I L Z. destruct (key (i + 1)) as [d|].
  - destruct (set_step l (naxis p) i d I L) as (A & B & C & D). exists (upd l (naxis p - 1 - i) d), d. auto.
  - exists l, 0%Z. auto.
Qed.
Lemma units_ok p : length (cunit p) = naxis p -> exists r, read_units p = Ok r /\ length r = naxis p /\
  forall i, i < naxis p -> exists x, nth_error r (naxis p - 1 - i) = Some x /\
    (x = true <-> exists c, nth_error (cunit p) i = Some c /\ ~ made_of KeySpec.white c).
Proof.
  intros U. unfold read_units. apply fill. intros l i I L Z. destruct (nth_error (cunit p) i) as [c|] eqn:C; [|apply nth_error_None in C; lia].
  rewrite (oget_some _ _ _ C). cbn [obind]. destruct (KeyProofs.trim_stripped c) as (t & -> & (a & b & E & A & B & T)). cbn [obind].
  destruct (set_step l (naxis p) i (negb (same_text t [])) I L) as (S1 & S2 & S3 & S4). eexists _, _. split; [exact S1|]. split; [exact S2|]. split; [exact S3|]. split; [|exact S4].
  rewrite Bool.negb_true_iff, same_text_false. split.
  - intros N. exists c. split; [reflexivity|]. intros M. apply N. apply KeyProofs.bare_white; [exact T|]. intros x X. apply M. rewrite E. apply in_or_app. right. apply in_or_app. now left.
  - intros (c' & Ec & M) N. injection Ec as <-. apply M. subst t c. cbn [app]. now apply KeyProofs.made_app2.
Qed.
Lemma types_ok p : exists r, read_types p = Ok r /\ length r = naxis p /\
  forall i, i < naxis p -> exists y, nth_error r (naxis p - 1 - i) = Some y /\ exists t, axis_is p i t /\ type_of t y.
Proof.
  unfold read_types. apply fill. intros l i I L Z. destruct (axis_word p i I) as (c & t & C & W & U).
  rewrite (oget_some _ _ _ C). cbn [obind]. rewrite W. cbn [obind]. assert (A : axis_is p i t) by now apply U.
  assert (G : forall y, type_of t y -> exists l' x, oset l (naxis p - 1 - i) y = Ok l' /\ length l' = naxis p /\
     nth_error l' (naxis p - 1 - i) = Some x /\ (exists t0, axis_is p i t0 /\ type_of t0 x) /\ (forall k, k <> naxis p - 1 - i -> nth_error l' k = nth_error l k)).
  { intros y Y. destruct (set_step l (naxis p) i y I L) as (S1 & S2 & S3 & S4). eexists _, _. split; [exact S1|]. split; [exact S2|]. split; [exact S3|]. split; [exists t; auto|exact S4]. }
  destruct (same_text t (lit "RA")) eqn:E1; [apply G; apply same_text_iff in E1; now left|].
  destruct (same_text t (lit "DEC")) eqn:E2; [apply G; apply same_text_iff in E2; now right|].
  destruct (same_text t (lit "WAVE")) eqn:E3; [apply G; now apply same_text_iff in E3|].
  destruct (same_text t (lit "FREQ")) eqn:E4; [apply G; now apply same_text_iff in E4|].
  exists l, unknown. split; [reflexivity|]. split; [exact L|]. split; [exact Z|]. split; [|reflexivity]. exists t. split; [exact A|].
  apply same_text_false in E1, E2, E3, E4. cbn. change word with lit in *. intros [X|[X|[X|[X|[]]]]]; symmetry in X; contradiction.
Qed.

Lemma T64 : two64 = 18446744073709551616%Z. Proof. reflexivity. Qed.
Lemma axes_ok p i j : consistent p -> celestial p i j ->
  read_axes p = Ok (Z.of_nat (naxis p - 1 - i), Z.of_nat (naxis p - 1 - j), (Z.of_nat (naxis p - 1 - Nat.min i j), Z.of_nat (naxis p - 1 - Nat.max i j))).
Proof.
  intros (C & _) [A B]. assert (Li := axis_in _ _ _ (proj1 A)). assert (Lj := axis_in _ _ _ (proj1 B)). unfold read_axes.
  rewrite (find_axis_some p (lit "RA") i A), (find_axis_some p (lit "DEC") j B). cbn [obind].
  destruct (Z.eqb_spec (Z.of_nat (naxis p - 1 - i)) npos) as [E|_]; [unfold npos in E; rewrite T64 in E; lia|]. cbn [negb andb].
  destruct (Z.ltb_spec (Z.of_nat (naxis p - 1 - i)) (Z.of_nat (naxis p - 1 - j))); do 3 f_equal; f_equal; lia.
Qed.
Lemma axes_ra_only p i : consistent p -> first_axis p (word "RA") i -> (forall f, ~ axis_is p f (word "DEC")) ->
  read_axes p = Ok (Z.of_nat (naxis p - 1 - i), npos, (npos, Z.of_nat (naxis p - 1 - i))).
Proof.
  intros (C & _) A N. assert (Li := axis_in _ _ _ (proj1 A)). unfold read_axes.
  rewrite (find_axis_some p (lit "RA") i A), (find_axis_none p (lit "DEC") N). cbn [obind]. unfold npos at 1 2. rewrite T64.
  destruct (Z.eqb_spec (Z.of_nat (naxis p - 1 - i)) (18446744073709551616 - 1)) as [E|_]; [lia|]. cbn [negb andb].
  destruct (Z.ltb_spec (Z.of_nat (naxis p - 1 - i)) npos) as [|E]; [reflexivity|]. unfold npos in E. rewrite T64 in E. lia.
Qed.
Lemma axes_no_ra p : (forall f, ~ axis_is p f (word "RA")) -> read_axes p = Ok (1, 0, (1, 0))%Z.
Proof.
  intros N. unfold read_axes. rewrite (find_axis_none p (lit "RA") N). cbn [obind].
  destruct (find_loop_ok p (lit "DEC") (naxis p) 0 eq_refl) as [(E & _)|(g & _ & E & _)]; unfold find_axis; rewrite E; reflexivity.
Qed.

(* the conversions of many points *)
Lemma column_ok n i : i < n -> (Z.of_nat n < 2 ^ 31)%Z -> column n (Z.of_nat (n - 1 - i)) = Z.of_nat i.
Proof. intros I N. unfold column, wrap64. rewrite T64, Z.mod_small; lia. Qed.
Lemma at2_ok n k i m : i < n -> k < m -> (Z.of_nat (m * n) < 2 ^ 63)%Z -> at2 n k (Z.of_nat i) = Z.of_nat (k * n + i).
Proof.
  intros I K M. unfold at2, wrap64. rewrite <- Nat2Z.inj_mul, <- Nat2Z.inj_add. assert (k * n + i < m * n) by nia. rewrite T64. apply Z.mod_small. lia.
Qed.
Lemma zput_ok l k x : k < length l -> zput l (Z.of_nat k) x = Ok (upd l k x).
Proof. intros L. unfold zput. rewrite (proj2 (Z.ltb_lt _ _)) by lia. now rewrite Nat2Z.id. Qed.
Lemma zget_ok l k x : nth_error l k = Some x -> zget l (Z.of_nat k) = Ok x.
Proof.
  intros E. unfold zget. assert (k < length l) by (apply nth_error_Some; congruence). rewrite (proj2 (Z.ltb_lt _ _)) by lia. rewrite Nat2Z.id. now apply oget_some.
Qed.
Lemma upd_app {A} (a b : list A) k x : upd (a ++ b) (length a + k) x = a ++ upd b k x.
Proof. induction a as [|y a IH]; [reflexivity|]. cbn [app length Nat.add upd]. now rewrite IH. Qed.
Lemma upd_left {A} (a b : list A) k x : k < length a -> upd (a ++ b) k x = upd a k x ++ b.
Proof. revert k. induction a as [|y a IH]; intros [|k] L; cbn in *; try lia; [reflexivity|]. f_equal. apply IH. lia. Qed.
Definition row (n i j : nat) (s t : Qc) : list Qc := upd (upd (repeat (Q2Qc 0) n) i s) j t.
Lemma row_len n i j s t : length (row n i j s t) = n.
Proof. unfold row. now rewrite !upd_length, repeat_length. Qed.
Lemma zeros_at n k : k < n -> nth_error (repeat (Q2Qc 0) n) k = Some (Q2Qc 0).
Proof. revert k. induction n as [|n IH]; intros [|k] K; cbn; try lia; [reflexivity|]. apply IH. lia. Qed.
Lemma row_point n i j s t : i < n -> j < n -> i <> j -> point n i j s t (row n i j s t).
Proof.
  intros I J N. split; [apply row_len|]. unfold row. split; [|split].
  - rewrite nth_error_upd_other by exact N. apply nth_error_upd_same. now rewrite repeat_length.
  - apply nth_error_upd_same. now rewrite upd_length, repeat_length.
  - intros k K Ki Kj. rewrite !nth_error_upd_other by assumption. now apply zeros_at.
Qed.
Lemma concat_len_n {A} (l : list (list A)) n : (forall r, In r l -> length r = n) -> length (concat l) = length l * n.
Proof.
  induction l as [|r l IH]; intros H; [reflexivity|]. cbn [concat length]. rewrite app_length, (H r) by (left; reflexivity).
  rewrite IH by (intros x X; apply H; right; exact X). lia.
Qed.
Lemma rows_concat n l : (forall r, In r l -> length r = n) -> rows n (length l) (concat l) = l.
Proof.
  induction l as [|r l IH]; intros H; [reflexivity|]. cbn [length rows concat].
  assert (L : length r = n) by (apply H; left; reflexivity). rewrite firstn_app, L, Nat.sub_diag, firstn_O, app_nil_r, firstn_all2 by lia.
  rewrite skipn_app, L, Nat.sub_diag, skipn_O, skipn_all2 by lia. cbn [app]. f_equal. apply IH. intros x X. apply H. right. exact X.
Qed.
Lemma fill_rows n i j : i < n -> j < n -> (Z.of_nat n < 2 ^ 31)%Z -> forall u v, length u = length v -> (Z.of_nat (length u * n) < 2 ^ 63)%Z ->
  forall m pre, m + length pre = length u -> pre = map (fun '(s, t) => row n i j s t) (firstn (length pre) (combine u v)) ->
  ofold (fun l k => x <- oget u k ;; l <- zput l (at2 n k (column n (Z.of_nat (n - 1 - i)))) x ;; y <- oget v k ;;
                    zput l (at2 n k (column n (Z.of_nat (n - 1 - j)))) y) (seq (length pre) m) (concat pre ++ repeat (Q2Qc 0) (m * n))
  = Ok (concat (map (fun '(s, t) => row n i j s t) (combine u v))).
Proof.
  intros I J Nn u v L M. rewrite !column_ok by assumption. assert (Lc : length (combine u v) = length u) by (rewrite combine_length; lia).
  induction m as [|m IH]; intros pre E P.
  - cbn [seq ofold Nat.mul repeat]. rewrite app_nil_r. rewrite P. rewrite firstn_all2 by lia. reflexivity.
  - cbn [seq ofold]. destruct (nth_error u (length pre)) as [s|] eqn:Us; [|apply nth_error_None in Us; lia].
    destruct (nth_error v (length pre)) as [t|] eqn:Vt; [|apply nth_error_None in Vt; lia].
    assert (Lp : length (concat pre) = length pre * n).
    { apply concat_len_n. rewrite P. intros r R. apply in_map_iff in R. destruct R as ((a & b) & <- & _). apply row_len. }
    rewrite (oget_some _ _ _ Us), (oget_some _ _ _ Vt). cbn [obind].
    rewrite (at2_ok n (length pre) i (length u)), (at2_ok n (length pre) j (length u)) by (assumption || lia).
    rewrite zput_ok by (rewrite app_length, repeat_length; nia). cbn [obind].
    replace (S m * n) with (n + m * n) by lia. rewrite repeat_app.
    rewrite zput_ok by (rewrite upd_length, !app_length, !repeat_length; nia). cbn [obind].
    rewrite <- Lp, !upd_app, !upd_left by (rewrite ?upd_length, repeat_length; assumption). fold (row n i j s t).
    assert (X : firstn (length (pre ++ [row n i j s t])) (combine u v) = firstn (length pre) (combine u v) ++ [(s, t)]).
    { rewrite app_length. cbn [length]. assert (G : nth_error (combine u v) (length pre) = Some (s, t)).
      { clear - Us Vt. revert v Us Vt. generalize (length pre) as k. induction u as [|a u IHu]; intros [|k] [|b v] A B; cbn in *; try discriminate; [congruence|]. now apply IHu. }
      clear - G. revert G. generalize (length pre) as k. induction (combine u v) as [|a l IHl]; intros [|k] G; cbn in G; try discriminate; [injection G as ->; reflexivity|].
      cbn [Nat.add firstn app]. f_equal. now apply IHl. }
    specialize (IH (pre ++ [row n i j s t])). rewrite app_length in IH. cbn [length] in IH. rewrite Nat.add_1_r in IH.
    rewrite concat_app in IH. cbn [concat] in IH. rewrite app_nil_r, <- app_assoc in IH. apply IH; [lia|].
    rewrite <- Nat.add_1_r. change 1 with (length [row n i j s t]). rewrite <- app_length, X, map_app. cbn [map]. now rewrite <- P.
Qed.
Lemma get_rows n k (l : list (list Qc)) i' : (forall r, In r l -> length r = n) -> i' < n -> k < length l ->
  nth_error (concat l) (k * n + i') = match nth_error l k with Some r => nth_error r i' | None => None end.
Proof.
  revert k. induction l as [|r l IH]; intros k H I K; [cbn in K; lia|]. assert (L : length r = n) by (apply H; left; reflexivity). cbn [concat].
  destruct k as [|k].
  - cbn [Nat.mul Nat.add nth_error]. apply nth_error_app1. lia.
  - cbn [nth_error]. rewrite nth_error_app2 by (rewrite L; nia). rewrite <- IH; [f_equal; rewrite L; nia|intros x X; apply H; right; exact X|exact I|cbn in K; lia].
Qed.
Lemma omapl_get (r : list Qc) (g : nat -> Z) n : (forall k, k < n -> exists x, zget r (g k) = Ok x) ->
  exists xs, omapl (fun k => zget r (g k)) (seq 0 n) = Ok xs /\ length xs = n /\ forall k, k < n -> exists x, nth_error xs k = Some x /\ zget r (g k) = Ok x.
Proof.
  intros H. assert (G : forall m s, s + m = n -> exists xs, omapl (fun k => zget r (g k)) (seq s m) = Ok xs /\ length xs = m /\
    forall k, k < m -> exists x, nth_error xs k = Some x /\ zget r (g (s + k)) = Ok x).
  { induction m as [|m IH]; intros s E; cbn [seq omapl].
    - exists []. split; [reflexivity|]. split; [reflexivity|]. intros k K. lia.
    - destruct (H s) as (x & X); [lia|]. rewrite X. cbn [obind]. destruct (IH (S s)) as (xs & -> & L & F); [lia|]. cbn [obind].
      exists (x :: xs). split; [reflexivity|]. split; [cbn; lia|]. intros [|k] K.
      + exists x. split; [reflexivity|]. now rewrite Nat.add_0_r.
      + destruct (F k) as (y & Y & Y'); [lia|]. exists y. split; [exact Y|]. rewrite <- Y'. do 2 f_equal. lia. }
  exact (G n 0 eq_refl).
Qed.
Lemma through_ok a f p i j i' j' u v : let n := naxis p in w a = Some p -> (Z.of_nat n < 2 ^ 31)%Z -> i < n -> j < n -> i <> j -> i' < n -> j' < n ->
  (forall r, length r = n -> length (f p r) = n) -> pdims u = pdims v -> length (pdata u) = length (pdata v) -> pdata u <> [] -> (Z.of_nat (length (pdata u) * n) < 2 ^ 63)%Z ->
  exists x y, through a f (Z.of_nat (n - 1 - i)) (Z.of_nat (n - 1 - j)) (Z.of_nat (n - 1 - i')) (Z.of_nat (n - 1 - j')) u v = Ok (x, y) /\
    pdims x = pdims u /\ pdims y = pdims u /\ images (f p) n i j i' j' (pdata u) (pdata v) (pdata x) (pdata y).
Proof.
  intros n W Nn I J IJ I' J' F D L NE M. unfold through. rewrite W. fold n.
  replace (same_dims (pdims u) (pdims v)) with true by (unfold same_dims; destruct (list_eq_dec _ _ _); congruence). cbn [check obind].
  assert (Lu : 0 < length (pdata u)) by (destruct (pdata u); [congruence|cbn; lia]). destruct (Nat.eqb_spec (length (pdata u)) 0) as [E|_]; [lia|].
  pose proof (fill_rows n i j I J Nn (pdata u) (pdata v) L M (length (pdata u)) [] (Nat.add_0_r _) eq_refl) as H. cbn [length concat app] in H. rewrite H. cbn [obind]. clear H.
  set (rs := map (fun '(s, t) => row n i j s t) (combine (pdata u) (pdata v))).
  assert (Lr : length rs = length (pdata u)) by (unfold rs; rewrite map_length, combine_length; lia).
  assert (R : forall r, In r rs -> length r = n) by (intros r X; apply in_map_iff in X; destruct X as ((s & t) & <- & _); apply row_len).
  unfold convert. replace (rows n (length (pdata u)) (concat rs)) with rs by (rewrite <- Lr; symmetry; now apply rows_concat).
  assert (R' : forall r, In r (map (f p) rs) -> length r = n) by (intros r X; apply in_map_iff in X; destruct X as (r0 & <- & X); now apply F, R).
  assert (Z : forall c k, c < n -> k < length (pdata u) -> exists x, zget (concat (map (f p) rs)) (at2 n k (column n (Z.of_nat (n - 1 - c)))) = Ok x /\
     exists r, nth_error rs k = Some r /\ nth_error (f p r) c = Some x).
  { intros c k C K. rewrite column_ok, (at2_ok n k c (length (pdata u))) by assumption.
    pose proof (get_rows n k (map (f p) rs) c R' C) as G. rewrite map_length, Lr in G. specialize (G K).
    destruct (nth_error rs k) as [r|] eqn:E; [|apply nth_error_None in E; lia]. rewrite (map_nth_error _ _ _ E) in G.
    destruct (nth_error (f p r) c) as [x|] eqn:X; [|apply nth_error_None in X; rewrite F in X by (apply R; eapply nth_error_In, E); lia].
    exists x. split; [now apply zget_ok|]. exists r. auto. }
  destruct (omapl_get (concat (map (f p) rs)) (fun k => at2 n k (column n (Z.of_nat (n - 1 - i')))) (length (pdata u))) as (xs & -> & Lx & Fx).
  { intros k K. destruct (Z i' k I' K) as (x & X & _). eauto. }
  cbn [obind]. destruct (omapl_get (concat (map (f p) rs)) (fun k => at2 n k (column n (Z.of_nat (n - 1 - j')))) (length (pdata u))) as (ys & -> & Ly & Fy).
  { intros k K. destruct (Z j' k J' K) as (x & X & _). eauto. }
  cbn [obind]. exists (Pts (pdims u) xs), (Pts (pdims u) ys). split; [reflexivity|]. cbn [pdims pdata]. split; [reflexivity|]. split; [reflexivity|]. split; [exact Lx|]. split; [exact Ly|].
  intros k s t Us Vt. assert (K : k < length (pdata u)) by (apply nth_error_Some; congruence).
  exists (row n i j s t). split; [now apply row_point|].
  assert (E : nth_error rs k = Some (row n i j s t)).
  { unfold rs. rewrite (map_nth_error _ k (combine (pdata u) (pdata v)) (d := (s, t))); [reflexivity|].
    clear - Us Vt. revert k Us Vt. generalize (pdata v) as b. induction (pdata u) as [|x a IH]; intros [|y b] [|k] A B; cbn in *; try discriminate; [congruence|]. now apply IH. }
  destruct (Fx k K) as (x & X1 & X2), (Fy k K) as (y & Y1 & Y2), (Z i' k I' K) as (x' & X3 & r & Er & X4), (Z j' k J' K) as (y' & Y3 & r' & Er' & Y4).
  rewrite X1, Y1. assert (r = row n i j s t) by congruence. assert (r' = row n i j s t) by congruence. subst r r'. rewrite X4, Y4. split; congruence.
Qed.
