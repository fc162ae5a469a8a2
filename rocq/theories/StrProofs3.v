(* Proofs for strings: get_word, distance, prefixes, blocks, cut, wrap. *)
From Coq Require Import Ascii.
From Verif Require Import Base StrModel StrSpec IndexProofs VecProofs ReduceProofs StrProofs StrProofs2.

Lemma get_word_fwd : forall s chars ws n, words_of chars s ws ->
  match nth_error ws n with
  | Some w => (s <> w -> get_word s (Z.of_nat n) chars = Ok w) /\ (s = w -> get_word s (Z.of_nat n) chars = Ok [])
  | None => get_word s (Z.of_nat n) chars = CheckFail
  end.
Proof.
  intros s chars ws n W. pose proof (word_fwd_ok chars n [] s ws W) as H. cbn [app length] in H.
  unfold get_word. destruct (Z.ltb_spec (Z.of_nat n) 0); [lia|].
  replace (Z.to_nat (Z.of_nat n + 1)) with (S n) by lia.
  destruct (nth_error ws n) as [w|].
  - destruct H as (x & y & E & Ew & Nw & _). rewrite Ew. cbn [obind]. destruct y as [|c y].
    + destruct x as [|d x].
      * cbn [length Nat.eqb]. cbn in E. rewrite app_nil_r in E. split; [congruence|]. intros _. reflexivity.
      * cbn [length Nat.eqb]. rewrite app_nil_r in E. split.
        -- intros _. rewrite E. apply (substr_tail (d :: x)).
        -- intros ->. apply (f_equal (@length _)) in E. rewrite app_length in E. cbn in E. lia.
    + split.
      * intros _. replace (length x + length w - length x) with (length w) by lia. rewrite E. apply substr_mid.
      * intros ->. apply (f_equal (@length _)) in E. rewrite !app_length in E. cbn in E. lia.
  - now rewrite H.
Qed.

Lemma get_word_bwd : forall s chars ws n, words_of chars s ws -> (Z.of_nat n + 1 < 2 ^ 31)%Z ->
  get_word s (- Z.of_nat n - 1) chars =
  match nth_error (rev ws) n with Some w => Ok w | None => CheckFail end.
Proof.
  intros s chars ws n W B. pose proof (word_bwd_ok chars n s [] None ws W (or_introl (conj eq_refl eq_refl))) as H.
  rewrite app_nil_r in H.
  unfold get_word. destruct (Z.ltb_spec (- Z.of_nat n - 1) 0); [|lia].
  destruct (Z.eqb_spec (- Z.of_nat n - 1) (- 2 ^ 31)); [lia|].
  replace (Z.to_nat (- (- Z.of_nat n - 1))) with (S n) by lia.
  destruct (nth_error (rev ws) n) as [w|].
  - destruct H as (a & b & E & Nw & Ew). rewrite Ew. cbn [obind].
    assert (1 <= length w) by (destruct w; [congruence|cbn; lia]).
    assert (Ea : (match match a with [] => None | _ :: _ => Some (length a - 1) end with None => 0 | Some p => p + 1 end) = length a).
    { destruct a; cbn; lia. }
    rewrite Ea. replace (length a + length w - 1 + 1 - length a) with (length w) by lia. rewrite E. apply substr_mid.
  - now rewrite H.
Qed.

(* distance *)
Definition differs (t u : str) (i : nat) : bool :=
  match nth_error t i, nth_error u i with
  | Some a, Some b => negb (Ascii.eqb a b)
  | None, None => false
  | _, _ => true
  end.
Lemma differs_iff : forall t u i, differs t u i = true <-> nth_error t i <> nth_error u i.
Proof.
  intros. unfold differs. destruct (nth_error t i) as [a|], (nth_error u i) as [b|].
  - rewrite Bool.negb_true_iff, Ascii.eqb_neq. split; congruence.
  - split; congruence.
  - split; congruence.
  - split; congruence.
Qed.
Definition ndiff (t u : str) (n : nat) : nat := length (filter (differs t u) (seq 0 n)).

Lemma ndiff_S : forall t u n, ndiff t u (S n) = ndiff t u n + (if differs t u n then 1 else 0).
Proof.
  intros. unfold ndiff. rewrite seq_S, filter_app, app_length. cbn. destruct (differs t u n); reflexivity.
Qed.

Lemma distance_loop : forall t u n d, n <= length t -> n <= length u ->
  ofold (fun d i => a <- oget t i ;; b <- oget u i ;; Ok (if Ascii.eqb a b then d else d + 1)) (seq 0 n) d
  = Ok (d + ndiff t u n).
Proof.
  intros t u n d Lt Lu. induction n.
  - cbn. f_equal. lia.
  - rewrite seq_S, ofold_app, IHn by lia. cbn [obind Nat.add ofold].
    destruct (nth_error t n) as [a|] eqn:Na; [|apply nth_error_None in Na; lia].
    destruct (nth_error u n) as [b|] eqn:Nb; [|apply nth_error_None in Nb; lia].
    rewrite (proj2 (oget_Ok _ _ _ _) Na). cbn [obind]. rewrite (proj2 (oget_Ok _ _ _ _) Nb). cbn [obind].
    f_equal. rewrite ndiff_S. unfold differs. rewrite Na, Nb. destruct (Ascii.eqb a b); cbn; lia.
Qed.

Lemma ndiff_tail : forall t u n k, (forall i, n <= i < n + k -> differs t u i = true) -> ndiff t u (n + k) = ndiff t u n + k.
Proof.
  induction k; intros H; [rewrite !Nat.add_0_r; auto|].
  rewrite Nat.add_succ_r, ndiff_S, H by lia. rewrite IHk by (intros; apply H; lia). lia.
Qed.
Lemma ndiff_beyond : forall t u n k, length t <= n -> length u <= n -> ndiff t u (n + k) = ndiff t u n.
Proof.
  induction k; intros; [now rewrite Nat.add_0_r|]. rewrite Nat.add_succ_r, ndiff_S, IHk by auto.
  unfold differs. rewrite !(proj2 (nth_error_None _ _)) by lia. lia.
Qed.

Lemma distance_ok : forall t u, distance t u = Ok (ndiff t u (Nat.max (length t) (length u))).
Proof.
  intros t u. unfold distance. destruct (Nat.ltb_spec (length t) (length u)).
  - rewrite distance_loop by lia. f_equal. replace (Nat.max (length t) (length u)) with (length t + (length u - length t)) by lia.
    rewrite ndiff_tail; [lia|]. intros i Hi. apply differs_iff. rewrite (proj2 (nth_error_None t i)) by lia.
    intros E. symmetry in E. apply nth_error_None in E. lia.
  - rewrite distance_loop by lia. f_equal. replace (Nat.max (length t) (length u)) with (length u + (length t - length u)) by lia.
    rewrite ndiff_tail; [lia|]. intros i Hi. apply differs_iff. rewrite (proj2 (nth_error_None u i)) by lia.
    intros E. apply nth_error_None in E. lia.
Qed.

Lemma ndiff_any : forall t u n, Nat.max (length t) (length u) <= n -> ndiff t u (Nat.max (length t) (length u)) = ndiff t u n.
Proof.
  intros t u n H. replace n with (Nat.max (length t) (length u) + (n - Nat.max (length t) (length u))) by lia.
  symmetry. apply ndiff_beyond; lia.
Qed.

Lemma ndiff_zero : forall t u n, ndiff t u n = 0 -> forall i, i < n -> nth_error t i = nth_error u i.
Proof.
  induction n; intros H i Hi; [lia|]. rewrite ndiff_S in H. destruct (differs t u n) eqn:D; [lia|].
  destruct (Nat.eq_dec i n) as [->|]; [|apply IHn; lia].
  destruct (nth_error t n) as [a|] eqn:Na, (nth_error u n) as [b|] eqn:Nb; unfold differs in D; rewrite Na, Nb in D; auto; try discriminate.
  apply Bool.negb_false_iff, Ascii.eqb_eq in D. congruence.
Qed.
Lemma distance_eq : forall t u, distance t u = Ok 0 <-> t = u.
Proof.
  intros t u. rewrite distance_ok. split.
  - intros E. injection E as E. apply list_eq_nth_error. intros i.
    destruct (Nat.lt_ge_cases i (Nat.max (length t) (length u))) as [L|L].
    + eapply ndiff_zero; eauto.
    + rewrite !(proj2 (nth_error_None _ _)) by lia. auto.
  - intros ->. f_equal. generalize (Nat.max (length u) (length u)). intros n. induction n; auto.
    rewrite ndiff_S, IHn. destruct (differs u u n) eqn:D; auto. apply differs_iff in D. congruence.
Qed.
Lemma distance_sym : forall t u, distance t u = distance u t.
Proof.
  intros. rewrite !distance_ok, Nat.max_comm. f_equal. generalize (Nat.max (length u) (length t)). intros n.
  induction n; auto. rewrite !ndiff_S, IHn. f_equal. unfold differs.
  destruct (nth_error t n), (nth_error u n); auto. now rewrite Ascii.eqb_sym.
Qed.
Lemma distance_triangle : forall a b c, exists dab dbc dac,
  distance a b = Ok dab /\ distance b c = Ok dbc /\ distance a c = Ok dac /\ dac <= dab + dbc.
Proof.
  intros a b c. rewrite !distance_ok. do 3 eexists. split; [reflexivity|]. split; [reflexivity|]. split; [reflexivity|].
  set (N := length a + length b + length c).
  rewrite (ndiff_any a b N), (ndiff_any b c N), (ndiff_any a c N) by (unfold N; lia).
  generalize N. intros n. induction n; auto. rewrite !ndiff_S.
  destruct (differs a c n) eqn:D; [|lia].
  destruct (differs a b n) eqn:D1; [lia|]. destruct (differs b c n) eqn:D2; [lia|].
  exfalso. apply differs_iff in D. apply D.
  assert (X : forall t u, differs t u n = false -> nth_error t n = nth_error u n).
  { intros t u H. destruct (nth_error t n) as [x|] eqn:Nx, (nth_error u n) as [y|] eqn:Ny; unfold differs in H; rewrite Nx, Ny in H; auto; try discriminate.
    apply Bool.negb_false_iff, Ascii.eqb_eq in H. congruence. }
  rewrite (X a b), (X b c); auto.
Qed.

(* prefixes and suffixes *)
Lemma all_match_ok : forall s p f g l, (forall i, In i l -> f i < length s /\ g i < length p) ->
  exists r, all_match s p f g l = Ok r /\ (r = true <-> forall i, In i l -> nth_error s (f i) = nth_error p (g i)).
Proof.
  induction l; intros H; cbn.
  - exists true. split; auto. split; auto. intros _ i [].
  - destruct (H a (or_introl eq_refl)) as [La Lb].
    destruct (nth_error s (f a)) as [x|] eqn:Nx; [|apply nth_error_None in Nx; lia].
    destruct (nth_error p (g a)) as [y|] eqn:Ny; [|apply nth_error_None in Ny; lia].
    rewrite (proj2 (oget_Ok _ _ _ _) Nx). cbn [obind]. rewrite (proj2 (oget_Ok _ _ _ _) Ny). cbn [obind].
    destruct (Ascii.eqb_spec x y).
    all: try (destruct IHl as (r & E & R); [intros; apply H; now right|]).
    all: try (exists r; split; [exact E|]; rewrite R; split; [intros Hi i [<-|I]; [congruence|auto]|intros Hi i I; apply Hi; now right]).
    all: exists false; split; auto; split; [discriminate|]; intros Hi; specialize (Hi a (or_introl eq_refl)); congruence.
Qed.

Lemma begins_with_ok : forall s p, exists r, begins_with s p = Ok r /\ (r = true <-> exists b, s = p ++ b).
Proof.
  intros s p. unfold begins_with. destruct (Nat.ltb_spec (length s) (length p)).
  - exists false. split; auto. split; [discriminate|]. intros (b & ->). rewrite app_length in H. lia.
  - destruct (all_match_ok s p (fun i => i) (fun i => i) (seq 0 (length p))) as (r & E & R).
    { intros i I. apply in_seq in I. lia. }
    exists r. split; [exact E|]. rewrite R. split.
    + intros Hi. exists (skipn (length p) s). rewrite <- (firstn_skipn (length p) s) at 1. f_equal.
      apply list_eq_nth_error. intros i. destruct (Nat.lt_ge_cases i (length p)).
      * rewrite <- Hi by (apply in_seq; lia).
        rewrite <- (firstn_skipn (length p) s) at 2. rewrite nth_error_app1; auto. rewrite firstn_length. lia.
      * rewrite (proj2 (nth_error_None p i)) by lia. apply nth_error_None. rewrite firstn_length. lia.
    + intros (b & ->) i I. apply in_seq in I. apply nth_error_app1. lia.
Qed.
Lemma ends_with_ok : forall s p, exists r, ends_with s p = Ok r /\ (r = true <-> exists a, s = a ++ p).
Proof.
  intros s p. unfold ends_with. destruct (Nat.ltb_spec (length s) (length p)).
  - exists false. split; auto. split; [discriminate|]. intros (b & ->). rewrite app_length in H. lia.
  - destruct (all_match_ok s p (fun i => length s - i) (fun i => length p - i) (seq 1 (length p))) as (r & E & R).
    { intros i I. apply in_seq in I. lia. }
    exists r. split; [exact E|]. rewrite R. split.
    + intros Hi. exists (firstn (length s - length p) s).
      rewrite <- (firstn_skipn (length s - length p) s) at 1. f_equal.
      apply list_eq_nth_error. intros i. destruct (Nat.lt_ge_cases i (length p)).
      * specialize (Hi (length p - i)). rewrite in_seq in Hi. specialize (Hi ltac:(lia)).
        replace (length p - (length p - i)) with i in Hi by lia. rewrite <- Hi.
        rewrite <- (firstn_skipn (length s - length p) s) at 3. rewrite nth_error_app2 by (rewrite firstn_length; lia).
        f_equal. rewrite firstn_length. lia.
      * rewrite (proj2 (nth_error_None p i)) by lia. apply nth_error_None. rewrite skipn_length. lia.
    + intros (a & ->) i I. apply in_seq in I. rewrite nth_error_app2 by (rewrite app_length; lia). f_equal.
      rewrite app_length. lia.
Qed.

(* blocks *)
Lemma leftmost_unique : forall p a b a' b',
  (forall i, occurs_at p (a ++ p ++ b) i -> length a <= i) ->
  (forall i, occurs_at p (a' ++ p ++ b') i -> length a' <= i) ->
  a ++ p ++ b = a' ++ p ++ b' -> a = a' /\ b = b'.
Proof.
  intros p a b a' b' H H' E.
  assert (length a <= length a') by (apply H; exists a', b'; auto).
  assert (length a' <= length a) by (apply H'; rewrite <- E; exists a, b; auto).
  apply app_inj_length in E; [|lia]. destruct E as [-> E]. apply app_inv_head in E. auto.
Qed.

Lemma block_loop_ok : forall bg en f, 1 <= length bg + length en -> forall fuel u r s, length r < fuel ->
  match block_loop fuel (u ++ r) bg en f s (sfind bg (u ++ r) (length u)) (length u) with
  | Ok x => exists r', x = s ++ r' /\ blocks_replaced bg en f r r'
  | CheckFail => forall r', ~ blocks_replaced bg en f r r'
  | _ => False
  end.
Proof.
  intros bg en f Lp. induction fuel; intros u r s L; [lia|].
  pose proof (sfind_spec bg u r) as H. destruct (sfind bg (u ++ r) (length u)) as [k|].
  2:{ cbn [block_loop]. rewrite substr_tail. cbn. exists r. split; auto. constructor. auto. }
  destruct H as (a & b & -> & -> & Lm). cbn [block_loop].
  replace (length u + length a - length u) with (length a) by lia. rewrite substr_mid. cbn [obind].
  replace (u ++ a ++ bg ++ b) with ((u ++ a ++ bg) ++ b) by now rewrite <- !app_assoc.
  replace (length u + length a + length bg) with (length (u ++ a ++ bg)) by (rewrite !app_length; lia).
  pose proof (sfind_spec en (u ++ a ++ bg) b) as H2. destruct (sfind en ((u ++ a ++ bg) ++ b) (length (u ++ a ++ bg))) as [q|].
  - destruct H2 as (x & b' & -> & -> & Lm2).
    replace (length (u ++ a ++ bg) + length x - length (u ++ a ++ bg)) with (length x) by lia.
    rewrite substr_mid. cbn [obind].
    replace ((u ++ a ++ bg) ++ x ++ en ++ b') with ((u ++ a ++ bg ++ x ++ en) ++ b') by now rewrite <- !app_assoc.
    replace (length (u ++ a ++ bg) + length x + length en) with (length (u ++ a ++ bg ++ x ++ en)) by (rewrite !app_length; lia).
    specialize (IHfuel (u ++ a ++ bg ++ x ++ en) b' (s ++ a ++ f x)).
    destruct (block_loop fuel _ _ _ _ _ _ _).
    + destruct IHfuel as (r' & -> & B); [rewrite !app_length in L; lia|].
      exists (a ++ f x ++ r'). split; [now rewrite <- !app_assoc|]. constructor; auto.
    + intros r' B. remember (a ++ bg ++ x ++ en ++ b') as t eqn:Et. destruct B as [t Nt|a1 x1 b1 r1 H1 H3 B].
      * apply Nt. exists (length a), a, (x ++ en ++ b'). auto.
      * destruct (leftmost_unique bg a1 (x1 ++ en ++ b1) a (x ++ en ++ b')) as [-> E]; auto.
        { rewrite <- Et. auto. }
        destruct (leftmost_unique en x1 b1 x b') as [-> ->]; auto.
        apply IHfuel in B; auto. clear - L Lp. rewrite !app_length in L. lia.
    + apply IHfuel. rewrite !app_length in L. lia.
    + apply IHfuel. rewrite !app_length in L. lia.
    + apply IHfuel. rewrite !app_length in L. lia.
  - intros r' B. remember (a ++ bg ++ b) as t eqn:Et. destruct B as [t Nt|a1 x1 b1 r1 H1 H3 B].
    + apply Nt. exists (length a), a, b. auto.
    + destruct (leftmost_unique bg a1 (x1 ++ en ++ b1) a b) as [-> E]; auto.
      { rewrite <- Et. auto. }
      apply H2. rewrite <- E. exists (length x1), x1, b1. auto.
Qed.

Lemma block_loop_empty : forall fuel os f s, block_loop fuel os [] [] f s (Some 0) 0 = Diverge.
Proof.
  induction fuel; intros; cbn [block_loop]; auto.
  unfold substr at 1. cbn [Nat.leb obind Nat.add length]. rewrite sfind_empty by lia.
  unfold substr at 1. cbn [Nat.leb obind Nat.add length]. rewrite sfind_empty by lia. apply IHfuel.
Qed.

(* cut *)
Lemma substr_whole : forall s i n, i + n <= length s -> substr s i n = Ok (firstn n (skipn i s)).
Proof. intros. unfold substr. destruct (Nat.leb_spec i (length s)); [auto|lia]. Qed.

Lemma cut_ok : forall s n, 0 < n -> exists w, cut s n = Ok w /\ length w = length s / n /\
  (forall x, In x w -> length x = n) /\ concat w = firstn (n * (length s / n)) s.
Proof.
  intros s n Hn. unfold cut. destruct (Nat.eqb_spec n 0); [lia|].
  assert (B : length s / n * n <= length s) by (rewrite Nat.mul_comm; apply Nat.mul_div_le; lia).
  assert (G : forall k, k * n <= length s -> exists w,
     omapl (fun i => substr s (i * n) (Nat.min n (length s - i * n))) (seq 0 k) = Ok w /\ length w = k /\
     (forall x, In x w -> length x = n) /\ concat w = firstn (n * k) s).
  { induction k; intros L.
    - exists []. cbn. rewrite Nat.mul_0_r. repeat split; auto. intros x [].
    - destruct IHk as (w & E & Lw & H & C); [lia|].
      exists (w ++ [firstn n (skipn (k * n) s)]).
      assert (OA : forall A B (f : A -> outcome B) l1 l2 r1 r2, omapl f l1 = Ok r1 -> omapl f l2 = Ok r2 -> omapl f (l1 ++ l2) = Ok (r1 ++ r2)).
      { clear. induction l1; cbn; intros l2 r1 r2 E1 E2.
        - injection E1 as <-. auto.
        - destruct (f a); cbn in *; try discriminate. destruct (omapl f l1); cbn in *; try discriminate.
          injection E1 as <-. now rewrite (IHl1 _ _ _ eq_refl E2). }
      split; [|split; [|split]].
      + rewrite seq_S. apply OA; auto. cbn [omapl Nat.add]. rewrite substr_whole by lia. cbn.
        rewrite Nat.min_l by lia. reflexivity.
      + rewrite app_length. cbn. lia.
      + intros x I. apply in_app_or in I. destruct I as [I|[<-|[]]]; auto.
        rewrite firstn_length, skipn_length. lia.
      + rewrite concat_app, C. cbn. rewrite app_nil_r.
        replace (n * S k) with (n * k + n) by lia. rewrite firstn_plus. now rewrite (Nat.mul_comm k n). }
  apply G. auto.
Qed.

(* wrap *)
Lemma words_trail : forall chars m ws b, words_of chars m ws -> made_of chars b -> words_of chars (m ++ b) ws.
Proof.
  intros chars m ws b W B. induction W.
  - constructor. apply made_app. auto.
  - rewrite <- !app_assoc. constructor; auto. destruct H2 as [->|(c & t & -> & I)].
    + destruct b as [|c b]; auto. right. exists c, b. split; auto. apply B. now left.
    + right. exists c, (t ++ b). auto.
Qed.
Lemma words_app : forall chars a wa c b wb, words_of chars a wa -> In c chars -> words_of chars (c :: b) wb ->
  words_of chars (a ++ c :: b) (wa ++ wb).
Proof.
  intros chars a wa c b wb W I Wb. induction W.
  - cbn. apply words_gap; auto.
  - rewrite <- !app_assoc. cbn. constructor; auto. right. destruct H2 as [->|(c' & t & -> & I')]; cbn; eauto.
Qed.
Lemma words_ex : forall chars s, exists ws, words_of chars s ws.
Proof. intros. destruct (split_any_ok chars s) as (ws & _ & W). eauto. Qed.

Lemma back_ok : forall s i, i < length s -> exists o, back_to_space s i = Ok o /\
  match o with
  | Some k => k <= i /\ nth_error s k = Some space
  | None => forall k, k <= i -> nth_error s k <> Some space
  end.
Proof.
  intros s. induction i; intros L; cbn [back_to_space].
  - destruct (nth_error s 0) as [c|] eqn:N; [|apply nth_error_None in N; lia].
    rewrite (proj2 (oget_Ok _ _ _ _) N). cbn [obind]. destruct (Ascii.eqb_spec c space).
    + exists (Some 0). split; auto. subst. auto.
    + exists None. split; auto. intros k Hk. replace k with 0 by lia. congruence.
  - destruct (nth_error s (S i)) as [c|] eqn:N; [|apply nth_error_None in N; lia].
    rewrite (proj2 (oget_Ok _ _ _ _) N). cbn [obind]. destruct (Ascii.eqb_spec c space).
    + exists (Some (S i)). split; auto. subst. auto.
    + destruct IHi as (o & E & H); [lia|]. exists o. split; [exact E|]. destruct o as [k|].
      * destruct H. auto.
      * intros k Hk. destruct (Nat.eq_dec k (S i)) as [->|]; [congruence|apply H; lia].
Qed.

Lemma next_ok : forall s i, i <= length s -> exists k, next_space s i = k /\ i <= k <= length s /\
  (forall j, i <= j < k -> nth_error s j <> Some space) /\ (k = length s \/ nth_error s k = Some space).
Proof.
  intros s i L. unfold next_space. cbn [find_first].
  pose proof (first_at_spec (Ascii.eqb space) (skipn i s) i) as H.
  assert (E : s = firstn i s ++ skipn i s) by now rewrite firstn_skipn.
  assert (Li : length (firstn i s) = i) by (rewrite firstn_length; lia).
  destruct (first_at (Ascii.eqb space) (skipn i s) i) as [k|]; eexists; (split; [reflexivity|]).
  - destruct H as (a & c & b & Es & -> & Pc & Ha). apply Ascii.eqb_eq in Pc. subst c.
    assert (length s = i + (length a + S (length b))).
    { rewrite E, app_length, Li, Es, app_length. cbn. lia. }
    split; [lia|]. split.
    + intros j Hj N. rewrite E, nth_error_app2, Li, Es, nth_error_app1 in N by lia.
      apply nth_error_In in N. specialize (Ha _ N). rewrite Ascii.eqb_refl in Ha. discriminate.
    + right. rewrite E, nth_error_app2 by lia. rewrite Li, Es, nth_error_app2 by lia.
      replace (i + length a - i - length a) with 0 by lia. auto.
  - split; [lia|]. split; auto. intros j Hj N. rewrite E, nth_error_app2, Li in N by lia.
    apply nth_error_In in N. specialize (H _ N). rewrite Ascii.eqb_refl in H. discriminate.
Qed.

Definition fits (tw : nat) (body : str) : Prop := length body <= tw \/ ~ In space body.

Lemma space_blank : In space blanks. Proof. now left. Qed.

Lemma trim_length : forall s chars m, trim s chars = Ok m ->
  length m <= length s /\ (forall c t, s = c :: t -> In c chars -> length m < length s).
Proof.
  intros s chars m E. destruct (trim_ok s chars) as (m' & E' & (a & b & S & A & B) & C).
  assert (m' = m) by congruence. subst m'. split.
  - rewrite S, !app_length. lia.
  - intros c t Ec I. destruct (Nat.eq_dec (length m) (length s)); [|rewrite S, !app_length in *; lia].
    exfalso. rewrite S, !app_length in e. destruct a; [|cbn in e; lia]. destruct b; [|cbn in e; lia].
    rewrite app_nil_r in S. cbn in S. subst m. destruct C as [C|((d & u & Ed & Nd) & _)]; [congruence|].
    rewrite Ec in Ed. injection Ed as -> _. contradiction.
Qed.

Lemma wrap_loop_ok : forall width indent, forall fuel s ret tw header, length s <= fuel ->
  exists bodies wss, wrap_loop fuel width indent false ret s tw header =
      Ok (ret ++ match bodies with [] => [] | b :: bs => (header ++ b) :: map (app indent) bs end) /\
    Forall2 (words_of blanks) bodies wss /\ words_of blanks s (concat wss) /\
    (forall b bs t, bodies = b :: bs -> tw = Some t -> fits t b) /\
    (forall b bs x, bodies = b :: bs -> In x bs -> length indent <= width -> fits (width - length indent) x).
Proof.
  intros width indent. induction fuel; intros s ret tw header L.
  - destruct s; [|cbn in L; lia]. exists [], []. cbn [wrap_loop]. rewrite app_nil_r. split.
    { destruct tw as [[|t]|]; reflexivity. }
    split; [constructor|]. split; [constructor; intros ? []|]. split; discriminate.
  - assert (FIN : (forall t, tw = Some t -> length s <= t) ->
      exists bodies wss, (Ok match s with [] => ret | _ => ret ++ [header ++ s] end : outcome (list str)) =
        Ok (ret ++ match bodies with [] => [] | b :: bs => (header ++ b) :: map (app indent) bs end) /\
      Forall2 (words_of blanks) bodies wss /\ words_of blanks s (concat wss) /\
      (forall b bs t, bodies = b :: bs -> tw = Some t -> fits t b) /\
      (forall b bs x, bodies = b :: bs -> In x bs -> length indent <= width -> fits (width - length indent) x)).
    { intros H. destruct s as [|c s].
      - exists [], []. rewrite app_nil_r. split; auto. split; [constructor|]. split; [constructor; intros ? []|]. split; discriminate.
      - destruct (words_ex blanks (c :: s)) as (ws & W). exists [c :: s], [ws]. split; auto. split; [repeat constructor; auto|].
        split; [cbn; now rewrite app_nil_r|]. split.
        + intros b bs t E Et. injection E as <- _. left. auto.
        + intros b bs x E I. injection E as _ <-. destruct I. }
    cbn [wrap_loop]. destruct tw as [tw|]; [|apply FIN; discriminate].
    destruct (Nat.ltb_spec tw (length s)) as [Ltw|Ltw].
    2:{ apply FIN. intros t E. injection E as <-. auto. }
    destruct (back_ok s tw Ltw) as (o & Eo & Ho). rewrite Eo. cbn [obind].
    (* the cut *)
    assert (CUT : exists i, i <= length s /\ (i = length s \/ nth_error s i = Some space) /\
       (i = 0 -> exists t, s = space :: t) /\ fits tw (firstn i s) /\
       i = match o with None => next_space s (tw + 1) | Some k => k end).
    { destruct o as [k|].
      - destruct Ho as [Hk Nk]. exists k. split; [lia|]. split; auto. split; [|split; auto].
        + intros ->. destruct s as [|c s]; [discriminate|]. injection Nk as ->. eauto.
        + left. rewrite firstn_length. lia.
      - destruct (next_ok s (tw + 1)) as (k & E & Hk & Hn & He); [lia|].
        exists k. rewrite E. split; [lia|]. split; auto. split; [lia|]. split; auto.
        right. intros I. apply In_nth_error in I. destruct I as (j & Nj).
        assert (j < k).
        { assert (j < length (firstn k s)) by (apply nth_error_Some; congruence). rewrite firstn_length in *. lia. }
        assert (Nj' : nth_error s j = Some space).
        { rewrite <- (firstn_skipn k s). rewrite nth_error_app1; auto. rewrite firstn_length. lia. }
        destruct (Nat.le_gt_cases j tw) as [Le|Gt]; [exact (Ho j Le Nj')|]. apply (Hn j); auto. lia. }
    destruct CUT as (i & Li & Hi & H0 & Fi & Ec).
    match goal with |- context [match ?X with (line, i) => _ end] => replace X with (firstn i s, i) by (destruct o; subst i; reflexivity) end.
    cbv iota beta.
    unfold erase. cbn [Nat.leb obind firstn app Nat.add].
    destruct (trim_ok (skipn i s) blanks) as (m & Em & (a & b & Es & A & B) & Cm). rewrite Em. cbn [obind].
    assert (Lm : length m < length s).
    { destruct (trim_length _ _ _ Em) as [L1 L2]. rewrite skipn_length in L1.
      destruct i; [|lia]. destruct (H0 eq_refl) as (t & Et). cbn [skipn] in L2. apply (L2 _ _ Et space_blank). }
    destruct (IHfuel m (ret ++ [header ++ firstn i s])
       (if length indent <=? width then Some (width - length indent) else None) indent) as (bodies & wss & E & F2 & W & T1 & T2); [lia|].
    destruct (words_ex blanks (firstn i s)) as (ws & Wi).
    exists (firstn i s :: bodies), (ws :: wss). split; [|split; [|split; [|split]]].
    + rewrite E, <- app_assoc. cbn. do 2 f_equal. destruct bodies; reflexivity.
    + constructor; auto.
    + cbn [concat]. rewrite <- (firstn_skipn i s).
      assert (Wr : words_of blanks (skipn i s) (concat wss)).
      { rewrite Es. apply words_gap; auto. apply words_trail; auto. }
      rewrite firstn_skipn. rewrite <- (firstn_skipn i s) at 1.
      destruct Hi as [->|Ns].
      * rewrite skipn_all in *. apply words_nil in Wr. rewrite Wr, !app_nil_r. auto.
      * destruct (skipn i s) as [|c t] eqn:Sk.
        { apply (f_equal (@length _)) in Sk. rewrite skipn_length in Sk. cbn in Sk.
          assert (i < length s) by (apply nth_error_Some; congruence). lia. }
        assert (c = space).
        { rewrite <- (firstn_skipn i s), Sk in Ns. rewrite nth_error_app2 in Ns by (rewrite firstn_length; lia).
          rewrite firstn_length, Nat.min_l, Nat.sub_diag in Ns by lia. cbn in Ns. congruence. }
        subst c. apply words_app; auto. apply space_blank.
    + intros b0 bs t Eb Et. injection Eb as <- _. injection Et as <-. auto.
    + intros b0 bs x Eb I Lw. injection Eb as _ <-.
      destruct bodies as [|b1 bs1]; [destruct I|]. destruct I as [<-|I].
      * apply (T1 b1 bs1 _ eq_refl). destruct (Nat.leb_spec (length indent) width); [auto|lia].
      * eapply T2; eauto.
Qed.
