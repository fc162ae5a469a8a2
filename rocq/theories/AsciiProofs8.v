From Coq Require Import Ascii NArith Lia.
From Verif Require Import Base VecModel VecProofs OpProofs StrModel StrSpec StrProofs StrProofs2 StrProofs3 AsciiModel AsciiSpec
  AsciiProofs AsciiProofs2 AsciiProofs3 AsciiProofs4 AsciiProofs5 AsciiProofs6 AsciiProofs7.
Local Open Scope nat_scope.

(* --- alignment --- *)
Lemma pads_length ws : forall cells, length cells = length ws ->
  (forall j w x, nth_error ws j = Some w -> nth_error cells j = Some x -> length x <= w) ->
  map (@length ascii) (pads ws cells) = ws.
Proof.
  induction ws as [|w ws IH]; intros [|x cells] L H; try discriminate L; [reflexivity|].
  unfold pads. cbn [combine map fst snd]. rewrite pad_length. fold (pads ws cells). rewrite IH.
  - f_equal. specialize (H 0 w x eq_refl eq_refl). lia.
  - cbn in L. lia.
  - intros j w' x' E1 E2. apply (H (S j) w' x' E1 E2).
Qed.
Lemma joined_length d l : length (joined l d) = list_sum (map (@length ascii) l) + (length l - 1) * length d.
Proof.
  destruct l as [|x t]; [reflexivity|]. rewrite joined_concat, app_length. cbn [map list_sum fold_right length].
  replace (S (length t) - 1) with (length t) by lia.
  assert (E : length (concat (map (fun y => d ++ y) t)) = fold_right Nat.add 0 (map (@length ascii) t) + length t * length d).
  { induction t as [|y t IH]; [reflexivity|]. cbn [map concat fold_right length]. rewrite !app_length, IH. lia. }
  rewrite E. lia.
Qed.
Lemma line_length d ws cells : length cells = length ws ->
  (forall j w x, nth_error ws j = Some w -> nth_error cells j = Some x -> length x <= w) ->
  length (line d ws cells) = list_sum ws + (length ws - 1) * length d.
Proof.
  intros L H. unfold line. fold (pads ws cells). rewrite joined_length, (pads_length ws cells L H).
  unfold pads. rewrite map_length, combine_length, L, Nat.min_id. reflexivity.
Qed.

Lemma aligned o rows c ws : auto_width o = true -> Forall (fun row => length row = c) rows -> 0 < c ->
  (header o = [] \/ length (header o) = c) -> widths o rows c ws ->
  Forall (fun l => length l = list_sum ws + (c - 1) * length (out_delim o))
    (header_lines o ws ++ map (line (out_delim o) ws) rows).
Proof.
  intros A Fc Pc Hh [Lw W]. apply Forall_app. split.
  - unfold header_lines. destruct (header o) as [|h0 h] eqn:Eh; [constructor|]. constructor; [|constructor].
    destruct Hh as [Hh|Hh]; [discriminate Hh|]. rewrite <- Eh in *.
    destruct ws as [|w ws]; [cbn in Lw; lia|]. rewrite app_length.
    assert (Hw : forall j w' x, nth_error (w :: ws) j = Some w' -> nth_error (header o) j = Some x -> head_size o j x <= w').
    { intros j w' x E1 E2. specialize (W j w' E1). rewrite A in W. apply (proj1 (W w')); [lia|exact E2]. }
    assert (H0 : length h0 + length (header_chars o) <= w).
    { specialize (Hw 0 w h0 eq_refl). rewrite Eh in Hw. apply (Hw eq_refl). }
    destruct (Nat.leb_spec (length (header_chars o)) w); [|lia].
    rewrite line_length.
    + cbn [length list_sum fold_right] in *. unfold list_sum. rewrite <- Lw. lia.
    + cbn [length]. cbn [length] in Lw. lia.
    + intros [|j] w' x E1 E2.
      * cbn in E1. injection E1 as <-. rewrite Eh in E2. cbn in E2. injection E2 as <-. lia.
      * apply (Hw (S j) w' x E1 E2).
  - apply Forall_forall. intros l I. apply in_map_iff in I. destruct I as (row & <- & I).
    rewrite line_length, Lw; [reflexivity| |].
    + rewrite Forall_forall in Fc. rewrite Lw. now apply Fc.
    + intros j w x E1 E2. specialize (W j w E1). rewrite A in W. apply (proj1 (W w)) with (row := row); auto.
Qed.

(* --- reading back --- *)
Lemma free_app chars a b : free_of chars a -> free_of chars b -> free_of chars (a ++ b).
Proof. intros H1 H2 c I. apply in_app_or in I. destruct I; auto. Qed.
Lemma free_repeat chars c n : ~ In c chars -> free_of chars (repeat c n).
Proof. intros H x I. apply repeat_spec in I. now subst. Qed.
Lemma free_joined chars d l : free_of chars d -> Forall (free_of chars) l -> free_of chars (joined l d).
Proof.
  intros Hd H. destruct H as [|x t Hx H]; [intros c []|]. rewrite joined_concat. apply free_app; [exact Hx|].
  induction H as [|y t Hy H IH]; [intros c []|]. cbn [map concat]. repeat apply free_app; auto.
Qed.
Lemma free_pads chars ws cells : ~ In " "%char chars -> Forall (free_of chars) cells -> Forall (free_of chars) (pads ws cells).
Proof.
  intros Hs H. revert ws. induction H as [|x t Hx H IH]; intros [|w ws]; unfold pads; cbn [combine map]; try constructor.
  - cbn. unfold pad. apply free_app; [now apply free_repeat|exact Hx].
  - apply IH.
Qed.
Lemma free_line chars d ws cells : ~ In " "%char chars -> free_of chars d -> Forall (free_of chars) cells ->
  free_of chars (line d ws cells).
Proof. intros. apply free_joined; [assumption|]. now apply free_pads. Qed.

Lemma pieces_file lines : Forall (free_of [nl]) lines -> pieces (file_of lines) = lines ++ [[]].
Proof.
  induction 1 as [|l ls H F IH]; [reflexivity|]. unfold file_of. cbn [map concat]. fold (file_of ls).
  rewrite <- app_assoc. cbn [app]. change "010"%char with nl. rewrite pieces_app by exact H. now rewrite IH.
Qed.
Lemma getline_id l : free_of [nl; cr] l -> getline l = l.
Proof.
  intro F. unfold getline. destruct (drop_crs_spec (rev l)) as (t & E & Ft & _).
  assert (t = []) as ->; [|cbn in E; rewrite <- E; apply rev_involutive].
  destruct t as [|c t]; [reflexivity|]. exfalso. apply (F c).
  - apply in_rev. rewrite E. now left.
  - inversion Ft as [|? ? [->| ->] _]; [right|]; now left.
Qed.

Definition reads_hash (i : input_format) : Prop := auto_skip i = true /\ skip_pattern i = ["#"%char].
Lemma hash_ok i : reads_hash i -> pattern_ok i.
Proof. intros [_ H]. right. exists "#"%char, []. split; [exact H|]. intros [X|[X|[]]]; discriminate X. Qed.
Lemma hash_line i l : reads_hash i -> data_line i ("#"%char :: l) = false.
Proof.
  intro H. destruct (data_line i ("#"%char :: l)) eqn:E; [|reflexivity]. apply data_line_iff in E; [|now apply hash_ok].
  exfalso. apply E. right. destruct H as [H1 H2]. split; [exact H1|]. exists [], l. rewrite H2. split; [intros c []|reflexivity].
Qed.
Lemma visible_line i g c r : reads_hash i -> made_of blank_chars g -> ~ In c blank_chars -> c <> "#"%char ->
  data_line i (g ++ c :: r) = true.
Proof.
  intros H G C N. apply data_line_iff; [now apply hash_ok|]. destruct H as [H1 H2].
  intros [M|(_ & g' & r' & M & E)].
  - apply C, M. apply in_or_app. right. now left.
  - rewrite H2 in E. cbn in E. revert g' E M. induction g as [|x g IH]; intros [|y g'] E M.
    + cbn in E. injection E as E _. congruence.
    + cbn in E. injection E as E _. apply C. rewrite E. apply M. now left.
    + cbn in E. injection E as E _. assert (X : In x blank_chars) by (apply G; now left). rewrite E in X.
      destruct X as [X|[X|[]]]; discriminate X.
    + cbn in E. injection E as _ E. apply (IH (fun z Hz => G z (or_intror Hz)) g' E). intros z Hz. apply M. now right.
Qed.

Lemma filter_all A (f : A -> bool) l : Forall (fun x => f x = true) l -> filter f l = l.
Proof. induction 1 as [|x l H F IH]; [reflexivity|]. cbn. now rewrite H, IH. Qed.

Lemma file_used i o ws lines : reads_hash i -> (header o = [] \/ exists t, header_chars o = "#"%char :: t) ->
  Forall (free_of [nl; cr]) (header_lines o ws) -> Forall (free_of [nl; cr]) lines ->
  Forall (fun l => data_line i l = true) lines ->
  used_of i (file_of (header_lines o ws ++ lines)) = lines.
Proof.
  intros Hi Hh F1 F2 D. unfold used_of.
  assert (Fa : Forall (free_of [nl; cr]) (header_lines o ws ++ lines)) by now apply Forall_app.
  rewrite pieces_file.
  2:{ eapply Forall_impl; [|exact Fa]. intros l Hl c I [<-|[]]. apply (Hl nl I). now left. }
  rewrite map_app, filter_app. cbn [map]. change (getline []) with (@nil ascii). 
  assert (E0 : filter (data_line i) [[]] = []) by reflexivity. rewrite E0, app_nil_r.
  assert (M : map getline (header_lines o ws ++ lines) = header_lines o ws ++ lines).
  { rewrite <- (map_id (header_lines o ws ++ lines)) at 2. apply map_ext_in. intros l I. apply getline_id.
    rewrite Forall_forall in Fa. now apply Fa. }
  rewrite M, filter_app, (filter_all _ _ lines D).
  assert (E1 : filter (data_line i) (header_lines o ws) = []); [|now rewrite E1].
  unfold header_lines. destruct (header o) as [|h0 h]; [reflexivity|]. destruct Hh as [Hh|(t & Ht)]; [discriminate Hh|].
  rewrite Ht. cbn [filter app]. now rewrite hash_line.
Qed.

Lemma words_pads chars d : In " "%char chars -> d <> [] -> made_of chars d -> forall ws cells, length cells = length ws ->
  Forall (fun x => x <> [] /\ free_of chars x) cells ->
  words_of chars (concat (map (fun y => d ++ y) (pads ws cells))) cells.
Proof.
  intros Hs Nd Md ws cells L H. revert ws L. induction H as [|x t [Nx Fx] H IH]; intros ws L.
  - unfold pads. rewrite combine_nil. constructor. intros c [].
  - destruct ws as [|w ws]; [discriminate L|]. unfold pads. cbn [combine map concat fst snd]. fold (pads ws t).
    unfold pad. rewrite <- !app_assoc, app_assoc. constructor; auto.
    + intros c I. apply in_app_or in I. destruct I as [I|I]; [auto|]. apply repeat_spec in I. now subst.
    + destruct (pads ws t) as [|y ys]; [now left|]. right. cbn [map concat]. destruct d as [|c d]; [easy|].
      exists c. eexists. split; [reflexivity|]. apply Md. now left.
Qed.
Lemma words_line chars d : In " "%char chars -> d <> [] -> made_of chars d -> forall ws cells, length cells = length ws ->
  Forall (fun x => x <> [] /\ free_of chars x) cells ->
  words_of chars (line d ws cells) cells.
Proof.
  intros Hs Nd Md ws cells L H. unfold line. fold (pads ws cells). destruct H as [|x t [Nx Fx] H].
  - unfold pads. rewrite combine_nil. constructor. intros c [].
  - destruct ws as [|w ws]; [discriminate L|]. unfold pads. cbn [combine map concat fst snd]. fold (pads ws t).
    rewrite joined_concat. unfold pad. rewrite <- !app_assoc. constructor; auto.
    + intros c I. apply repeat_spec in I. now subst.
    + destruct (pads ws t) as [|y ys]; [now left|]. right. cbn [map concat]. destruct d as [|c d]; [easy|].
      exists c. eexists. split; [reflexivity|]. apply Md. now left.
    + apply words_pads; auto.
Qed.

(* without padding *)
Lemma line_plain d c cells : length cells = c -> line d (repeat 0 c) cells = joined cells d.
Proof.
  intro L. unfold line. f_equal. subst c. induction cells as [|x t IH]; [reflexivity|]. cbn [length repeat combine map fst snd].
  now rewrite IH.
Qed.
Lemma cut_char c cells : cells <> [] -> Forall (free_of [c]) cells -> cut_at [c] (joined cells [c]) cells.
Proof.
  intros N H. induction H as [|x t Hx H IH]; [easy|]. destruct t as [|y t].
  - cbn. constructor. intros (i & a & b & -> & _). apply (Hx c); [|now left]. apply in_or_app. right. now left.
  - change (joined (x :: y :: t) [c]) with (x ++ [c] ++ joined (y :: t) [c]). constructor; [|apply IH; discriminate].
    intros i (a & b & E & <-). destruct (Nat.le_gt_cases (length x) (length a)) as [|X]; [assumption|]. exfalso.
    apply (Hx c); [|now left]. assert (Y : nth_error (x ++ [c] ++ joined (y :: t) [c]) (length a) = Some c).
    { rewrite E, nth_error_app2 by lia. now rewrite Nat.sub_diag. }
    rewrite nth_error_app1 in Y by lia. now apply nth_error_In in Y.
Qed.

(* --- round trips --- *)
Lemma header_free o ws : free_of [nl; cr] (header_chars o) -> free_of [nl; cr] (out_delim o) ->
  Forall (free_of [nl; cr]) (header o) -> Forall (free_of [nl; cr]) (header_lines o ws).
Proof.
  intros H1 H2 H3. unfold header_lines. destruct (header o) as [|h0 h]; [constructor|]. constructor; [|constructor].
  apply free_app; [exact H1|]. apply free_line; [intros [X|[X|[]]]; discriminate X|exact H2|exact H3].
Qed.

Lemma line_head d ws x t : exists g r, line d ws (x :: t) = g ++ x ++ r /\ made_of blank_chars g \/ ws = [].
Proof.
  destruct ws as [|w ws]; [exists [], []; now right|]. exists (repeat " "%char (w - length x)), (concat (map (fun y => d ++ y) (pads ws t))).
  left. unfold line. fold (pads (w :: ws) (x :: t)). unfold pads. cbn [combine map fst snd]. fold (pads ws t).
  rewrite joined_concat. unfold pad. rewrite <- app_assoc. split; [reflexivity|].
  intros c I. apply repeat_spec in I. subst. now left.
Qed.
Lemma line_used i d ws x t : reads_hash i -> ws <> [] -> starts_visible x -> data_line i (line d ws (x :: t)) = true.
Proof.
  intros H N (c & x' & -> & C1 & C2). destruct (line_head d ws (c :: x') t) as (g & r & [[E M]|E]); [|easy].
  rewrite E. cbn [app]. now apply visible_line.
Qed.

Lemma written V (dflt : V) i o r cols args :
  Forall (has_rows r) cols -> 0 < col_total cols -> (header o = [] \/ length (header o) = col_total cols) ->
  reads_hash i -> skip_first i = 0%N -> delim_ok i -> (header o = [] \/ exists t, header_chars o = "#"%char :: t) ->
  free_of [nl; cr] (header_chars o) -> free_of [nl; cr] (out_delim o) -> Forall (free_of [nl; cr]) (header o) ->
  (N.of_nat r < two64N)%N -> fits_rows args r ->
  (forall rows, table_of cols r rows -> Forall (fun row => Forall (free_of [nl; cr]) row /\
      (exists x t, row = x :: t /\ starts_visible x) /\ row_ok args row) rows) ->
  (forall rows ws row, table_of cols r rows -> widths o rows (col_total cols) ws -> In row rows ->
      length row = length ws -> fields_of i (line (out_delim o) ws row) row) ->
  exists content rows sto, write_table o cols = Ok content /\ table_of cols r rows /\
    read_table V dflt i content args = Ok sto /\ sized args r sto /\
    forall k row, nth_error rows k = Some row -> row_stored args sto k row.
Proof.
  intros Hr Pc Hh Hi Sk Do Hc F1 F2 F3 Lr Fi Rows Fields.
  destruct (write_table_ok o r cols Hr Pc Hh) as (rows & ws & T & Fc & W & E).
  specialize (Rows rows T). assert (Lrows : length rows = r) by apply T.
  assert (Lw : length ws = col_total cols) by apply W.
  assert (U : used_of i (file_of (header_lines o ws ++ map (line (out_delim o) ws) rows)) = map (line (out_delim o) ws) rows).
  { apply file_used; auto.
    - now apply header_free.
    - apply Forall_forall. intros l I. apply in_map_iff in I. destruct I as (row & <- & I).
      rewrite Forall_forall in Rows. destruct (Rows row I) as (P & _).
      apply free_line; [intros [X|[X|[]]]; discriminate X|exact F2|exact P].
    - apply Forall_forall. intros l I. apply in_map_iff in I. destruct I as (row & <- & I).
      rewrite Forall_forall in Rows. destruct (Rows row I) as (_ & (x & t & -> & V0) & _).
      apply line_used; auto. intros ->. cbn in Lw. lia. }
  rewrite E. eexists. exists rows.
  destruct (read_good dflt i args _ (map (line (out_delim o) ws) rows) rows (eq_sym U)) as (sto & E2 & Sz & St).
  - rewrite map_length, Lrows. exact Lr.
  - rewrite Sk. lia.
  - rewrite Sk. cbn [N.to_nat skipn]. clear U E. assert (G : forall row, In row rows -> gives i args (line (out_delim o) ws row) row).
    { intros row I. apply gives_fields; [exact Do|]. apply (Fields rows); auto. rewrite Forall_forall in Fc. rewrite Lw. now apply Fc. }
    clear - G. induction rows as [|row rows IH]; constructor; [apply G; now left|]. apply IH. intros. apply G. now right.
  - rewrite Lrows. exact Fi.
  - eapply Forall_impl; [|exact Rows]. cbn. tauto.
  - exists sto. split; [reflexivity|]. split; [exact T|]. split; [exact E2|]. split; [now rewrite <- Lrows|exact St].
Qed.

(* 1D columns *)
Lemma table_vectors vs r rows : Forall (fun v => length v = r) vs -> table_of (map W1 vs) r rows ->
  forall i row, nth_error rows i = Some row -> length row = length vs /\
    forall j v, nth_error vs j = Some v -> nth_error row j = nth_error v i /\ i < length v.
Proof.
  intros H [L T] i row E. destruct (T i row E) as (parts & -> & F).
  assert (Hi : i < r) by (rewrite <- L; apply nth_error_Some; congruence). clear T L E.
  revert parts F. induction H as [|v vs Hv H IH]; intros parts F; cbn [map] in F.
  - inversion F; subst. split; [reflexivity|]. intros [|j] v X; discriminate X.
  - inversion F as [|? p ? parts' Hp F']; subst. destruct (IH parts' F') as [L G]. destruct Hp as [Lp Ep]. cbn in Lp, Ep.
    destruct p as [|x [|y p]]; try discriminate Lp. cbn [concat app length]. split; [lia|]. intros [|j] v' X.
    + injection X as <-. split; [exact Ep|exact Hi].
    + cbn [nth_error]. apply (G j v' X).
Qed.

Lemma col_total_vectors vs : col_total (map W1 vs) = length vs.
Proof.
  induction vs as [|v vs IH]; [reflexivity|]. change (col_total (map W1 (v :: vs))) with (1 + col_total (map W1 vs)).
  now rewrite IH.
Qed.
Definition text : arg str := AVec str (fun w => Some w).
Lemma layout_text n : forall a, layout a (repeat text n) = map (fun k => Some (mk_dest (a + k) 0 1 0 (fun w => Some w))) (seq 0 n).
Proof.
  induction n as [|n IH]; intro a; [reflexivity|]. cbn [repeat layout arg_layout text app seq map].
  rewrite Nat.add_0_r. f_equal. rewrite IH, <- seq_shift, map_map. apply map_ext. intro k. now rewrite Nat.add_succ_r.
Qed.
Lemma row_ok_text n row : n <= length row -> row_ok (repeat text n) row.
Proof.
  intro L. split; rewrite layout_text.
  - now rewrite map_length, seq_length.
  - intros j d E. rewrite nth_error_map, nth_error_seq in E. destruct (Nat.ltb_spec j n); [|discriminate E].
    cbn in E. injection E as <-. destruct (nth_error row j) as [x|] eqn:Ex; [|apply nth_error_None in Ex; lia].
    exists x, x. easy.
Qed.
Lemma text_stored vs r rows sto : Forall (fun v => length v = r) vs -> table_of (map W1 vs) r rows ->
  sized (repeat text (length vs)) r sto ->
  (forall k row, nth_error rows k = Some row -> row_stored (repeat text (length vs)) sto k row) ->
  sto = map (fun v => [v]) vs.
Proof.
  intros H T Sz St. pose proof (table_vectors vs r rows H T) as G.
  pose proof (Forall2_len _ _ _ _ _ Sz) as Ls. rewrite repeat_length in Ls.
  apply list_eq_nth_error. intro j. rewrite nth_error_map. destruct (nth_error vs j) as [v|] eqn:Ev; cbn [option_map].
  2:{ apply nth_error_None in Ev. apply nth_error_None. lia. }
  assert (Lj : j < length vs) by (apply nth_error_Some; congruence).
  destruct (sized_nth (repeat text (length vs)) r sto j text Sz) as (cols & E & l & -> & Ll).
  { now apply nth_error_repeat. }
  rewrite E. f_equal. f_equal. apply list_eq_nth_error. intro i.
  assert (Lv : length v = r) by (rewrite Forall_forall in H; apply H; now apply nth_error_In in Ev).
  destruct (Nat.lt_ge_cases i r) as [Hi|Hi].
  - destruct T as [Lr T]. destruct (nth_error rows i) as [row|] eqn:Er; [|apply nth_error_None in Er; lia].
    destruct (G i row Er) as [Lrow Gr]. destruct (Gr j v Ev) as [E1 _].
    destruct (nth_error v i) as [x|] eqn:Ex; [|apply nth_error_None in Ex; lia].
    specialize (St i row Er j (mk_dest j 0 1 0 (fun w => Some w)) x x).
    assert (S' : elem sto j 0 (i * 1 + 0) = Some x).
    { apply St; [|exact E1|reflexivity]. rewrite layout_text, nth_error_map, nth_error_seq.
      destruct (Nat.ltb_spec j (length vs)); [reflexivity|lia]. }
    unfold elem in S'. rewrite E in S'. cbn [nth_error] in S'. now rewrite Nat.mul_1_r, Nat.add_0_r in S'.
  - rewrite (proj2 (nth_error_None l i)), (proj2 (nth_error_None v i)) by lia. reflexivity.
Qed.
