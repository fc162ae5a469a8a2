(* C123: progress bars. *)
From Coq Require Import Ascii String QArith Qround Lqa Lia.
From Verif Require Import Base StrModel NumModel NumSpec NumProofs ProgModel ProgSpec ProgProofs.
From Verif Require TimeModel TimeProperties.
Local Open Scope list_scope.
Local Open Scope Z_scope.

Definition total (duration : Q -> outcome (list ascii)) : Prop := forall q, exists s, duration q = Ok s.
Definition secs (q : Q) : outcome (list ascii) := Ok (to_string (Qfloor q) ++ ["s"%char]).
Lemma rem_comp p e : (0 <= e)%Q -> 0 <= p_i p -> p_i p < p_n p ->
  (left_of p e == e * inject_Z (p_n p - (p_i p + 1)) / inject_Z (p_i p + 1))%Q.
Proof.
  intros E I N. unfold left_of. cbv zeta.
  assert (P : (0 < inject_Z (p_i p + 1))%Q) by (change 0%Q with (inject_Z 0); rewrite <- Zlt_Qlt; lia).
  assert (D : (e * inject_Z (p_n p) / inject_Z (p_i p + 1) - e == e * inject_Z (p_n p - (p_i p + 1)) / inject_Z (p_i p + 1))%Q).
  { revert P. generalize (p_i p + 1). intros d P. unfold Z.sub. rewrite inject_Z_plus, inject_Z_opp. field. lra. }
  assert (G : (0 <= e * inject_Z (p_n p - (p_i p + 1)) / inject_Z (p_i p + 1))%Q).
  { apply Qle_shift_div_l; [exact P|]. rewrite Qmult_0_l. apply Qmult_le_0_compat; [exact E|]. change 0%Q with (inject_Z 0). rewrite <- Zle_Qle. lia. }
  destruct (Qle_bool 0 _) eqn:B; [exact D|]. rewrite <- D in G. apply Qle_bool_iff in G. congruence.
Qed.

(* One line: the part of the bar, the number of iterations done, the percentage, the time elapsed, the time left in
   proportion, and their sum; the line hides the lines written before. *)
Theorem C123_line : forall duration len p now t1 t2 t3, 0 <= p_i p < p_n p -> p_n p < 2 ^ 64 -> 0 <= len -> len * p_n p < 2 ^ 64 ->
  let e := (now - p_start p)%Q in let l := (e * inject_Z (p_n p - (p_i p + 1)) / inject_Z (p_i p + 1))%Q in
  (0 <= e)%Q -> duration e = Ok t1 -> (forall q, (q == l)%Q -> duration q = Ok t2) -> (forall q, (q == e + l)%Q -> duration q = Ok t3) ->
  exists p' s out, bar duration len p now = Ok (p', out) /\ bar_text len (p_i p + 1) (p_n p) t1 t2 t3 s /\ over (p_max p) s out /\
    p_i p' = p_i p /\ p_n p' = p_n p /\ p_start p' = p_start p /\ p_ended p' = p_ended p /\ p_max p' = Nat.max (p_max p) (List.length s).
Proof.
  intros duration len p now t1 t2 t3 I N L L1 e l E D1 D2 D3.
  pose proof (rem_comp p e E ltac:(lia) ltac:(lia)) as R.
  destruct (bar_ok duration len p now t1 t2 t3) as (p' & s & out & A & B & C & D & _ & F & G & H & K); try lia; try nia.
  - exact D1.
  - apply D2. exact R.
  - apply D3. unfold l. rewrite <- R. reflexivity.
  - exists p', s, out. repeat (split; [assumption|]). assumption.
Qed.
Print Assumptions C123_line.
Example C123_line_ex : omap snd (bar secs 4 (Prog 10 None 0 1 10 50 false) 14) =
  Ok ("013"%char :: word "[    ]  2  20%, 4s elapsed, 16s left, 20s total   ").
Proof. vm_compute. reflexivity. Qed.

(* the calls of progress at the times ts, and what each of them writes *)
Fixpoint calls (duration : Q -> outcome (list ascii)) (len m : Z) (p : prog) (ts : list Q) : outcome (prog * list (list ascii)) :=
  match ts with
  | [] => Ok (p, [])
  | t :: ts => '(p, out) <- progress duration len p t m ;; '(p, outs) <- calls duration len m p ts ;; Ok (p, out :: outs)
  end.
Definition writes_bar (len n i : Z) (shown last : bool) (out : list ascii) : Prop :=
  exists a, out = a ++ (if last then ["010"%char] else []) /\
    (if shown then exists mx t1 t2 t3 s, bar_text len (i + 1) n t1 t2 t3 s /\ over mx s a else a = []).
(* An iterative process of n iterations: the line is written at the first iteration, every m iterations, and at the last one;
   the line ends at the last one, and only there; after this nothing is written. *)
Theorem C123_run : forall duration len m ts p, total duration -> 0 <= len -> len * p_n p < 2 ^ 64 -> p_n p < 2 ^ 64 -> 1 <= m ->
  p_ended p = false -> 0 <= p_i p -> p_i p + Z.of_nat (List.length ts) = p_n p -> ts <> [] ->
  exists p' outs, calls duration len m p ts = Ok (p', outs) /\ List.length outs = List.length ts /\ p_ended p' = true /\ p_i p' = p_n p /\
    (forall j out, nth_error outs j = Some out -> let i := p_i p + Z.of_nat j in
       writes_bar len (p_n p) i ((i mod m =? 0) || (i =? p_n p - 1)) (i =? p_n p - 1) out) /\
    forall now, progress duration len p' now m = Ok (p', []).
Proof.
  intros duration len m ts p T L LN N M E0 I0 K0 Nn. revert p LN N E0 I0 K0 Nn. induction ts as [|t ts IH]; intros p LN N E I K Nn; [congruence|].
  cbn [List.length] in K. cbn [calls].
  assert (One : exists p1 out, progress duration len p t m = Ok (p1, out) /\ p_n p1 = p_n p /\ p_i p1 = p_i p + 1 /\
     p_ended p1 = (p_i p =? p_n p - 1) /\ writes_bar len (p_n p) (p_i p) ((p_i p mod m =? 0) || (p_i p =? p_n p - 1)) (p_i p =? p_n p - 1) out).
  { unfold progress. rewrite E. destruct (Z.eqb_spec m 0); [lia|]. unfold wrap64. change two64 with (2 ^ 64). rewrite (Z.mod_small (p_n p - 1)) by lia.
    assert (B : exists p1 a, (if (p_i p mod m =? 0) || (p_i p =? p_n p - 1) then bar duration len p t else Ok (p, [])) = Ok (p1, a) /\
       p_n p1 = p_n p /\ p_i p1 = p_i p /\ p_ended p1 = false /\
       (if (p_i p mod m =? 0) || (p_i p =? p_n p - 1) then exists mx t1 t2 t3 s, bar_text len (p_i p + 1) (p_n p) t1 t2 t3 s /\ over mx s a else a = [])).
    { destruct ((p_i p mod m =? 0) || (p_i p =? p_n p - 1)).
      - destruct (T (t - p_start p)%Q) as (t1 & D1). destruct (T (left_of p (t - p_start p))%Q) as (t2 & D2). destruct (T (t - p_start p + left_of p (t - p_start p))%Q) as (t3 & D3).
        destruct (bar_ok duration len p t t1 t2 t3) as (p' & s & out & A & B & C & D & _ & F & G & H & _); try lia; try nia; try assumption.
        exists p', out. split; [exact A|]. split; [exact G|]. split; [exact F|]. split; [congruence|]. exists (p_max p), t1, t2, t3, s. split; assumption.
      - exists p, []. repeat split; assumption. }
    destruct B as (p1 & a & -> & B1 & B2 & B3 & B4). cbn [obind].
    assert (Si : p_i (step p1) = p_i p + 1) by (cbn; rewrite B2; unfold wrap64; change two64 with (2 ^ 64); apply Z.mod_small; lia).
    assert (Sn : p_n (step p1) = p_n p) by (cbn; exact B1). rewrite Si, Sn.
    destruct (Z.leb_spec (p_n p) (p_i p + 1)); destruct (Z.eqb_spec (p_i p) (p_n p - 1)); try lia.
    - exists (finish (step p1)), (a ++ newline). split; [reflexivity|]. split; [exact Sn|]. split; [exact Si|]. split; [reflexivity|]. exists a. split; [reflexivity|exact B4].
    - exists (step p1), a. split; [reflexivity|]. split; [exact Sn|]. split; [exact Si|]. split; [exact B3|]. exists a. split; [symmetry; apply app_nil_r|exact B4]. }
  destruct One as (p1 & out & -> & O1 & O2 & O3 & O4). cbn [obind].
  destruct ts as [|t' ts].
  - cbn [calls obind]. exists p1, [out]. split; [reflexivity|]. cbn in K. assert (E1 : p_ended p1 = true) by (rewrite O3; apply Z.eqb_eq; lia).
    split; [reflexivity|]. split; [exact E1|]. split; [lia|]. split.
    + intros [|j] o H; [|destruct j; discriminate]. injection H as <-. cbv zeta. rewrite Z.add_0_r. exact O4.
    + intros now. unfold progress. rewrite E1. reflexivity.
  - cbn [List.length] in K. assert (E1 : p_ended p1 = false) by (rewrite O3; apply Z.eqb_neq; lia).
    destruct (IH p1 ltac:(rewrite O1; assumption) ltac:(rewrite O1; assumption) E1 ltac:(lia) ltac:(cbn [List.length]; lia) ltac:(discriminate))
      as (p' & outs & -> & A1 & A2 & A3 & A4 & A5).
    cbn [obind]. exists p', (out :: outs). split; [reflexivity|]. split; [cbn; f_equal; exact A1|]. split; [exact A2|]. split; [congruence|]. split; [|exact A5].
    intros [|j] o H.
    + injection H as <-. cbv zeta. rewrite Z.add_0_r. exact O4.
    + cbn in H. specialize (A4 j o H). cbv zeta in *. rewrite O1, O2 in A4. replace (p_i p + Z.of_nat (S j)) with (p_i p + 1 + Z.of_nat j) by lia. exact A4.
Qed.
Print Assumptions C123_run.
Example C123_run_ex : omap snd (calls secs 2 2 (progress_start 0 4) [1; 2; 3; 4]%Q) =
  Ok ["013"%char :: word "[  ] 1  25%, 1s elapsed, 3s left, 4s total"; [];
      "013"%char :: word "[- ] 3  75%, 3s elapsed, 1s left, 4s total"; "013"%char :: word "[--] 4 100%, 4s elapsed, 0s left, 4s total" ++ ["010"%char]].
Proof. vm_compute. reflexivity. Qed.
Example C123_secs_total : total secs. Proof. intros q. eexists. reflexivity. Qed.

(* print_progress at the iteration ti: the line ends at the last iteration, or at any later one *)
Theorem C123_print : forall duration len p now ti m, total duration -> 0 <= len -> len * p_n p < 2 ^ 64 -> 1 <= p_n p < 2 ^ 64 -> 1 <= m ->
  0 <= ti -> p_ended p = false -> exists p' out, print_progress duration len p now ti m = Ok (p', out) /\ p_n p' = p_n p /\
    p_i p' = Z.min ti (p_n p - 1) /\ p_ended p' = (p_n p - 1 <=? ti) /\
    writes_bar len (p_n p) (Z.min ti (p_n p - 1)) ((ti mod m =? 0) || (p_n p - 1 <=? ti)) (p_n p - 1 <=? ti) out.
Proof.
  intros duration len p now ti m T L LN N M Ti E. unfold print_progress. rewrite E. unfold wrap64. change two64 with (2 ^ 64). rewrite (Z.mod_small (p_n p - 1)) by lia.
  assert (B : forall i, 0 <= i < p_n p -> exists p' out, bar duration len (Prog (p_start p) (p_ips p) (p_tick p) i (p_n p) (p_max p) false) now = Ok (p', out) /\
     p_n p' = p_n p /\ p_i p' = i /\ p_ended p' = false /\ exists mx t1 t2 t3 s, bar_text len (i + 1) (p_n p) t1 t2 t3 s /\ over mx s out).
  { intros i I. set (q := Prog (p_start p) (p_ips p) (p_tick p) i (p_n p) (p_max p) false).
    destruct (T (now - p_start q)%Q) as (t1 & D1). destruct (T (left_of q (now - p_start q))%Q) as (t2 & D2). destruct (T (now - p_start q + left_of q (now - p_start q))%Q) as (t3 & D3).
    destruct (bar_ok duration len q now t1 t2 t3) as (p' & s & out & A & B & C & D & _ & F & G & H & _); cbn [p_n p_i q]; try lia; try nia; try assumption.
    exists p', out. split; [exact A|]. split; [exact G|]. split; [exact F|]. split; [exact H|]. exists (p_max q), t1, t2, t3, s. split; assumption. }
  destruct (Z.leb_spec (p_n p - 1) ti).
  - destruct (B (p_n p - 1) ltac:(lia)) as (p' & out & -> & B1 & B2 & B3 & B4). cbn [obind]. exists (finish p'), (out ++ newline). split; [reflexivity|].
    rewrite Z.min_r by lia. split; [exact B1|]. split; [exact B2|]. split; [reflexivity|]. exists out. rewrite orb_true_r. split; [reflexivity|exact B4].
  - destruct (Z.eqb_spec m 0); [lia|]. rewrite Z.min_l by lia. rewrite orb_false_r. destruct (ti mod m =? 0) eqn:Q.
    + destruct (B ti ltac:(lia)) as (p' & out & -> & B1 & B2 & B3 & B4). exists p', out. split; [reflexivity|]. split; [exact B1|]. split; [exact B2|]. split; [exact B3|].
      exists out. split; [symmetry; apply app_nil_r|exact B4].
    + eexists _, []. split; [reflexivity|]. split; [reflexivity|]. split; [reflexivity|]. split; [reflexivity|]. exists []. split; reflexivity.
Qed.
Print Assumptions C123_print.
Example C123_print_ex : omap snd (print_progress secs 2 (progress_start 0 4) 8 9 1) = Ok ("013"%char :: word "[--] 4 100%, 8s elapsed, 0s left, 8s total" ++ ["010"%char]).
Proof. vm_compute. reflexivity. Qed.
(* progress_tick, before the end: the line is written during the first ten iterations, and then if more iterations have been done
   since the last line than the speed then observed foretold *)
Theorem C123_tick : forall duration len p now now' ticklen, total duration -> 0 <= len -> len * p_n p < 2 ^ 64 -> p_n p < 2 ^ 64 ->
  p_ended p = false -> 0 <= p_tick p <= p_i p -> p_i p + 1 < p_n p ->
  exists p' out shown, progress_tick duration len p now now' ticklen = Ok (p', out) /\ p_n p' = p_n p /\ p_i p' = p_i p + 1 /\ p_ended p' = false /\
    (p_i p < 10 -> shown = true) /\
    (10 <= p_i p -> forall v, p_ips p = Some v -> (shown = true <-> v * ticklen <= inject_Z (p_i p - p_tick p))%Q) /\
    p_tick p' = (if shown then p_i p else p_tick p) /\ writes_bar len (p_n p) (p_i p) shown false out.
Proof.
  intros duration len p now now' ticklen T L LN N E I K. unfold progress_tick. rewrite E.
  set (shown := (p_i p <? 10) || late p ticklen). set (q := Prog (p_start p) (p_ips p) (p_i p) (p_i p) (p_n p) (p_max p) false).
  assert (B : exists p1 a, (if shown then bar duration len q now else Ok (p, [])) = Ok (p1, a) /\ p_n p1 = p_n p /\ p_i p1 = p_i p /\ p_ended p1 = false /\
     p_tick p1 = (if shown then p_i p else p_tick p) /\
     (if shown then exists mx t1 t2 t3 s, bar_text len (p_i p + 1) (p_n p) t1 t2 t3 s /\ over mx s a else a = [])).
  { destruct shown.
    - destruct (T (now - p_start q)%Q) as (t1 & D1). destruct (T (left_of q (now - p_start q))%Q) as (t2 & D2). destruct (T (now - p_start q + left_of q (now - p_start q))%Q) as (t3 & D3).
      destruct (bar_ok duration len q now t1 t2 t3) as (p' & s & out & A & B & C & D & D' & F & G & H & _); cbn [p_n p_i q]; try lia; try nia; try assumption.
      exists p', out. split; [exact A|]. split; [exact G|]. split; [exact F|]. split; [exact H|]. split; [exact D'|]. exists (p_max q), t1, t2, t3, s. split; assumption.
    - exists p, []. repeat split; assumption. }
  destruct B as (p1 & a & -> & B1 & B2 & B3 & B4 & B5). cbn [obind].
  assert (Si : p_i (step p1) = p_i p + 1) by (cbn; rewrite B2; unfold wrap64; change two64 with (2 ^ 64); apply Z.mod_small; lia).
  assert (Sn : p_n (step p1) = p_n p) by (cbn; exact B1). rewrite Si, Sn. destruct (Z.leb_spec (p_n p) (p_i p + 1)); [lia|].
  exists (step p1), a, shown. split; [reflexivity|]. split; [exact Sn|]. split; [exact Si|]. split; [exact B3|].
  split. { intros T10. unfold shown. rewrite (proj2 (Z.ltb_lt _ _) T10). reflexivity. }
  split. { intros T10 v V. unfold shown. rewrite (proj2 (Z.ltb_ge _ _) T10). cbn [orb]. unfold late. rewrite V. unfold wrap64. change two64 with (2 ^ 64).
    rewrite Z.mod_small by lia. apply Qle_bool_iff. }
  split; [exact B4|]. exists a. split; [symmetry; apply app_nil_r|exact B5].
Qed.
Print Assumptions C123_tick.
(* Finding: at its last iteration progress_tick writes the line again after having counted the iteration, that is with n+1
   iterations done among n.  If n is at most the length of the bar, the number of blanks after the dashes is then negative, and
   its conversion undefined (time.hpp:129). *)
Theorem C123_tick_end_UB : forall duration len p now now' ticklen, total duration -> len * (p_n p + 1) < 2 ^ 64 -> p_n p + 1 < 2 ^ 64 ->
  p_ended p = false -> 0 <= p_i p -> p_i p + 1 = p_n p -> p_n p <= len ->
  progress_tick duration len p now now' ticklen = UB.
Proof.
  intros duration len p now now' ticklen T LN N E I K Le. unfold progress_tick. rewrite E.
  set (q := Prog (p_start p) (p_ips p) (p_i p) (p_i p) (p_n p) (p_max p) false).
  assert (B : exists p1 a, (if (p_i p <? 10) || late p ticklen then bar duration len q now else Ok (p, [])) = Ok (p1, a) /\ p_n p1 = p_n p /\ p_i p1 = p_i p).
  { destruct ((p_i p <? 10) || late p ticklen).
    - destruct (T (now - p_start q)%Q) as (t1 & D1). destruct (T (left_of q (now - p_start q))%Q) as (t2 & D2). destruct (T (now - p_start q + left_of q (now - p_start q))%Q) as (t3 & D3).
      destruct (bar_ok duration len q now t1 t2 t3) as (p' & s & out & A & B & C & D & _ & F & G & H & _); cbn [p_n p_i q]; try lia; try nia; try assumption.
      exists p', out. split; [exact A|]. split; [exact G|exact F].
    - exists p, []. repeat split; reflexivity. }
  destruct B as (p1 & a & -> & B1 & B2). cbn [obind].
  assert (Si : p_i (step p1) = p_n p) by (cbn; rewrite B2; unfold wrap64; change two64 with (2 ^ 64); rewrite Z.mod_small; lia).
  assert (Sn : p_n (step p1) = p_n p) by (cbn; exact B1). rewrite Si, Sn. rewrite Z.leb_refl.
  unfold bar. rewrite Si, Sn. unfold wrap64. change two64 with (2 ^ 64). rewrite (Z.mod_small (p_n p + 1)) by lia. rewrite Z.mod_small by nia.
  destruct (Z.eqb_spec (p_n p) 0); [lia|]. destruct (Z.eqb_spec (p_n p + 1) 0); [lia|]. cbn [orb].
  assert (F : len + 1 <= len * (p_n p + 1) / p_n p) by (apply Z.div_le_lower_bound; nia).
  unfold size_of at 1. destruct ((0 <=? len * (p_n p + 1) / p_n p) && (len * (p_n p + 1) / p_n p <? 2 ^ 64)); cbn [obind]; [|reflexivity].
  unfold size_of at 1. destruct (Z.leb_spec 0 (len - len * (p_n p + 1) / p_n p)); [lia|]. reflexivity.
Qed.
Print Assumptions C123_tick_end_UB.
Example C123_tick_end_ex : progress_tick secs 32 (Prog 0 None 0 9 10 0 false) 1 1 1 = UB. Proof. vm_compute. reflexivity. Qed.
(* Finding: for longer processes the last line shows more iterations than there are, and up to 103%. *)
Theorem C123_tick_end_refuted : exists len p p' out, p_i p + 1 = p_n p /\ len < p_n p /\ progress_tick secs len p 99 99 1 = Ok (p', out) /\ p_ended p' = true /\
  out = "013"%char :: word "[--------------------------------] 34 103%, 99s elapsed, 0s left, 99s total" ++ ["010"%char].
Proof. exists 32, (Prog 0 None 0 32 33 0 false). eexists _, _. split; [reflexivity|]. split; [reflexivity|]. split; [vm_compute; reflexivity|]. split; reflexivity. Qed.
Print Assumptions C123_tick_end_refuted.
(* Finding: at the last iteration no time is left, and time_str(0) is undefined (C79): a progress bar never ends well. *)
Theorem C123_last_UB : forall len p now, 0 <= p_i p -> p_i p + 1 = p_n p -> p_n p < 2 ^ 64 -> 0 <= len -> len * p_n p < 2 ^ 64 ->
  bar TimeModel.time_str len p now = UB.
Proof.
  intros len p now I K N L LN. unfold bar. unfold wrap64. change two64 with (2 ^ 64). rewrite K, (Z.mod_small (p_n p)) by lia. rewrite (Z.mod_small (len * p_n p)) by nia.
  destruct (Z.eqb_spec (p_n p) 0); [lia|]. cbn [orb]. rewrite !Z.div_mul by lia.
  unfold size_of at 1. destruct ((0 <=? len) && (len <? 2 ^ 64)); [|reflexivity]. cbn [obind].
  rewrite Z.sub_diag. change (size_of 0) with (Ok 0). change (size_of 100) with (Ok 100). cbn [obind].
  assert (TU : forall q, TimeModel.time_str q = UB \/ exists s, TimeModel.time_str q = Ok s).
  { intros q. unfold TimeModel.time_str. destruct (negb (Qle_bool 1 q)); [destruct (Qle_bool q 0); [left; reflexivity|right]; destruct (Qle_bool (1 # 1000) q), (Qle_bool (1 # 1000000) q); eexists; reflexivity|].
    unfold TimeModel.to_size. cbv zeta.
    repeat (match goal with |- (obind (if ?c then _ else _) _ = UB) \/ _ => destruct c; cbn [obind]; [|left; reflexivity] end).
    right. eexists. reflexivity. }
  destruct (TU (now - p_start p)%Q) as [->|(t1 & ->)]; [reflexivity|]. cbn [obind].
  rewrite TimeProperties.C79_zero_UB; [reflexivity|].
  assert (Z0 : ((now - p_start p) * inject_Z (p_n p) / inject_Z (p_n p) - (now - p_start p) == 0)%Q).
  { field. intros H. unfold Qeq in H. cbn in H. lia. }
  destruct (Qle_bool 0 _); [rewrite Z0; lra|lra].
Qed.
Print Assumptions C123_last_UB.
(* Finding: nothing to do (n = 0) is not handled either: the length of the bar is a division by zero. *)
Theorem C123_zero_UB : forall duration len p now now' ticklen m ti, p_n p = 0 -> p_i p = 0 -> p_ended p = false -> 0 <= ti < 2 ^ 64 - 1 -> ti mod m = 0 ->
  progress duration len p now m = UB /\ progress_tick duration len p now now' ticklen = UB /\ print_progress duration len p now ti m = UB.
Proof.
  intros duration len p now now' ticklen m ti N I E Ti M.
  assert (B : forall q, p_n q = 0 -> bar duration len q now = UB) by (intros q H; unfold bar; rewrite H; reflexivity). split; [|split].
  - unfold progress. rewrite E, I. destruct (Z.eqb_spec m 0); [reflexivity|]. rewrite Z.mod_0_l by assumption. cbn [orb Z.eqb]. rewrite B by exact N. reflexivity.
  - unfold progress_tick. rewrite E, I. cbn [Z.ltb Z.compare orb]. rewrite B by exact N. reflexivity.
  - unfold print_progress. rewrite E, N. change (wrap64 (0 - 1)) with (2 ^ 64 - 1). destruct (Z.leb_spec (2 ^ 64 - 1) ti); [lia|].
    destruct (Z.eqb_spec m 0); [reflexivity|]. rewrite M. cbn [Z.eqb]. apply B. reflexivity.
Qed.
Print Assumptions C123_zero_UB.
