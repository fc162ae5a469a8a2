(* Proofs about progress bars. *)
From Coq Require Import Ascii String QArith Qround Lqa Lia.
From Verif Require Import Base StrModel NumModel NumSpec NumProofs ProgModel ProgSpec.
Local Open Scope list_scope.
Local Open Scope Z_scope.

Lemma figure_lt c k : figure c k -> 0 <= Z.of_nat k < 10.
Proof. intros F. assert (K : (k < List.length decimal_digits)%nat) by (apply nth_error_Some; unfold figure in F; congruence). cbn in K. lia. Qed.
Lemma figure_pos c k : figure c k -> c <> "0"%char -> 1 <= Z.of_nat k.
Proof. intros F N. destruct k; [unfold figure in F; cbn in F; congruence|lia]. Qed.
Lemma ten_S k : 10 ^ Z.of_nat (S k) = 10 * 10 ^ Z.of_nat k.
Proof. rewrite Nat2Z.inj_succ, Z.pow_succ_r by lia. reflexivity. Qed.
Lemma writes_lt d n : writes d n -> 0 <= n < 10 ^ Z.of_nat (List.length d).
Proof.
  induction 1 as [c k F|d n c k W IH F]; apply figure_lt in F.
  - cbn. lia.
  - rewrite app_length, Nat.add_comm. cbn [List.length Nat.add]. rewrite ten_S. lia.
Qed.
Lemma writes_ge d n : writes d n -> (forall c r, d = c :: r -> c <> "0"%char) -> exists l, List.length d = S l /\ 10 ^ Z.of_nat l <= n.
Proof.
  induction 1 as [c k F|d n c k W IH F]; intros H.
  - exists 0%nat. split; [reflexivity|]. apply (figure_pos _ _ F). eapply H. reflexivity.
  - destruct IH as (l & L & B).
    + intros c' r ->. apply (H c' (r ++ [c])). reflexivity.
    + exists (S l). split; [rewrite app_length, L; cbn; lia|]. rewrite ten_S. apply figure_lt in F. lia.
Qed.
Lemma log10_ok f n : 1 <= n < 10 ^ Z.of_nat f -> let l := log10_floor f n in 10 ^ Z.of_nat l <= n < 10 ^ Z.of_nat (S l).
Proof.
  revert n. induction f as [|f IH]; intros n B; [cbn in B; lia|]. cbn [log10_floor]. destruct (Z.ltb_spec n 10).
  - cbn. lia.
  - rewrite ten_S in B. specialize (IH (n / 10)). cbv zeta in *. pose proof (Z.div_mod n 10 ltac:(lia)) as D. pose proof (Z.mod_pos_bound n 10 ltac:(lia)).
    destruct IH as [A C]; [lia|]. rewrite (ten_S (S _)). rewrite (ten_S (log10_floor _ _)) in *. lia.
Qed.
Lemma power_uniq a b n : 10 ^ Z.of_nat a <= n < 10 ^ Z.of_nat (S a) -> 10 ^ Z.of_nat b <= n < 10 ^ Z.of_nat (S b) -> a = b.
Proof.
  intros [A1 A2] [B1 B2]. assert (C : forall x y, (x < y)%nat -> 10 ^ Z.of_nat (S x) <= 10 ^ Z.of_nat y) by (intros x y H; apply Z.pow_le_mono_r; lia).
  destruct (Nat.lt_trichotomy a b) as [L|[L|L]]; [specialize (C _ _ L); lia|exact L|specialize (C _ _ L); lia].
Qed.
Lemma digits_log n : 1 <= n < 2 ^ 64 -> digits_of n (log10_floor 20 n + 1).
Proof.
  intros B. destruct (to_string_spec n) as (d & W & S & _). rewrite Z.abs_eq in W by lia. exists d. split; [exact W|]. split; [exact S|].
  assert (H : forall c r, d = c :: r -> c <> "0"%char).
  { destruct S as [->|(c & r & -> & N)]; [|intros c' r' E; injection E as <- <-; exact N].
    apply writes_iff in W. destruct W as (_ & _ & W). vm_compute in W. lia. }
  destruct (writes_ge d n W H) as (l & L & G). pose proof (writes_lt d n W) as U. rewrite L in U. rewrite L, Nat.add_1_r. f_equal.
  apply (power_uniq _ _ n); [split; [exact G|apply U]|]. apply log10_ok. split; [apply B|]. eapply Z.lt_trans; [apply B|reflexivity].
Qed.
Lemma number_ok w k : 0 <= k -> number_on w k (align_right (to_string k) w " "%char).
Proof.
  intros K. destruct (to_string_spec k) as (d & W & S & E). rewrite Z.abs_eq in W by lia. destruct (Z.ltb_spec k 0); [lia|]. cbn [app] in E.
  rewrite E. unfold align_right. destruct (Nat.ltb_spec (List.length d) w).
  - exists d, (w - List.length d)%nat. split; [exact W|]. split; [exact S|]. split; [reflexivity|]. right. rewrite app_length, repeat_length. lia.
  - exists d, 0%nat. split; [exact W|]. split; [exact S|]. split; [reflexivity|]. left. split; [reflexivity|lia].
Qed.

Section Bar.
Variables (duration : Q -> outcome (list ascii)) (len : Z).

Definition left_of (p : prog) (e : Q) : Q :=
  let r := (e * inject_Z (p_n p) / inject_Z (p_i p + 1) - e)%Q in if Qle_bool 0 r then r else 0%Q.
Lemma bar_ok p now t1 t2 t3 : 1 <= p_n p < 2 ^ 64 -> 0 <= p_i p -> p_i p + 1 < 2 ^ 64 -> 0 <= len -> len * (p_i p + 1) < 2 ^ 64 ->
  len * (p_i p + 1) < (len + 1) * p_n p -> 100 * (p_i p + 1) < 2 ^ 64 * p_n p ->
  let e := (now - p_start p)%Q in
  duration e = Ok t1 -> duration (left_of p e) = Ok t2 -> duration (e + left_of p e)%Q = Ok t3 ->
  exists p' s out, bar duration len p now = Ok (p', out) /\ bar_text len (p_i p + 1) (p_n p) t1 t2 t3 s /\ over (p_max p) s out /\
    p_start p' = p_start p /\ p_tick p' = p_tick p /\ p_i p' = p_i p /\ p_n p' = p_n p /\ p_ended p' = p_ended p /\
    p_max p' = Nat.max (p_max p) (List.length s).
Proof.
  intros N I I1 L L1 L2 L3 e D1 D2 D3. unfold bar.
  unfold wrap64. change two64 with (2 ^ 64). rewrite (Z.mod_small (p_i p + 1) (2 ^ 64)) by lia.
  destruct (Z.eqb_spec (p_n p) 0) as [?|Nz]; [lia|]. destruct (Z.eqb_spec (p_i p + 1) 0) as [?|Iz]; [lia|]. cbn [orb].
  rewrite (Z.mod_small (len * (p_i p + 1)) (2 ^ 64)) by nia.
  set (i1 := p_i p + 1) in *. set (n := p_n p) in *.
  assert (F : 0 <= len * i1 / n <= len).
  { split; [apply Z.div_pos; nia|]. enough (len * i1 / n < len + 1) by lia. apply Z.div_lt_upper_bound; lia. }
  assert (F' : len * i1 / n < 2 ^ 64) by (apply Z.div_lt_upper_bound; nia).
  assert (G : 0 <= 100 * i1 / n < 2 ^ 64) by (split; [apply Z.div_pos; lia|apply Z.div_lt_upper_bound; lia]).
  assert (LL : len < 2 ^ 64) by nia.
  assert (SZ : forall k, 0 <= k < 2 ^ 64 -> size_of k = Ok k).
  { intros k K. unfold size_of. rewrite (proj2 (Z.leb_le 0 k)), (proj2 (Z.ltb_lt k (2 ^ 64))) by apply K. reflexivity. }
  rewrite (SZ (len * i1 / n)) by lia. cbn [obind]. rewrite (SZ (len - len * i1 / n)) by lia. cbn [obind]. rewrite (SZ (100 * i1 / n)) by exact G. cbn [obind].
  fold e. rewrite D1. cbn [obind]. unfold left_of in D2, D3. cbv zeta in D2, D3. fold i1 n in D2, D3. rewrite D2. cbn [obind]. rewrite D3. cbn [obind].
  eexists _, _, _. split; [reflexivity|]. split; [|split; [|repeat split; reflexivity]].
  - exists (Z.to_nat (len * i1 / n)), (100 * i1 / n), (log10_floor 20 n + 1)%nat. eexists _, _.
    pose proof (Z.div_mod (len * i1) n ltac:(lia)) as M1. pose proof (Z.mod_pos_bound (len * i1) n ltac:(lia)) as M2.
    pose proof (Z.div_mod (100 * i1) n ltac:(lia)) as M3. pose proof (Z.mod_pos_bound (100 * i1) n ltac:(lia)) as M4.
    rewrite Z2Nat.id by lia. split; [unfold part_of; lia|]. split; [lia|]. split; [unfold part_of; lia|].
    split; [apply digits_log; exact N|]. split; [apply number_ok; lia|]. split; [apply number_ok; lia|]. reflexivity.
  - eexists. split; [reflexivity|]. lia.
Qed.
End Bar.
