From Coq Require Import Ascii String QArith Qround Lqa.
From Verif Require Import Base StrModel NumModel NumSpec NumProofs TimeModel TimeSpec.
Local Open Scope Z_scope.

(* --- floors ----------------------------------------------------------------------- *)
Lemma Qfloor_uniq : forall x n, (inject_Z n <= x)%Q -> (x < inject_Z (n + 1))%Q -> Qfloor x = n.
Proof.
  intros x n A B. pose proof (Qfloor_le x). pose proof (Qlt_floor x).
  assert (inject_Z n < inject_Z (Qfloor x + 1))%Q by (eapply Qle_lt_trans; eauto).
  assert (inject_Z (Qfloor x) < inject_Z (n + 1))%Q by (eapply Qle_lt_trans; eauto).
  rewrite <- Zlt_Qlt in *. lia.
Qed.
Lemma Qfloor_sub : forall x z, Qfloor (x - inject_Z z) = Qfloor x - z.
Proof.
  intros x z. pose proof (Qfloor_le x). pose proof (Qlt_floor x). apply Qfloor_uniq.
  - unfold Z.sub. rewrite inject_Z_plus, inject_Z_opp. lra.
  - replace (Qfloor x - z + 1) with (Qfloor x + 1 + - z) by lia. rewrite inject_Z_plus, inject_Z_opp. lra.
Qed.
Lemma Qfloor_div : forall x k, 0 < k -> Qfloor (x / inject_Z k) = Qfloor x / k.
Proof.
  intros x k Hk. pose proof (Qfloor_le x) as A. pose proof (Qlt_floor x) as B. set (n := Qfloor x) in *. clearbody n.
  pose proof (Z.div_mod n k ltac:(lia)) as D. pose proof (Z.mod_pos_bound n k Hk) as M. set (q := n / k) in *. clearbody q.
  assert (K : (0 < inject_Z k)%Q) by (change 0%Q with (inject_Z 0); now rewrite <- Zlt_Qlt).
  apply Qfloor_uniq.
  - apply Qle_shift_div_l; auto. rewrite <- inject_Z_mult. eapply Qle_trans; [|exact A]. rewrite <- Zle_Qle. lia.
  - apply Qlt_shift_div_r; auto. rewrite <- inject_Z_mult. eapply Qlt_le_trans; [exact B|]. rewrite <- Zle_Qle. lia.
Qed.
Lemma Qfloor_eq : forall x y, (x == y)%Q -> Qfloor x = Qfloor y.
Proof. intros x y E. now rewrite E. Qed.
Lemma to_size_Z : forall x z, (x == inject_Z z)%Q -> 0 <= z < 2 ^ 64 -> to_size x = Ok z.
Proof.
  intros x z E R. unfold to_size. assert (L : Qle_bool 0 x = true).
  { apply Qle_bool_iff. rewrite E. change 0%Q with (inject_Z 0). rewrite <- Zle_Qle. lia. }
  rewrite L. rewrite (Qfloor_eq _ _ E), Qfloor_Z. cbv zeta.
  rewrite (proj2 (Z.leb_le 0 z)), (proj2 (Z.ltb_lt z (2 ^ 64))) by lia. reflexivity.
Qed.

(* --- digits ------------------------------------------------------------------------ *)
Lemma to_string_plain : forall x u, 0 <= x -> plain_field (x, u) (to_string x ++ u).
Proof.
  intros x u H. destruct (to_string_spec x) as (d & W & S1 & E). rewrite (proj2 (Z.ltb_ge x 0) H) in E. cbn [app] in E.
  rewrite Z.abs_eq in W by auto. exists d. now rewrite E.
Qed.
Definition pad_ok (w : nat) (x : Z) : bool :=
  let d := pad x w in forallb is_digit d && (value d =? x) && (List.length d =? w)%nat && negb (List.length d =? 0)%nat.
Lemma pad_check : forall w n, forallb (pad_ok w) (map Z.of_nat (seq 0 n)) = true -> forall x u, 0 <= x < Z.of_nat n ->
  wide_field w (x, u) (pad x w ++ u).
Proof.
  intros w n F x u R. rewrite forallb_forall in F.
  assert (I : In x (map Z.of_nat (seq 0 n))).
  { apply in_map_iff. exists (Z.to_nat x). split; [lia|]. apply in_seq. lia. }
  apply F in I. unfold pad_ok in I. cbv zeta in I. rewrite !Bool.andb_true_iff in I. destruct I as (((A & B) & C) & D).
  exists (pad x w). cbn [fst snd]. apply Z.eqb_eq in B. apply Nat.eqb_eq in C. split; [|auto]. apply writes_iff. repeat split; auto.
  - intros E. now rewrite E in D.
  - rewrite forallb_forall in A. exact A.
Qed.
Lemma pad2_wide : forall x u, 0 <= x < 100 -> wide_field 2 (x, u) (pad x 2 ++ u).
Proof. apply (pad_check 2 100). vm_compute. reflexivity. Qed.
Lemma pad3_wide : forall x u, 0 <= x < 1000 -> wide_field 3 (x, u) (pad x 3 ++ u).
Proof. apply (pad_check 3 1000). vm_compute. reflexivity. Qed.
Lemma to_string_head : forall x, 0 < x -> exists c r, to_string x = c :: r /\ Ascii.eqb c "0"%char = false.
Proof.
  intros x H. destruct (to_string_spec x) as (d & W & [->|(c & r & -> & N)] & E).
  - exfalso. apply writes_iff in W. destruct W as (_ & _ & V). cbn in V. lia.
  - rewrite (proj2 (Z.ltb_ge x 0)) in E by lia. exists c, r. split; auto. now apply Ascii.eqb_neq.
Qed.
Definition first_zero (date : list ascii) : list ascii :=
  match date with
  | c :: r => if Ascii.eqb c "0"%char && negb (List.length date =? 2)%nat then r else date
  | [] => date
  end.
Definition pad2_form (x : Z) : bool :=
  match pad x 2 with
  | c :: r => if Ascii.eqb c "0"%char then (if list_eq_dec ascii_dec r (to_string x) then true else false)
              else (if list_eq_dec ascii_dec (c :: r) (to_string x) then true else false)
  | [] => false
  end.
Lemma first_zero_pad : forall x u r, 1 <= x < 100 -> first_zero (pad x 2 ++ u :: r) = to_string x ++ u :: r.
Proof.
  intros x u r R. assert (F : forallb pad2_form (map Z.of_nat (seq 1 99)) = true) by (vm_compute; reflexivity).
  rewrite forallb_forall in F. assert (I : In x (map Z.of_nat (seq 1 99))).
  { apply in_map_iff. exists (Z.to_nat x). split; [lia|]. apply in_seq. lia. }
  apply F in I. unfold pad2_form in I. destruct (to_string_head x ltac:(lia)) as (c & t & E & Nc).
  destruct (pad x 2) as [|c' r']; [discriminate|]. cbn [app first_zero].
  destruct (Ascii.eqb c' "0"%char) eqn:Z0.
  - destruct (list_eq_dec ascii_dec r' (to_string x)) as [->|]; [|discriminate]. rewrite E. destruct t; reflexivity.
  - destruct (list_eq_dec ascii_dec (c' :: r') (to_string x)) as [<-|]; [|discriminate]. reflexivity.
Qed.
Lemma first_zero_plain : forall x r, 0 < x -> first_zero (to_string x ++ r) = to_string x ++ r.
Proof. intros x r H. destruct (to_string_head x H) as (c & t & -> & N). cbn [app first_zero]. now rewrite N. Qed.

Lemma fields_mk : forall w f fs a ts txt, plain_field f a -> Forall2 (wide_field w) fs ts -> txt = a ++ concat ts -> fields_text w (f :: fs) txt.
Proof. intros; subst. now constructor. Qed.
Lemma time_str_fields : forall t, (1 <= t)%Q -> Qfloor t < 2 ^ 64 ->
  let n := Qfloor t in
  exists txt, time_str t = Ok txt /\
    fields_text 2 (present [(n / 86400, ["d"%char]); (n mod 86400 / 3600, ["h"%char]); (n mod 3600 / 60, ["m"%char])] ++ [(n mod 60, ["s"%char])]) txt.
Proof.
  intros t T B n. assert (N : 1 <= n).
  { unfold n. change 1 with (Qfloor 1). now apply Qfloor_resp_le. }
  unfold time_str. rewrite (proj2 (Qle_bool_iff 1 t) T). cbn [negb]. fold n in B.
  assert (E1 : Qfloor (t / 86400) = n / 86400) by (change 86400%Q with (inject_Z 86400); now apply Qfloor_div).
  assert (E2 : Qfloor (t / 3600) = n / 3600) by (change 3600%Q with (inject_Z 3600); now apply Qfloor_div).
  assert (E3 : Qfloor (t / 60) = n / 60) by (change 60%Q with (inject_Z 60); now apply Qfloor_div).
  assert (S0 : forall a b, (inject_Z a - inject_Z b == inject_Z (a - b))%Q).
  { intros a b. unfold Z.sub. rewrite inject_Z_plus, inject_Z_opp. reflexivity. }
  rewrite (to_size_Z (floorq (t / 86400)) (n / 86400)); [|unfold floorq; now rewrite E1|Z.div_mod_to_equations; lia].
  cbn [Base.obind].
  rewrite (to_size_Z _ (n mod 86400 / 3600)).
  2:{ unfold floorq. rewrite E2, S0. apply inject_Z_injective. Z.div_mod_to_equations; lia. }
  2:{ Z.div_mod_to_equations; lia. }
  cbn [Base.obind].
  rewrite (to_size_Z _ (n mod 3600 / 60)).
  2:{ unfold floorq. rewrite E3, !S0. apply inject_Z_injective. Z.div_mod_to_equations; lia. }
  2:{ Z.div_mod_to_equations; lia. }
  cbn [Base.obind].
  rewrite (to_size_Z _ (n mod 60)).
  2:{ unfold floorq. fold n. rewrite !S0. apply inject_Z_injective. Z.div_mod_to_equations; lia. }
  2:{ Z.div_mod_to_equations; lia. }
  cbn [Base.obind]. cbv zeta.
  assert (Hd : 0 <= n / 86400) by (Z.div_mod_to_equations; lia).
  assert (Hh : 0 <= n mod 86400 / 3600 < 100) by (Z.div_mod_to_equations; lia).
  assert (Hm : 0 <= n mod 3600 / 60 < 100) by (Z.div_mod_to_equations; lia).
  assert (Hs : 0 <= n mod 60 < 100) by (Z.div_mod_to_equations; lia).
  assert (Hn : n / 86400 = 0 -> n mod 86400 / 3600 = 0 -> n mod 3600 / 60 = 0 -> n mod 60 <> 0).
  { intros. Z.div_mod_to_equations; lia. }
  set (d := n / 86400) in *. set (h := n mod 86400 / 3600) in *. set (m := n mod 3600 / 60) in *. set (s := n mod 60) in *.
  clearbody d h m s. eexists. split; [reflexivity|].
  match goal with |- fields_text _ _ (match ?x with [] => _ | _ => _ end) => change (match x with [] => x | c :: r => if Ascii.eqb c "0"%char && negb (List.length x =? 2)%nat then r else x end) with (first_zero x) end.
  cbn [present filter fst negb].
  destruct (Z.eqb_spec d 0) as [D0|D0]; destruct (Z.eqb_spec h 0) as [H0|H0]; destruct (Z.eqb_spec m 0) as [M0|M0]; cbn [negb app];
    rewrite <- ?app_assoc; cbn [app];
    first [rewrite first_zero_plain by lia | rewrite first_zero_pad by lia];
    (eapply fields_mk; [apply to_string_plain; lia
                       |repeat (apply Forall2_cons; [apply pad2_wide; lia|]); apply Forall2_nil
                       |cbn [concat]; rewrite <- ?app_assoc; cbn [app]; reflexivity]).
Qed.

(* --- seconds_str -------------------------------------------------------------------------- *)
Lemma erase_zeros_pad : forall x r, 0 < x -> (4 <= List.length r)%nat -> erase_zeros (pad x 3 ++ r) = to_string x ++ r.
Proof.
  intros x r H L. destruct (to_string_head x H) as (c & t & E & N). unfold pad, align_right.
  assert (G : forall k, erase_zeros ((repeat "0"%char k ++ to_string x) ++ r) = to_string x ++ r).
  { induction k as [|k IH]; cbn [repeat app].
    - rewrite E. cbn [app erase_zeros]. now rewrite N.
    - cbn [erase_zeros]. rewrite IH.
      destruct (Nat.eqb_spec (List.length ("0"%char :: (repeat "0"%char k ++ to_string x) ++ r)) 3) as [Q|Q]; [|reflexivity].
      cbn [List.length] in Q. rewrite app_length in Q. lia. }
  destruct (List.length (to_string x) <? 3)%nat; [apply G|apply (G 0%nat)].
Qed.
Lemma erase_zeros_plain : forall x r, 0 < x -> erase_zeros (to_string x ++ r) = to_string x ++ r.
Proof. intros x r H. destruct (to_string_head x H) as (c & t & -> & N). cbn [app erase_zeros]. now rewrite N. Qed.
Definition ns_form (x : Z) : bool :=
  if list_eq_dec ascii_dec (erase_zeros (pad x 3 ++ ["n"; "s"]%char)) (to_string x ++ ["n"; "s"]%char) then true else false.
Lemma erase_zeros_ns : forall x, 0 <= x < 1000 -> erase_zeros (pad x 3 ++ ["n"; "s"]%char) = to_string x ++ ["n"; "s"]%char.
Proof.
  intros x R. assert (F : forallb ns_form (map Z.of_nat (seq 0 1000)) = true) by (vm_compute; reflexivity).
  rewrite forallb_forall in F. assert (I : In x (map Z.of_nat (seq 0 1000))).
  { apply in_map_iff. exists (Z.to_nat x). split; [lia|]. apply in_seq. lia. }
  apply F in I. unfold ns_form in I. destruct (list_eq_dec ascii_dec _ _); [assumption|discriminate].
Qed.

Lemma seconds_str_fields : forall t, (0 <= t)%Q -> Qfloor t < 2 ^ 64 ->
  let n := Qfloor (t * 1000000000) in
  exists txt, seconds_str t = Ok txt /\
    fields_text 3 (from_first [(n / 1000000000, ["s"%char]); (n / 1000000 mod 1000, ["m"; "s"]%char); (n / 1000 mod 1000, ["u"; "s"]%char)]
                     ++ [(n mod 1000, ["n"; "s"]%char)]) txt.
Proof.
  intros t T B n. assert (N : 0 <= n).
  { unfold n. change 0 with (Qfloor 0). apply Qfloor_resp_le. lra. }
  assert (E0 : Qfloor t = n / 1000000000).
  { unfold n. rewrite <- Qfloor_div by lia. apply Qfloor_eq. change (inject_Z 1000000000) with 1000000000%Q. field. }
  assert (E1 : Qfloor (t * 1000) = n / 1000000).
  { unfold n. rewrite <- Qfloor_div by lia. apply Qfloor_eq. change (inject_Z 1000000) with 1000000%Q. field. }
  assert (E2 : Qfloor (t * 1000000) = n / 1000).
  { unfold n. rewrite <- Qfloor_div by lia. apply Qfloor_eq. change (inject_Z 1000) with 1000%Q. field. }
  unfold seconds_str. rewrite E0 in B.
  rewrite (to_size_Z (floorq t) (n / 1000000000)); [|unfold floorq; now rewrite E0|Z.div_mod_to_equations; lia]. cbn [Base.obind].
  set (sec := n / 1000000000) in *.
  assert (F1 : Qfloor ((t - inject_Z sec) * 1000) = n / 1000000 mod 1000).
  { rewrite (Qfloor_eq _ (t * 1000 - inject_Z (sec * 1000))); [|rewrite inject_Z_mult; change (inject_Z 1000) with 1000%Q; ring].
    rewrite Qfloor_sub, E1. unfold sec. Z.div_mod_to_equations; lia. }
  rewrite (to_size_Z _ (n / 1000000 mod 1000)); [|unfold floorq; now rewrite F1|Z.div_mod_to_equations; lia]. cbn [Base.obind].
  set (ms := n / 1000000 mod 1000) in *.
  assert (F2 : Qfloor (((t - inject_Z sec) * 1000 - inject_Z ms) * 1000) = n / 1000 mod 1000).
  { rewrite (Qfloor_eq _ (t * 1000000 - inject_Z (sec * 1000000 + ms * 1000)))
      by (rewrite inject_Z_plus, !inject_Z_mult; change (inject_Z 1000) with 1000%Q; change (inject_Z 1000000) with 1000000%Q; ring).
    rewrite Qfloor_sub, E2. unfold sec, ms. Z.div_mod_to_equations; lia. }
  rewrite (to_size_Z _ (n / 1000 mod 1000)); [|unfold floorq; now rewrite F2|Z.div_mod_to_equations; lia]. cbn [Base.obind].
  set (us := n / 1000 mod 1000) in *.
  assert (F3 : Qfloor ((((t - inject_Z sec) * 1000 - inject_Z ms) * 1000 - inject_Z us) * 1000) = n mod 1000).
  { rewrite (Qfloor_eq _ (t * 1000000000 - inject_Z (sec * 1000000000 + ms * 1000000 + us * 1000)))
      by (rewrite !inject_Z_plus, !inject_Z_mult; change (inject_Z 1000) with 1000%Q; change (inject_Z 1000000) with 1000000%Q;
          change (inject_Z 1000000000) with 1000000000%Q; ring).
    rewrite Qfloor_sub. fold n. unfold sec, ms, us. Z.div_mod_to_equations; lia. }
  rewrite (to_size_Z _ (n mod 1000)); [|unfold floorq; now rewrite F3|Z.div_mod_to_equations; lia]. cbn [Base.obind]. cbv zeta.
  assert (Hs : 0 <= sec) by (unfold sec; Z.div_mod_to_equations; lia).
  assert (Hm : 0 <= ms < 1000) by (unfold ms; Z.div_mod_to_equations; lia).
  assert (Hu : 0 <= us < 1000) by (unfold us; Z.div_mod_to_equations; lia).
  assert (Hn : 0 <= n mod 1000 < 1000) by (Z.div_mod_to_equations; lia).
  set (ns := n mod 1000) in *. clearbody sec ms us ns. clear -Hs Hm Hu Hn.
  eexists. split; [reflexivity|]. cbn [from_first fst].
  assert (Le : forall a (b : list ascii) c, (List.length (a ++ c :: b) =? 0)%nat = false).
  { intros a b c. apply Nat.eqb_neq. rewrite app_length. cbn. lia. }
  destruct (Z.eqb_spec sec 0) as [S0|S0]; [destruct (Z.eqb_spec ms 0) as [M0|M0]; [destruct (Z.eqb_spec us 0) as [U0|U0]|]|];
    cbn [negb orb app List.length Nat.eqb];
    rewrite ?(app_assoc (pad _ _)), ?Le, ?Bool.orb_true_r; cbn [negb orb]; rewrite ?(app_assoc _ (pad _ _)), ?Le, ?Bool.orb_true_r;
    cbn [negb orb]; rewrite ?Le, ?Bool.orb_true_r; cbn [negb]; rewrite <- ?app_assoc; cbn [app].
  1: rewrite erase_zeros_ns by lia.
  2,3: rewrite erase_zeros_pad by (try lia; cbn [List.length]; rewrite app_length; cbn [List.length]; lia).
  4: rewrite erase_zeros_plain by lia.
  all: (eapply fields_mk; [apply to_string_plain; lia
                       |repeat (apply Forall2_cons; [apply pad3_wide; lia|]); apply Forall2_nil
                       |cbn [concat]; rewrite <- ?app_assoc; cbn [app]; reflexivity]).
Qed.
