From Coq Require Import Ascii NArith Lia.
From Verif Require Import Base VecModel StrModel StrSpec StrProofs StrProofs2 StrProofs3 AsciiModel AsciiSpec AsciiProofs.
Local Open Scope nat_scope.

(* s gives the fields fs (seen through at most n reads) *)
Fixpoint feed (n : nat) (s : splitter) (fs : list str) : Prop :=
  match n with
  | O => True
  | S n => match fs with
      | [] => exists s', next_word s = Ok (None, s')
      | w :: t => exists s', next_word s = Ok (Some w, s') /\ feed n s' t
      end
  end.

Lemma feed_rem n : forall s fs, (sp_single s = true -> sp_delim s <> []) -> rem s fs -> feed n s fs.
Proof.
  induction n as [|n IH]; intros s fs D R; [exact I|]. cbn [feed]. pose proof (next_word_ok s fs D R) as H.
  destruct fs as [|w t]; [now exists s|]. destruct H as (s' & E & R' & E1 & E2). exists s'. split; [exact E|].
  apply IH; [now rewrite E1, E2|exact R'].
Qed.

Lemma feed_stuck n s : sp_single s = true -> sp_pos s = Some 0 ->
  (exists r, sp_line s = sp_delim s ++ r) -> feed n s (repeat [] n).
Proof.
  intros A B C. induction n as [|n IH]; [exact I|]. cbn [feed repeat]. exists s.
  split; [now apply next_word_stuck|exact IH].
Qed.

Section Row.
Context {V : Type}.
Implicit Types (sto : list (list (list V))) (L : list (option (dest V))).

Definition to_call (i : nat) (q : option (dest V)) : call V :=
  match q with None => CSkip V | Some d => CRead V (d_parse d) (d_arg d) (d_col d) (i * d_mul d + d_off d) end.

Lemma group_calls_layout a i m k cols : forall c,
  group_calls V a i m k cols c = map (to_call i) (group_layout a m k cols c).
Proof.
  induction cols as [|[p|] t IH]; intro c; cbn [group_calls group_layout map option_map to_call d_parse d_arg d_col d_mul d_off];
    [reflexivity| |]; now rewrite IH.
Qed.
Lemma arg_calls_layout i a g : arg_calls V i a g = map (to_call i) (arg_layout a g).
Proof.
  destruct g as [p|p| |m cols]; cbn [arg_calls arg_layout map to_call d_parse d_arg d_col d_mul d_off].
  - now rewrite Nat.mul_1_r, Nat.add_0_r.
  - now rewrite Nat.mul_0_r.
  - reflexivity.
  - rewrite flat_map_concat_map, concat_map, map_map. f_equal. apply map_ext. intro k. apply group_calls_layout.
Qed.
Lemma row_calls_layout i args : forall a, row_calls V i a args = map (to_call i) (layout a args).
Proof.
  induction args as [|g t IH]; intro a; [reflexivity|]. cbn [row_calls layout].
  now rewrite map_app, arg_calls_layout, IH.
Qed.

(* --- writing one element --- *)
Definition shape sto := map (map (@length V)) sto.

Lemma set_elem sto a c i v : elem sto a c i <> None ->
  exists sto', (cols <- oget sto a ;; l <- oget cols c ;; l' <- oset l i v ;;
     cols' <- oset cols c l' ;; oset sto a cols') = Ok sto' /\ shape sto' = shape sto /\
  (forall a' c' i', elem sto' a' c' i' =
     if (a' =? a) && (c' =? c) && (i' =? i) then Some v else elem sto a' c' i').
Proof.
  intro H. unfold elem in H. destruct (nth_error sto a) as [cols|] eqn:E1; [|easy].
  destruct (nth_error cols c) as [l|] eqn:E2; [|easy].
  destruct (nth_error l i) as [x|] eqn:E3; [|easy].
  assert (L1 : a < length sto) by (apply nth_error_Some; congruence).
  assert (L2 : c < length cols) by (apply nth_error_Some; congruence).
  assert (L3 : i < length l) by (apply nth_error_Some; congruence).
  exists (upd sto a (upd cols c (upd l i v))).
  split.
  - unfold oget. rewrite E1. cbn [obind]. rewrite E2. cbn [obind].
    unfold oset. rewrite (proj2 (Nat.ltb_lt _ _) L3). cbn [obind].
    rewrite (proj2 (Nat.ltb_lt _ _) L2). cbn [obind].
    now rewrite (proj2 (Nat.ltb_lt _ _) L1).
  - split.
    + unfold shape. apply list_eq_nth_error. intro k. rewrite !nth_error_map, nth_error_upd.
      destruct (Nat.eqb_spec k a) as [->|N]; cbn [andb]; [|reflexivity].
      rewrite (proj2 (Nat.ltb_lt _ _) L1), E1. cbn [option_map]. f_equal.
      apply list_eq_nth_error. intro k. rewrite !nth_error_map, nth_error_upd.
      destruct (Nat.eqb_spec k c) as [->|N]; cbn [andb]; [|reflexivity].
      rewrite (proj2 (Nat.ltb_lt _ _) L2), E2. cbn [option_map]. now rewrite upd_length.
    + intros a' c' i'. unfold elem. rewrite nth_error_upd.
      destruct (Nat.eqb_spec a' a) as [->|N]; cbn [andb]; [|reflexivity].
      rewrite (proj2 (Nat.ltb_lt _ _) L1), E1, nth_error_upd.
      destruct (Nat.eqb_spec c' c) as [->|N]; cbn [andb]; [|reflexivity].
      rewrite (proj2 (Nat.ltb_lt _ _) L2), E2, nth_error_upd.
      destruct (Nat.eqb_spec i' i) as [->|N]; cbn [andb]; [|reflexivity].
      now rewrite (proj2 (Nat.ltb_lt _ _) L3).
Qed.

(* --- one row --- *)
Definition addr (i : nat) (d : dest V) : nat * nat * nat := (d_arg d, d_col d, i * d_mul d + d_off d).
Definition inb sto (i : nat) (d : dest V) : Prop := elem sto (d_arg d) (d_col d) (i * d_mul d + d_off d) <> None.

Definition parsed L (fs : list str) : Prop :=
  length L <= length fs /\
  forall j d, nth_error L j = Some (Some d) -> exists w v, nth_error fs j = Some w /\ d_parse d w = Some v.

Lemma parsed_nil fs : parsed [] fs.
Proof. split; [cbn; lia|]. intros [|j] d H; discriminate H. Qed.
Lemma parsed_cons q L w fs : parsed (q :: L) (w :: fs) <->
  (forall d, q = Some d -> exists v, d_parse d w = Some v) /\ parsed L fs.
Proof.
  split.
  - intros [H1 H2]. split.
    + intros d ->. destruct (H2 0 d eq_refl) as (w' & v & E & P). injection E as ->. eauto.
    + split; [cbn in H1; lia|]. intros j d E. apply (H2 (S j) d E).
  - intros [H1 [H2 H3]]. split; [cbn; lia|]. intros [|j] d E.
    + injection E as ->. destruct (H1 d eq_refl) as (v & P). now exists w, v.
    + apply (H3 j d E).
Qed.

Lemma next_false s s' : next_word s = Ok (None, s') -> skip_word s = (false, s').
Proof. intro E. pose proof (skip_as_next s) as H. now rewrite E in H. Qed.
Lemma next_true s w s' : next_word s = Ok (Some w, s') -> skip_word s = (true, s').
Proof. intro E. pose proof (skip_as_next s) as H. now rewrite E in H. Qed.

Lemma do_read p a c idx s sto w s' v : next_word s = Ok (Some w, s') -> p w = Some v -> elem sto a c idx <> None ->
  exists sto', do_call V (s, sto) (CRead V p a c idx) = Ok (s', sto') /\ shape sto' = shape sto /\
  (forall a' c' i', elem sto' a' c' i' =
     if (a' =? a) && (c' =? c) && (i' =? idx) then Some v else elem sto a' c' i').
Proof.
  intros E P B. destruct (set_elem sto a c idx v B) as (sto' & H & S1 & S2).
  exists sto'. split; [|easy]. unfold do_call. rewrite E. cbn [obind]. rewrite P.
  destruct (oget sto a) as [cols| | | |]; try discriminate H. cbn [obind] in *.
  destruct (oget cols c) as [l| | | |]; try discriminate H. cbn [obind] in *.
  destruct (oset l idx v) as [l'| | | |]; try discriminate H. cbn [obind] in *.
  destruct (oset cols c l') as [cols'| | | |]; try discriminate H. cbn [obind] in *.
  rewrite H. reflexivity.
Qed.

Definition dests L : list (dest V) := flat_map (fun q => match q with Some d => [d] | None => [] end) L.
Lemma dests_In L d : In d (dests L) <-> In (Some d) L.
Proof.
  unfold dests. rewrite in_flat_map. split.
  - intros ([d'|] & I & H); [|destruct H]. destruct H as [->|[]]. exact I.
  - intro I. exists (Some d). split; [exact I|now left].
Qed.

Lemma row_good i L : forall s sto fs, feed (length L) s fs -> parsed L fs -> Forall (inb sto i) (dests L) ->
  NoDup (map (addr i) (dests L)) ->
  exists s' sto', ofold (do_call V) (map (to_call i) L) (s, sto) = Ok (s', sto') /\ shape sto' = shape sto /\
   (forall j d w v, nth_error L j = Some (Some d) -> nth_error fs j = Some w -> d_parse d w = Some v ->
       elem sto' (d_arg d) (d_col d) (i * d_mul d + d_off d) = Some v) /\
   (forall a c k, ~ In (a, c, k) (map (addr i) (dests L)) -> elem sto' a c k = elem sto a c k).
Proof.
  induction L as [|q L IH]; intros s sto fs F P B N.
  - exists s, sto. cbn. repeat split; auto. intros [|j] d w v H; discriminate H.
  - destruct fs as [|w fs]; [exfalso; destruct P as [P _]; cbn in P; lia|].
    apply parsed_cons in P. destruct P as [P1 P2]. cbn [length feed] in F. destruct F as (s1 & E & F).
    cbn [map ofold]. destruct q as [d|].
    + cbn [dests flat_map app map] in N, B. fold (dests L) in N, B. inversion N as [|? ? N1 N2]; subst.
      inversion B as [|? ? B1 B2]; subst.
      destruct (P1 d eq_refl) as (v & Pv).
      destruct (do_read (d_parse d) (d_arg d) (d_col d) (i * d_mul d + d_off d) s sto w s1 v E Pv B1) as (sto1 & E1 & Sh & El).
      cbn [to_call]. rewrite E1. cbn [obind].
      destruct (IH s1 sto1 fs F P2) as (s' & sto' & E2 & Sh2 & Z1 & Z2).
      * eapply Forall_impl; [|exact B2]. intros x Hx. unfold inb in *. rewrite El.
        destruct ((_ =? _) && _ && _); [discriminate|exact Hx].
      * exact N2.
      * exists s', sto'. split; [exact E2|]. split; [congruence|]. split.
        -- intros [|j] d0 w0 v0 H1 H2 H3.
           ++ cbn in H1, H2. injection H1 as <-. injection H2 as <-.
              rewrite Z2; [|exact N1]. rewrite El, !Nat.eqb_refl. cbn. congruence.
           ++ now apply (Z1 j d0 w0 v0).
        -- intros a c k HN. cbn [dests flat_map app map] in HN. fold (dests L) in HN. rewrite Z2.
           ++ rewrite El. destruct (Nat.eqb_spec a (d_arg d)) as [->|]; [|reflexivity].
              destruct (Nat.eqb_spec c (d_col d)) as [->|]; [|reflexivity].
              destruct (Nat.eqb_spec k (i * d_mul d + d_off d)) as [->|]; [|reflexivity].
              exfalso. apply HN. now left.
           ++ intro. apply HN. now right.
    + cbn [to_call do_call]. rewrite (next_true _ _ _ E). cbn [obind].
      destruct (IH s1 sto fs F P2 B N) as (s' & sto' & E2 & Sh2 & Z1 & Z2).
      exists s', sto'. split; [exact E2|]. split; [exact Sh2|]. split; [|exact Z2].
      intros [|j] d0 w0 v0 H1 H2 H3; [discriminate H1|]. now apply (Z1 j d0 w0 v0).
Qed.

Lemma row_bad i L : forall s sto fs, feed (length L) s fs -> ~ parsed L fs -> Forall (inb sto i) (dests L) ->
  ofold (do_call V) (map (to_call i) L) (s, sto) = CheckFail.
Proof.
  induction L as [|q L IH]; intros s sto fs F P B; [exfalso; apply P, parsed_nil|].
  cbn [map ofold length feed] in *. destruct fs as [|w fs].
  - destruct F as (s' & E). destruct q as [d|]; cbn [to_call do_call].
    + rewrite E. reflexivity.
    + now rewrite (next_false _ _ E).
  - destruct F as (s1 & E & F). destruct q as [d|].
    + cbn [dests flat_map app] in B. fold (dests L) in B. inversion B as [|? ? B1 B2]; subst.
      destruct (d_parse d w) as [v|] eqn:Pv.
      * destruct (do_read (d_parse d) (d_arg d) (d_col d) (i * d_mul d + d_off d) s sto w s1 v E Pv B1) as (sto1 & E1 & Sh & El).
        cbn [to_call]. rewrite E1. cbn [obind]. apply (IH _ _ fs F).
        -- intro P2. apply P, parsed_cons. split; [|exact P2]. intros d' H. injection H as <-. eauto.
        -- eapply Forall_impl; [|exact B2]. intros x Hx. unfold inb in *. rewrite El.
           destruct ((_ =? _) && _ && _); [discriminate|exact Hx].
      * cbn [to_call do_call]. rewrite E. cbn [obind]. now rewrite Pv.
    + cbn [to_call do_call]. rewrite (next_true _ _ _ E). cbn [obind]. apply (IH _ _ fs F); [|exact B].
      intro P2. apply P, parsed_cons. split; [|exact P2]. discriminate.
Qed.
Lemma parsed_dec L : forall fs, {parsed L fs} + {~ parsed L fs}.
Proof.
  induction L as [|q L IH]; intro fs; [left; apply parsed_nil|].
  destruct fs as [|w fs]; [right; intros [H _]; cbn in H; lia|].
  destruct (IH fs) as [P|P]; [|right; intro H; apply parsed_cons in H; tauto].
  destruct q as [d|].
  - destruct (d_parse d w) as [v|] eqn:E.
    + left. apply parsed_cons. split; [|exact P]. intros d' H. injection H as <-. eauto.
    + right. intro H. apply parsed_cons in H. destruct H as [H _]. destruct (H d eq_refl) as (v & E'). congruence.
  - left. apply parsed_cons. split; [discriminate|exact P].
Qed.
End Row.
