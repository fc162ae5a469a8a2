(* Lemmas on the bucket algorithm, part 2: the search of one source. *)
From Coq Require Import ZifyBool ZifyNat Psatz.
From Verif Require Import Base IndexModel VecModel VecProofs ImageModel MatModel MatProofs XmatchModel XmatchSpec XmatchProofs XmatchProofs2 XmatchProofs3 XmatchProofs4 XbuckModel XbuckSpec XbuckProofs.

Local Open Scope nat_scope.

Lemma inso_osorted e : forall l, osorted l -> osorted (inso e l).
Proof.
  induction l as [|a l IH]; intros H; cbn [inso]; [repeat constructor|].
  apply StronglySorted_inv in H as (H & F). destruct (dlt (ed e) (ed a)) eqn:E.
  - constructor; [constructor; assumption|].
    assert (Ea : dlt (ed a) (ed e) = false) by (destruct (ed e), (ed a); cbn in *; try congruence; lia).
    constructor; [exact Ea|]. rewrite Forall_forall in F |- *. intros b Hb. apply dlt_trans_ge with (ed a); auto.
  - constructor; [exact (IH H)|].
    rewrite Forall_forall in F |- *. intros b Hb.
    assert (Hb' : b = e \/ In b l).
    { clear -Hb. revert Hb. induction l as [|c l IH]; cbn [inso].
      - intros [<-|[]]. auto.
      - destruct (dlt (ed e) (ed c)); intros [<-|Hb]; [auto|auto|right; left; reflexivity|].
        destruct (IH Hb); [auto|right; right; assumption]. }
    destruct Hb' as [->|Hb']; [exact E|auto].
Qed.
Lemma step_facts col sd j : osorted col -> col <> [] ->
  osorted (step col sd j) /\ length (step col sd j) = length col /\ hd None (step col sd j) = rstep (hd None col) sd j.
Proof.
  intros Hs Hne. destruct (exists_last Hne) as (B & a & ->). unfold step. rewrite last_last, removelast_last.
  assert (HB : osorted B) by (eapply osorted_app_l; exact Hs).
  destruct (dlt sd (ed a)) eqn:E.
  - rewrite insr_inso by (rewrite rev_involutive; exact HB). rewrite rev_involutive, app_nil_r.
    split; [apply inso_osorted, HB|]. split; [rewrite inso_length, app_length; cbn; lia|].
    destruct sd as [x|]; [|discriminate]. unfold rstep. destruct B as [|b B]; cbn [inso app hd].
    + rewrite E. reflexivity.
    + change (ed (Some (x, j))) with (Some x). destruct (dlt (Some x) (ed b)); reflexivity.
  - split; [exact Hs|]. split; [reflexivity|]. unfold rstep. destruct B as [|b B]; cbn [app hd].
    + rewrite E. reflexivity.
    + cbn [app] in Hs. apply StronglySorted_inv in Hs as (_ & F). rewrite Forall_forall in F.
      assert (Hl : dlt (ed a) (ed b) = false) by (apply F; apply in_or_app; right; left; reflexivity).
      rewrite (dlt_trans_ge _ _ _ E Hl). reflexivity.
Qed.

Section Loop.
Variables (f : field) (dist : nat -> nat -> option Z) (nth_ n1 n2 : nat) (self : bool) (ids : nat -> nat -> list nat).
Variables (bx by_ : nat -> nat).
Hypothesis Hids : forall x y j, In j (ids x y) <-> j < n2 /\ bx j = x /\ by_ j = y.
Hypothesis Hrange : forall j, j < n2 -> bx j < f_nx f /\ by_ j < f_ny f.
Hypothesis Hn : 1 <= nth_.

Definition inv (i : nat) (V : nat -> Prop) (col : list entry) : Prop :=
  length col = nth_ /\ osorted col /\
  (forall c, hd None col = Some c -> In c (candidates dist n2 self i)) /\
  (forall c, In c (candidates dist n2 self i) -> V (snd c) -> exists c0, hd None col = Some c0 /\ (fst c0 <= fst c)%Z).

Lemma inv_ext i (V W : nat -> Prop) col : (forall j, j < n2 -> W j -> V j) -> inv i V col -> inv i W col.
Proof.
  intros H (A & B & C & D). split; [exact A|]. split; [exact B|]. split; [exact C|].
  intros c Hc Hw. apply D; [exact Hc|]. apply H; [|exact Hw]. apply candidates_in in Hc. tauto.
Qed.
Lemma inv_step i V col j : j < n2 -> inv i V col ->
  inv i (fun j' => V j' \/ j' = j) (if self && (i =? j) then col else step col (dist i j) j).
Proof.
  intros Hj (A & B & C & D). destruct (self && (i =? j)) eqn:Es.
  - split; [exact A|]. split; [exact B|]. split; [exact C|]. intros c Hc [Hv|Hv]; [auto|].
    exfalso. apply candidates_in in Hc. subst j. destruct Hc as (_ & Hc & _). congruence.
  - assert (Hne : col <> []) by (intros ->; cbn in A; lia).
    destruct (step_facts col (dist i j) j B Hne) as (S1 & S2 & S3).
    split; [rewrite S2; exact A|]. split; [exact S1|]. rewrite S3. unfold rstep.
    destruct (dist i j) as [x|] eqn:Ed.
    + destruct (dlt (Some x) (ed (hd None col))) eqn:El.
      * split.
        -- intros c [= <-]. apply candidates_in. cbn. auto.
        -- intros c Hc [Hv|Hv].
           ++ destruct (D c Hc Hv) as (c0 & E0 & L0). rewrite E0 in El. cbn in El. exists (x, j). split; [reflexivity|]. cbn. lia.
           ++ exists (x, j). split; [reflexivity|]. apply candidates_in in Hc. destruct Hc as (_ & _ & Hc). rewrite Hv, Ed in Hc.
              injection Hc as ->. cbn. lia.
      * split; [exact C|]. intros c Hc [Hv|Hv]; [auto|].
        apply candidates_in in Hc. destruct Hc as (_ & _ & Hc). rewrite Hv, Ed in Hc. injection Hc as Hc.
        destruct (hd None col) as [c0|]; [|discriminate]. exists c0. split; [reflexivity|]. cbn in El. lia.
    + replace (dlt None (ed (hd None col))) with false by (destruct (ed _); reflexivity).
      split; [exact C|]. intros c Hc [Hv|Hv]; [auto|].
      apply candidates_in in Hc. destruct Hc as (_ & _ & Hc). rewrite Hv, Ed in Hc. discriminate.
Qed.

(* the results of the sources other than i do not change *)
Definition same_but (i : nat) (C C' : nat -> list entry) : Prop := forall i', i' <> i -> C' i' = C i'.
Notation state r C := (st nth_ n1 n2 true r C (fun _ => None)).

Lemma st_mirror r C R : st nth_ n1 n2 true r C R -> state r C.
Proof. intros H. exact H. Qed.

Lemma scan_ids i l : i < n1 -> (forall j, In j l -> j < n2) -> forall r C V, state r C -> inv i V (C i) ->
  exists r' C', ofold (fun r j => if self && (i =? j) then Ok r else work dist nth_ n1 true r i j) l r = Ok r' /\
    state r' C' /\ same_but i C C' /\ inv i (fun j => V j \/ In j l) (C' i).
Proof.
  intros Hi. induction l as [|j l IH]; intros Hl r C V Hst Hinv.
  - exists r, C. split; [reflexivity|]. split; [exact Hst|]. split; [intros i' _; reflexivity|].
    eapply inv_ext; [|exact Hinv]. intros j _ [H|[]]; exact H.
  - cbn [ofold]. assert (Hj : j < n2) by (apply Hl; left; reflexivity).
    pose proof (inv_step i V (C i) j Hj Hinv) as Hs.
    destruct (self && (i =? j)).
    + cbn [obind]. destruct (IH (fun j' H => Hl j' (or_intror H)) r C _ Hst Hs) as (r' & C' & E & A & B & D).
      exists r', C'. split; [exact E|]. split; [exact A|]. split; [exact B|]. eapply inv_ext; [|exact D].
      intros j' _ [H|[<-|H]]; auto.
    + destruct (work_ok dist nth_ n1 n2 true Hn r C (fun _ => None) i j Hst Hi Hj) as (r1 & E1 & S1). rewrite E1. cbn [obind].
      apply st_mirror in S1.
      destruct (IH (fun j' H => Hl j' (or_intror H)) r1 (updf C i (step (C i) (dist i j) j)) _ S1 ltac:(rewrite updf_eq; exact Hs))
        as (r' & C' & E & A & B & D).
      exists r', C'. split; [exact E|]. split; [exact A|]. split.
      * intros i' H. rewrite (B i' H). apply updf_neq. exact H.
      * eapply inv_ext; [|exact D]. intros j' _ [H|[<-|H]]; auto.
Qed.

Lemma scan_offs i x0 y0 l : i < n1 -> forall r C V, state r C -> inv i V (C i) ->
  exists r' C', ofold (fun r o => scan_bucket f dist nth_ n1 self ids i (Z.of_nat x0 + fst o) (Z.of_nat y0 + snd o) r) l r = Ok r' /\
    state r' C' /\ same_but i C C' /\
    inv i (fun j => V j \/ In (Z.of_nat (bx j) - Z.of_nat x0, Z.of_nat (by_ j) - Z.of_nat y0)%Z l) (C' i).
Proof.
  intros Hi. induction l as [|[a b] l IH]; intros r C V Hst Hinv.
  - exists r, C. split; [reflexivity|]. split; [exact Hst|]. split; [intros i' _; reflexivity|].
    eapply inv_ext; [|exact Hinv]. intros j _ [H|[]]; exact H.
  - cbn [ofold fst snd]. unfold scan_bucket at 1.
    match goal with |- context [if ?t then Ok r else _] => destruct t eqn:Et end.
    + cbn [obind]. destruct (IH r C V Hst Hinv) as (r' & C' & E & A & B & D). exists r', C'.
      split; [exact E|]. split; [exact A|]. split; [exact B|]. eapply inv_ext; [|exact D].
      intros j Hj [H|[H|H]]; [auto| |auto]. exfalso. injection H as H1 H2. destruct (Hrange j Hj). lia.
    + destruct (scan_ids i (ids (Z.to_nat (Z.of_nat x0 + a)) (Z.to_nat (Z.of_nat y0 + b))) Hi) with (r := r) (C := C) (V := V)
        as (r1 & C1 & E1 & A1 & B1 & D1); [intros j Hj; apply Hids in Hj; tauto|exact Hst|exact Hinv|].
      rewrite E1. cbn [obind]. destruct (IH r1 C1 _ A1 D1) as (r' & C' & E & A & B & D). exists r', C'.
      split; [exact E|]. split; [exact A|]. split; [intros i' H; rewrite (B i' H); apply B1, H|].
      eapply inv_ext; [|exact D]. intros j Hj [H|[H|H]]; [auto| |auto]. left; right. injection H as -> ->. apply Hids. lia.
Qed.

(* the sources in the buckets of depth < d *)
Definition seen (x0 y0 d : nat) (j : nat) : Prop := exists k, k < d /\
  In (Z.to_nat (Z.abs (Z.of_nat (bx j) - Z.of_nat x0)), Z.to_nat (Z.abs (Z.of_nat (by_ j) - Z.of_nat y0)))
     (fst (depth (f_c f) (f_nx f) (f_ny f) k)).

Lemma search_ok i x0 y0 cd : i < n1 -> forall fuel d r C, fuel + d = Nat.max (f_nx f) (f_ny f) -> fuel <> 0 ->
  state r C -> inv i (seen x0 y0 d) (C i) ->
  exists k r' C', search f dist nth_ n1 self ids fuel d i x0 y0 cd r = Ok r' /\ state r' C' /\ same_but i C C' /\
    k < Nat.max (f_nx f) (f_ny f) /\ inv i (seen x0 y0 (k + 1)) (C' i) /\
    (k + 1 = Nat.max (f_nx f) (f_ny f) \/
     exists c, hd None (C' i) = Some c /\ (400 * fst c <= reached f cd k * reached f cd k)%Z).
Proof.
  intros Hi. induction fuel as [|fuel IH]; intros d r C Hf Hnz Hst Hinv; [lia|]. cbn [search].
  destruct (offsets_In f d) as (l & El & Hl); [lia|]. rewrite El. cbn [obind].
  destruct (scan_offs i x0 y0 l Hi r C _ Hst Hinv) as (r1 & C1 & E1 & A1 & B1 & D1). rewrite E1. cbn [obind].
  assert (D1' : inv i (seen x0 y0 (d + 1)) (C1 i)).
  { eapply inv_ext; [|exact D1]. intros j _ (k & Hk & Hin). destruct (Nat.eq_dec k d) as [->|].
    - right. eapply Hl; [exact Hin|lia|lia].
    - left. exists k. split; [lia|exact Hin]. }
  destruct A1 as (A1c & A1m).
  destruct (cols_get nth_ n1 _ _ C1 i (nth_ - 1) A1c Hi) as (G & _); [lia|]. rewrite G. cbn [obind].
  assert (A1 : state r1 C1) by (split; [exact A1c|exact A1m]).
  destruct (beyond (ed (nth (nth_ - 1) (C1 i) None)) (reached f cd d)) eqn:Eb; cbn [andb].
  - destruct (Nat.ltb_spec (d + 1) (Nat.max (f_nx f) (f_ny f))).
    + destruct (IH (d + 1) r1 C1) as (k & r' & C' & E & S1 & S2 & S3 & S4 & S5); [lia|lia|exact A1|exact D1'|].
      exists k, r', C'. split; [exact E|]. split; [exact S1|]. split; [intros i' H'; rewrite (S2 i' H'); apply B1, H'|]. auto.
    + exists d, r1, C1. split; [reflexivity|]. split; [exact A1|]. split; [exact B1|]. split; [lia|]. split; [exact D1'|]. left. lia.
  - exists d, r1, C1. split; [reflexivity|]. split; [exact A1|]. split; [exact B1|]. split; [lia|]. split; [exact D1'|]. right.
    destruct D1' as (L & So & _). unfold beyond in Eb.
    destruct (nth (nth_ - 1) (C1 i) None) as [cl|] eqn:En; [|discriminate]. cbn [ed option_map] in Eb.
    destruct (C1 i) as [|c0 rest] eqn:EC; [cbn in L; lia|]. cbn [hd].
    assert (Hle : dlt (ed (Some cl)) (ed c0) = false).
    { destruct (nth_ - 1) as [|m] eqn:Em.
      - cbn in En. subst c0. apply dlt_irrefl.
      - cbn [nth] in En. apply StronglySorted_inv in So as (_ & F). rewrite Forall_forall in F. rewrite <- En. apply F.
        apply nth_In. cbn in L. lia. }
    destruct c0 as [c0|]; [|discriminate]. exists c0. split; [reflexivity|]. cbn in Hle. lia.
Qed.
End Loop.
