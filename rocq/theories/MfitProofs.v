(* Lemmas on fits of sums of templates: the loop over combinations. *)
From Coq Require Import QArith Lqa ZifyBool ZifyNat.
From Verif Require Import Base VecProofs VecProofs2 AsciiProofs6 IndexModel IndexSpec IndexProofs TfitModel MfitModel.
Local Open Scope nat_scope.

Lemma Forall2_impl_in {A B} (P Q : A -> B -> Prop) l m : (forall a b, In a l -> P a b -> Q a b) -> Forall2 P l m -> Forall2 Q l m.
Proof.
  intros H F. induction F; constructor; [apply H; [left; reflexivity|assumption]|]. apply IHF. intros. apply H; [right|]; assumption.
Qed.

(* b is the best of the first k combinations, for the fluxes y *)
Definition best_upto (att : list nat -> outcome attempt) (nsed : list nat) (y : list Q) (k : nat) (b : best) : Prop :=
  match b_chi2 b with
  | None => forall ids fit, in_range nsed ids -> row_major nsed ids < k -> att ids <> Ok (Try fit)
  | Some c => exists fit, in_range nsed (b_ids b) /\ row_major nsed (b_ids b) < k /\ att (b_ids b) = Ok (Try fit) /\ fit y = Ok (c, b_amp b) /\
      forall ids fit c' a, in_range nsed ids -> row_major nsed ids < k -> att ids = Ok (Try fit) -> fit y = Ok (c', a) ->
        (c <= c')%Q /\ (row_major nsed ids < row_major nsed (b_ids b) -> (c < c')%Q)
  end.

Section Loop.
Variables (att : list nat -> outcome attempt) (nsed : list nat).
Hypothesis Hne : nsed <> [].

Lemma best_skip y ids b : in_range nsed ids -> att ids = Ok Skip -> best_upto att nsed y (row_major nsed ids) b ->
  best_upto att nsed y (row_major nsed ids + 1) b.
Proof.
  intros Hr Ha. assert (K : forall i f, in_range nsed i -> row_major nsed i < row_major nsed ids + 1 -> att i = Ok (Try f) -> row_major nsed i < row_major nsed ids).
  { intros i f Hi Hlt Hf. destruct (Nat.eq_dec (row_major nsed i) (row_major nsed ids)) as [E|]; [|lia].
    apply (row_major_inj _ _ _ Hi Hr) in E. subst i. rewrite Ha in Hf. discriminate. }
  unfold best_upto. destruct (b_chi2 b) as [c|].
  - intros (f & H1 & H2 & H3 & H4 & H5). exists f. split; [exact H1|]. split; [lia|]. split; [exact H3|]. split; [exact H4|].
    intros i f' c' a Hi Hlt Hf. apply (H5 i f' c' a Hi); [|exact Hf]. eapply K; eassumption.
  - intros H i f Hi Hlt Hf. apply (H i f Hi); [|exact Hf]. eapply K; eassumption.
Qed.
Lemma best_try y ids fit c a b : in_range nsed ids -> att ids = Ok (Try fit) -> fit y = Ok (c, a) ->
  best_upto att nsed y (row_major nsed ids) b -> best_upto att nsed y (row_major nsed ids + 1) (improve b c ids a).
Proof.
  intros Hr Ha Hf. assert (K : forall i, in_range nsed i -> row_major nsed i < row_major nsed ids + 1 -> i = ids \/ row_major nsed i < row_major nsed ids).
  { intros i Hi Hlt. destruct (Nat.eq_dec (row_major nsed i) (row_major nsed ids)) as [E|]; [|lia]. left. exact (row_major_inj _ _ _ Hi Hr E). }
  unfold best_upto, improve. destruct (b_chi2 b) as [c0|] eqn:E0.
  - intros (f & H1 & H2 & H3 & H4 & H5). destruct (Qle_bool c0 c) eqn:El; cbn [negb].
    + rewrite E0. apply Qle_bool_iff in El. exists f. split; [exact H1|]. split; [lia|]. split; [exact H3|]. split; [exact H4|].
      intros i f' c' a' Hi Hlt Hf' Hy. destruct (K i Hi Hlt) as [->|L]; [|apply (H5 i f' c' a'); assumption].
      rewrite Ha in Hf'. injection Hf' as <-. rewrite Hf in Hy. injection Hy as <- <-. split; [exact El|]. lia.
    + assert (~ (c0 <= c)%Q) by (intros Kq; apply Qle_bool_iff in Kq; congruence). cbn [b_chi2 b_ids b_amp].
      exists fit. split; [exact Hr|]. split; [lia|]. split; [exact Ha|]. split; [exact Hf|].
      intros i f' c' a' Hi Hlt Hf' Hy. destruct (K i Hi Hlt) as [->|L].
      * rewrite Ha in Hf'. injection Hf' as <-. rewrite Hf in Hy. injection Hy as <- <-. split; [lra|]. lia.
      * destruct (H5 i f' c' a' Hi L Hf' Hy) as (P & _). split; [lra|]. intros _. lra.
  - intros H. cbn [b_chi2 b_ids b_amp]. exists fit. split; [exact Hr|]. split; [lia|]. split; [exact Ha|]. split; [exact Hf|].
    intros i f' c' a' Hi Hlt Hf' Hy. destruct (K i Hi Hlt) as [->|L]; [|destruct (H i f' Hi L Hf')].
    rewrite Ha in Hf'. injection Hf' as <-. rewrite Hf in Hy. injection Hy as <- <-. split; [lra|]. lia.
Qed.

Variables (y : list Q) (ysims : list (list Q)) (K : nat).
Hypothesis HK : K <= nprod nsed.
(* the first K combinations give no problem *)
Hypothesis Hfit : forall ids, in_range nsed ids -> row_major nsed ids < K ->
  att ids = Ok Skip \/ exists fit, att ids = Ok (Try fit) /\ forall z, In z (y :: ysims) -> exists c a, fit z = Ok (c, a).
(* and the next one, if any, stops the loop *)
Hypothesis Hend : K = nprod nsed \/ exists ids, in_range nsed ids /\ row_major nsed ids = K /\ att ids = Ok Stuck.

Definition inv (k : nat) (s : mstate) : Prop :=
  in_range nsed (m_ids s) /\ row_major nsed (m_ids s) = Nat.min k K mod nprod nsed /\
  best_upto att nsed y (Nat.min k K) (m_best s) /\ Forall2 (fun z b => best_upto att nsed z (Nat.min k K) b) ysims (m_sims s).

Lemma sims_ok fit ids (g : list Q -> best -> Prop) (g' : list Q -> best -> Prop) : forall zs bs,
  (forall z, In z zs -> exists c a, fit z = Ok (c, a)) ->
  (forall z b c a, fit z = Ok (c, a) -> g z b -> g' z (improve b c ids a)) ->
  Forall2 g zs bs ->
  exists bs', omapl (fun p : list Q * best => ' (c, amp) <- fit (fst p) ;; Ok (improve (snd p) c ids amp)) (combine zs bs) = Ok bs' /\ Forall2 g' zs bs'.
Proof.
  intros zs bs Hz Hg F. induction F as [|z b zs bs Gb F IH]; cbn [combine omapl]; [exists []; auto|].
  destruct (Hz z (or_introl eq_refl)) as (c & a & E). cbn [fst snd]. rewrite E. cbn [obind].
  destruct IH as (bs' & -> & F'); [intros; apply Hz; right; assumption|]. cbn [obind]. eexists. split; [reflexivity|].
  constructor; [eapply Hg; eassumption|exact F'].
Qed.

Lemma rounds_ok : exists s, rounds att nsed y ysims = Ok s /\ best_upto att nsed y K (m_best s) /\
  Forall2 (fun z b => best_upto att nsed z K b) ysims (m_sims s).
Proof.
  unfold rounds. cbv zeta.
  destruct (Nat.eq_dec (nprod nsed) 0) as [Z|NZ].
  - rewrite Z. cbn [seq ofold]. eexists. split; [reflexivity|]. cbn [m_best m_sims]. assert (K = 0) by lia. subst K.
    split; [intros ids fit _ Hlt; lia|]. induction ysims; cbn [repeat length]; constructor; [intros ids fit _ Hlt; lia|].
    apply IHl; intros. { destruct (Hfit ids) as [|(f & ? & G)]; [assumption|assumption|auto|right; exists f; split; [assumption|intros z [->|Hz]; apply G; [left|right; right]; auto]]. }
  - assert (Gen : forall n k s, k + n = nprod nsed -> inv k s ->
      exists s', ofold (fun s (_ : nat) => round att nsed y ysims s) (seq k n) s = Ok s' /\ inv (k + n) s').
    { induction n as [|n IH]; intros k s Hk Hs.
      - cbn [seq ofold]. exists s. rewrite Nat.add_0_r. auto.
      - cbn [seq ofold]. destruct s as [ids b sims]. destruct Hs as (I1 & I2 & I3 & I4). cbn [m_ids m_best m_sims] in *.
        assert (exists s1, round att nsed y ysims (MState ids b sims) = Ok s1 /\ inv (S k) s1) as (s1 & -> & H1).
        { unfold round. cbn [m_ids m_best m_sims]. destruct (Nat.lt_ge_cases k K) as [L|L].
          - replace (Nat.min k K) with k in * by lia. rewrite Nat.mod_small in I2 by lia.
            destruct (increment_spec nsed ids Hne I1) as (ids' & E1 & R1 & R2).
            destruct (Hfit ids I1 ltac:(lia)) as [Ha|(fit & Ha & Hz)].
            + rewrite Ha. cbn [obind]. rewrite E1. cbn [obind]. eexists. split; [reflexivity|]. unfold inv. cbn [m_ids m_best m_sims].
              replace (Nat.min (S k) K) with (row_major nsed ids + 1) by lia. split; [exact R1|]. split; [exact R2|].
              rewrite <- I2 in I3, I4. split; [apply best_skip; assumption|].
              eapply Forall2_impl_in; [|exact I4]. intros; apply best_skip; assumption.
            + rewrite Ha. cbn [obind]. destruct (Hz y (or_introl eq_refl)) as (c & a & Ey). rewrite Ey. cbn [obind].
              rewrite <- I2 in I3, I4.
              destruct (sims_ok fit ids (fun z b => best_upto att nsed z (row_major nsed ids) b) (fun z b => best_upto att nsed z (row_major nsed ids + 1) b)
                ysims sims (fun z Iz => Hz z (or_intror Iz)) (fun z b' c' a' Ef G => best_try z ids fit c' a' b' I1 Ha Ef G) I4) as (bs' & -> & F').
              cbn [obind]. rewrite E1. cbn [obind]. eexists. split; [reflexivity|]. unfold inv. cbn [m_ids m_best m_sims].
              replace (Nat.min (S k) K) with (row_major nsed ids + 1) by lia. split; [exact R1|]. split; [exact R2|].
              split; [eapply best_try; eassumption|exact F'].
          - replace (Nat.min k K) with K in * by lia.
            destruct Hend as [E|(ids0 & Hi0 & Hr0 & Ha0)]; [lia|].
            assert (B : K < nprod nsed) by (rewrite <- Hr0; apply row_major_bound; exact Hi0).
            rewrite Nat.mod_small in I2 by exact B.
            assert (ids = ids0) by (apply (row_major_inj nsed); [assumption|assumption|congruence]). subst ids0.
            rewrite Ha0. cbn [obind]. eexists. split; [reflexivity|]. unfold inv. replace (Nat.min (S k) K) with K by lia. cbn [m_ids m_best m_sims].
            rewrite Nat.mod_small by exact B. auto. }
        cbn [obind]. destruct (IH (S k) s1) as (s' & E & H'); [lia|exact H1|]. exists s'. split; [exact E|].
        replace (k + S n) with (S k + n) by lia. exact H'. }
    destruct (Gen (nprod nsed) 0 (MState (repeat 0 (length nsed)) (Best None [] []) (repeat (Best None (repeat 0 (length nsed)) (repeat 0%Q (length nsed))) (length ysims)))) as (s & E & (_ & _ & H3 & H4)).
    + reflexivity.
    + unfold inv. cbn [m_ids m_best m_sims Nat.min]. split; [apply in_range_zeros, nprod_pos; lia|].
      split; [rewrite row_major_zeros, Nat.mod_0_l by exact NZ; reflexivity|]. split; [intros ids fit _ Hlt; lia|].
      clear. induction ysims; cbn [repeat length]; constructor; [intros ids fit _ Hlt; lia|assumption].
    + exists s. split; [exact E|]. replace (Nat.min (0 + nprod nsed) K) with K in * by lia. auto.
Qed.
End Loop.
