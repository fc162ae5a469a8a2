From Coq Require Import Ascii NArith Lia.
From Verif Require Import Base VecModel VecProofs StrModel StrSpec StrProofs StrProofs2 StrProofs3
  AsciiModel AsciiSpec AsciiProofs AsciiProofs2.
Local Open Scope nat_scope.

Section Layout.
Context {V : Type}.
Variable dflt : V.
Implicit Types (sto : list (list (list V))) (args : list (arg V)).

Lemma group_layout_nth a m k cols : forall c j,
  nth_error (group_layout (V:=V) a m k cols c) j =
  match nth_error cols j with Some q => Some (option_map (mk_dest a (c + j) m k) q) | None => None end.
Proof.
  induction cols as [|q t IH]; intros c [|j]; try reflexivity.
  - cbn. now rewrite Nat.add_0_r.
  - cbn [group_layout nth_error]. rewrite IH. now rewrite Nat.add_succ_r.
Qed.
Lemma group_layout_length a m k cols c : length (group_layout (V:=V) a m k cols c) = length cols.
Proof. revert c. induction cols; intro; cbn; auto. Qed.

Definition dest_of (g : arg V) (a : nat) (d : dest V) : Prop :=
  d_arg d = a /\
  match g with
  | AVec _ p => d_col d = 0 /\ d_mul d = 1 /\ d_off d = 0
  | AScalar _ p => d_col d = 0 /\ d_mul d = 0 /\ d_off d = 0
  | ASkip _ => False
  | AGroup _ m cols => (exists p, nth_error cols (d_col d) = Some (Some p)) /\ d_mul d = m /\ d_off d < m
  end.

Lemma arg_layout_dest a g d : In (Some d) (arg_layout a g) -> dest_of g a d.
Proof.
  destruct g as [p|p| |m cols]; cbn [arg_layout]; intro H.
  - destruct H as [H|[]]. injection H as <-. now repeat split.
  - destruct H as [H|[]]. injection H as <-. now repeat split.
  - destruct H as [H|[]]. discriminate H.
  - apply in_concat in H. destruct H as (x & Hx & H). apply in_map_iff in Hx. destruct Hx as (k & <- & Hk).
    apply in_seq in Hk. apply In_nth_error in H. destruct H as (j & H). rewrite group_layout_nth in H.
    destruct (nth_error cols j) as [[p|]|] eqn:E; try discriminate H. injection H as <-.
    split; [reflexivity|]. cbn. split; [eauto|]. split; [reflexivity|lia].
Qed.

Lemma layout_dest args : forall a d, In (Some d) (layout a args) ->
  exists k g, nth_error args k = Some g /\ dest_of g (a + k) d.
Proof.
  induction args as [|g t IH]; intros a d H; [destruct H|]. cbn [layout] in H. apply in_app_or in H. destruct H as [H|H].
  - exists 0, g. split; [reflexivity|]. rewrite Nat.add_0_r. now apply arg_layout_dest.
  - destruct (IH _ _ H) as (k & g' & E & D). exists (S k), g'. split; [exact E|]. now rewrite Nat.add_succ_r.
Qed.

Lemma dests_app (a b : list (option (dest V))) : dests (a ++ b) = dests a ++ dests b.
Proof. unfold dests. apply flat_map_app. Qed.

Lemma group_nodup i a m k cols : forall c, NoDup (map (addr i) (dests (group_layout (V:=V) a m k cols c))) /\
  forall x, In x (map (addr i) (dests (group_layout (V:=V) a m k cols c))) -> exists c', c <= c' /\ x = (a, c', i * m + k).
Proof.
  induction cols as [|[p|] t IH]; intro c; cbn [group_layout option_map].
  - split; [constructor|intros x []].
  - destruct (IH (S c)) as [N H].
    change (dests (Some (mk_dest a c m k p) :: group_layout a m k t (S c))) with
      (mk_dest a c m k p :: dests (group_layout a m k t (S c))). cbn [map]. split.
    + constructor; [|exact N]. intro I. destruct (H _ I) as (c' & L & E).
      unfold addr in E. cbn in E. injection E as ->. lia.
    + intros x [<-|I]; [exists c; split; [lia|reflexivity]|]. destruct (H _ I) as (c' & L & E). exists c'. split; [lia|exact E].
  - destruct (IH (S c)) as [N H].
    change (dests (None :: group_layout a m k t (S c))) with (dests (group_layout a m k t (S c))).
    split; [exact N|]. intros x I. destruct (H x I) as (c' & L & E). exists c'. split; [lia|exact E].
Qed.

Lemma arg_nodup i a (g : arg V) : NoDup (map (addr i) (dests (arg_layout a g))).
Proof.
  destruct g as [p|p| |m cols]; cbn [arg_layout].
  - cbn. repeat constructor. intros [].
  - cbn. repeat constructor. intros [].
  - constructor.
  - enough (G : forall n s, NoDup (map (addr i) (dests (concat (map (fun k => group_layout (V:=V) a m k cols 0) (seq s n))))) /\
      forall x, In x (map (addr i) (dests (concat (map (fun k => group_layout (V:=V) a m k cols 0) (seq s n))))) ->
        exists c k, s <= k /\ x = (a, c, i * m + k)) by apply G.
    induction n as [|n IH]; intro s; [split; [constructor|intros x []]|].
    cbn [seq map concat]. rewrite dests_app, map_app. destruct (IH (S s)) as [N H].
    destruct (group_nodup i a m s cols 0) as [N0 H0]. split.
    + apply NoDup_app_intro; [exact N0|exact N|]. intros x I1 I2. destruct (H0 x I1) as (c1 & _ & E1).
      destruct (H x I2) as (c2 & k & L & E2). rewrite E1 in E2. injection E2 as _ E2. lia.
    + intros x I. apply in_app_or in I. destruct I as [I|I].
      * destruct (H0 x I) as (c1 & _ & E1). exists c1, s. split; [lia|exact E1].
      * destruct (H x I) as (c1 & k & L & E1). exists c1, k. split; [lia|exact E1].
Qed.

Lemma layout_nodup i args : forall a, NoDup (map (addr i) (dests (layout a args))).
Proof.
  induction args as [|g t IH]; intro a; [constructor|]. cbn [layout]. rewrite dests_app, map_app.
  apply NoDup_app_intro; [apply arg_nodup|apply IH|]. intros x I1 I2.
  apply in_map_iff in I1. destruct I1 as (d1 & E1 & I1). apply in_map_iff in I2. destruct I2 as (d2 & E2 & I2).
  apply dests_In in I1. apply arg_layout_dest in I1. apply dests_In in I2. apply layout_dest in I2.
  destruct I2 as (k & g' & _ & D2). destruct D2 as [D2 _]. destruct I1 as [D1 _].
  rewrite <- E1 in E2. unfold addr in E2. injection E2 as E2 _ _. lia.
Qed.

(* --- storage --- *)
Lemma sized_nth args n sto k g : sized args n sto -> nth_error args k = Some g ->
  exists cols, nth_error sto k = Some cols /\
    match g with
    | AVec _ _ => exists l, cols = [l] /\ length l = n
    | AScalar _ _ => exists x, cols = [[x]] /\ n <= 1
    | ASkip _ => cols = []
    | AGroup _ m qs => Forall2 (fun q l => q <> None -> length l = n * m) qs cols
    end.
Proof.
  intros H. revert k. induction H as [|g0 c0 args sto H0 H IH]; intros [|k] E; try discriminate E.
  - injection E as <-. exists c0. split; [reflexivity|exact H0].
  - apply (IH k E).
Qed.

Lemma Forall2_nth A B (R : A -> B -> Prop) l1 l2 : Forall2 R l1 l2 -> forall k x, nth_error l1 k = Some x ->
  exists y, nth_error l2 k = Some y /\ R x y.
Proof.
  induction 1 as [|x y l1 l2 H0 H IH]; intros [|k] z E; try discriminate E.
  - injection E as <-. now exists y.
  - apply (IH k z E).
Qed.
Lemma Forall2_len A B (R : A -> B -> Prop) l1 l2 : Forall2 R l1 l2 -> length l1 = length l2.
Proof. induction 1; cbn; auto. Qed.

Lemma sized_inb args n sto i : sized args n sto -> i < n -> Forall (inb sto i) (dests (layout 0 args)).
Proof.
  intros H L. apply Forall_forall. intros d I. apply dests_In in I. apply layout_dest in I.
  destruct I as (k & g & E & D1 & D2). cbn in D1. destruct (sized_nth _ _ _ _ _ H E) as (cols & E1 & Sz).
  unfold inb, elem. rewrite D1, E1. destruct g as [p|p| |m qs].
  - destruct D2 as (-> & -> & ->). destruct Sz as (l & -> & Ll). cbn [nth_error]. apply nth_error_Some. lia.
  - destruct D2 as (-> & -> & ->). destruct Sz as (x & -> & _). rewrite Nat.mul_0_r. discriminate.
  - destruct D2.
  - destruct D2 as ((p & Ep) & -> & Lo). destruct (Forall2_nth _ _ _ _ _ Sz _ _ Ep) as (l & -> & Ll).
    apply nth_error_Some. rewrite Ll by discriminate. nia.
Qed.

Lemma map_inv A B (f : A -> B) l y ys : map f l = y :: ys -> exists x t, l = x :: t /\ f x = y /\ map f t = ys.
Proof. destruct l as [|x t]; [discriminate|]. intro H. injection H as H1 H2. eauto. Qed.

Lemma sized_shape args n sto sto' : sized args n sto -> shape sto' = shape sto -> sized args n sto'.
Proof.
  unfold shape. intros H. revert sto'. induction H as [|g c args sto H0 H IH]; intros sto' E.
  - destruct sto'; [constructor|discriminate E].
  - apply map_inv in E. destruct E as (c' & t & -> & Ec & Et). constructor; [|now apply IH].
    destruct g as [p|p| |m qs].
    + destruct H0 as (l & -> & L). cbn in Ec. apply map_inv in Ec. destruct Ec as (l' & t' & -> & El & E').
      destruct t'; [|discriminate E']. exists l'. split; [reflexivity|lia].
    + destruct H0 as (x & -> & L). cbn in Ec. apply map_inv in Ec. destruct Ec as (l' & t' & -> & El & E').
      destruct t'; [|discriminate E']. destruct l' as [|y [|z l']]; try discriminate El. now exists y.
    + subst c. destruct c'; [reflexivity|discriminate Ec].
    + clear - H0 Ec. revert c' Ec. induction H0 as [|q l qs c H1 H2 IH]; intros c' Ec.
      * destruct c'; [constructor|discriminate Ec].
      * apply map_inv in Ec. destruct Ec as (l' & t' & -> & El & E'). constructor; [|now apply IH].
        intro N. rewrite El. now apply H1.
Qed.

Lemma rows_apart args n sto i1 i2 : sized args n sto -> i1 < n -> i2 < n -> i1 <> i2 ->
  forall x, In x (map (addr i1) (dests (layout 0 args))) -> In x (map (addr i2) (dests (layout 0 args))) -> False.
Proof.
  intros H L1 L2 N x I1 I2. apply in_map_iff in I1. destruct I1 as (d1 & E1 & I1).
  apply in_map_iff in I2. destruct I2 as (d2 & E2 & I2). apply dests_In in I1. apply dests_In in I2.
  apply layout_dest in I1. apply layout_dest in I2. destruct I1 as (k1 & g1 & A1 & B1 & C1).
  destruct I2 as (k2 & g2 & A2 & B2 & C2). rewrite <- E1 in E2. unfold addr in E2. injection E2 as F1 F2 F3.
  assert (k1 = k2) by lia. subst k2. rewrite A1 in A2. injection A2 as <-.
  destruct (sized_nth _ _ _ _ _ H A1) as (cols & _ & Sz). destruct g1 as [p|p| |m qs].
  - destruct C1 as (_ & M1 & O1), C2 as (_ & M2 & O2). rewrite M1, O1, M2, O2 in F3. lia.
  - destruct Sz as (y & _ & Ln). lia.
  - destruct C1.
  - destruct C1 as (_ & M1 & O1), C2 as (_ & M2 & O2). rewrite M1, M2 in F3. nia.
Qed.

Lemma resize_data_ok n : (N.of_nat n <= max_elems)%N -> resize_data V dflt (N.of_nat n) = Ok (repeat dflt n).
Proof. intro H. unfold resize_data. apply N.leb_le in H. now rewrite H, Nnat.Nat2N.id. Qed.

Lemma resize_ok args n : fits_rows args n -> exists sto, omapl (resize_arg V dflt (N.of_nat n)) args = Ok sto /\ sized args n sto.
Proof.
  induction 1 as [|g t Hg H IH]; [exists []; split; [reflexivity|constructor]|].
  destruct IH as (sto & E & Sz). cbn [omapl].
  enough (G : exists c, resize_arg V dflt (N.of_nat n) g = Ok c /\
     match g with
    | AVec _ _ => exists l, c = [l] /\ length l = n
    | AScalar _ _ => exists x, c = [[x]] /\ n <= 1
    | ASkip _ => c = []
    | AGroup _ m qs => Forall2 (fun q l => q <> None -> length l = n * m) qs c
    end).
  { destruct G as (c & -> & Sc). cbn [obind]. rewrite E. cbn [obind]. exists (c :: sto). split; [reflexivity|].
    constructor; assumption. }
  destruct g as [p|p| |m qs]; cbn [resize_arg].
  - rewrite resize_data_ok by exact Hg. eexists; split; [reflexivity|]. eexists; split; [reflexivity|]. apply repeat_length.
  - destruct (N.leb_spec (N.of_nat n) 1) as [_|X]; [|lia]. cbn. eexists; split; [reflexivity|]. now exists dflt.
  - eexists; split; reflexivity.
  - assert (Mx : ((N.of_nat n * N.of_nat m) mod two64N = N.of_nat (n * m))%N).
    { rewrite <- Nnat.Nat2N.inj_mul in *. apply N.mod_small. unfold max_elems, two64N in *. lia. }
    rewrite Mx. assert (R : resize_data V dflt (N.of_nat (n * m)) = Ok (repeat dflt (n * m))).
    { apply resize_data_ok. lia. }
    rewrite R. clear. induction qs as [|[q|] qs IH]; [exists []; split; [reflexivity|constructor]| |];
      destruct IH as (c & E & F); cbn [omapl obind]; rewrite E; cbn [obind]; eexists; (split; [reflexivity|]);
      constructor; auto.
    + intros _. apply repeat_length.
    + intro X. now elim X.
Qed.
End Layout.
