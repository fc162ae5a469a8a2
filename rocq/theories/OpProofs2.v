(* Proofs for in-place operators and vectorized functions. *)
From Verif Require Import Base IndexModel VecModel VecSpec VecProofs ViewModel ViewProofs OpModel OpSpec OpProofs.
From Coq Require Import String.
Local Open Scope list_scope.
Local Open Scope nat_scope.

(* an in-place result: the returned vector is as for the copying operator, vector k
   was moved from *)
Definition result_of {A} (st' : store A) (res : outcome (store A * vec A)) (e : outcome (vec A)) : Prop :=
  res = omap (fun r => (st', r)) e.

Section IP.
Context {A B : Type}.

Lemma ip_elementwise (f : A -> B -> outcome A) (st : store A) k v (u : vec B) st' res (mk : list A -> store A) :
  nth_error st k = Some v -> List.length (v_data v) = List.length (v_data u) -> v_dims v = v_dims u ->
  res = omap (fun r => (mk r, mk_vec (v_dims v) r)) (each f (v_data v) (v_data u)) ->
  (forall r, pointwise f (v_data v) (v_data u) r -> mk r = st' r) ->
  exists e, elementwise f v u e /\ res = omap (fun r => (st' (v_data r), r)) e.
Proof.
  intros Hv L D -> M. exists (omap (mk_vec (v_dims v)) (each f (v_data v) (v_data u))). split.
  - unfold elementwise. destruct (list_eq_dec Nat.eq_dec (v_dims v) (v_dims u)); [|contradiction].
    apply each_spec. exact L.
  - destruct (each_spec' A B A (list A) f (v_data v) (v_data u) (fun x => x) L) as [(r & E & P)|F].
    + unfold omap in *. destruct (each f (v_data v) (v_data u)); try discriminate. simpl in *.
      injection E as ->. rewrite (M r P). reflexivity.
    + destruct F as (i & a & b & _ & _ & Ho & _). unfold omap in *.
      destruct (each f (v_data v) (v_data u)); simpl in *; try reflexivity.
      exfalso. destruct Ho as [[_ H]|[[_ H]|[[_ H]|[_ H]]]]; discriminate.
Qed.

Lemma ip_checkfail (f : A -> B -> outcome A) v (u : vec B) : v_dims v <> v_dims u -> elementwise f v u CheckFail.
Proof. intros D. unfold elementwise. destruct (list_eq_dec Nat.eq_dec (v_dims v) (v_dims u)); [contradiction|reflexivity]. Qed.

Definition emptied (st : store A) k (v : vec A) : store A := upd st k (mk_vec (repeat 0 (List.length (v_dims v))) []).

(* vec&& op vec, where the other operand is read by get and has value u *)
Lemma ip_vv_gen (f : A -> B -> outcome A) (st : store A) k v (u : vec B) get :
  nth_error st k = Some v -> shaped v -> shaped u ->
  (forall p i b, i < List.length (v_data v) -> List.length p = i -> nth_error (v_data u) i = Some b ->
     get (upd st k (mk_vec (v_dims v) (p ++ skipn i (v_data v)))) i = Ok b) ->
  exists e, elementwise f v u e /\ ip_vv f st k (v_dims u) get = omap (fun r => (emptied st k v, r)) e.
Proof.
  intros Hv Sv Su G. unfold ip_vv, oget at 1. rewrite Hv. cbn [obind]. rewrite dims_eqb_dec.
  destruct (list_eq_dec Nat.eq_dec (v_dims v) (v_dims u)) as [D|D]; cbn [check obind].
  - assert (L : List.length (v_data v) = List.length (v_data u)) by (unfold shaped in *; congruence).
    apply (ip_elementwise f st k v u (fun _ => emptied st k v) _ (fun _ => emptied st k v)); auto.
    apply ip_result; auto.
  - exists CheckFail. split; [apply ip_checkfail, D|reflexivity].
Qed.

Lemma ip_uv_gen (f : B -> A -> outcome A) (st : store A) k v (u : vec B) get :
  nth_error st k = Some v -> shaped v -> shaped u ->
  (forall p i b, i < List.length (v_data v) -> List.length p = i -> nth_error (v_data u) i = Some b ->
     get (upd st k (mk_vec (v_dims v) (p ++ skipn i (v_data v)))) i = Ok b) ->
  exists e, elementwise f u v e /\ ip_uv f st (v_dims u) get k = omap (fun r => (emptied st k v, r)) e.
Proof.
  intros Hv Sv Su G.
  destruct (ip_vv_gen (fun y x => f x y) st k v u get Hv Sv Su G) as (e & E & R).
  exists e. split; [|exact R]. revert E. unfold elementwise.
  destruct (list_eq_dec Nat.eq_dec (v_dims v) (v_dims u)) as [D|D]; destruct (list_eq_dec Nat.eq_dec (v_dims u) (v_dims v)) as [D'|D']; try congruence.
  rewrite D. intros [(r & -> & L1 & L2 & P)|(i & a & b & H1 & H2 & Ho & Hb)].
  - left. exists r. repeat split; auto. intros i a b c Ha Hb Hc. exact (P i b a c Hb Ha Hc).
  - right. exists i, b, a. repeat split; auto. intros j a' b' Hj Ha Hb'. exact (Hb j b' a' Hj Hb' Ha).
Qed.

Lemma spread_shaped (C : Type) (v : vec A) (x : C) : shaped v -> shaped (spread v x).
Proof. unfold shaped, spread. simpl. rewrite repeat_length. auto. Qed.

Lemma ip_vs_gen (f : A -> B -> outcome A) (st : store A) k v x get :
  nth_error st k = Some v ->
  (forall w, get (upd st k w) = Ok x) ->
  exists e, elementwise f v (spread v x) e /\ ip_vs f st k get = omap (fun r => (emptied st k v, r)) e.
Proof.
  intros Hv G. unfold ip_vs, oget at 1. rewrite Hv. cbn [obind].
  apply (ip_elementwise f st k v (spread v x) (fun _ => emptied st k v) _ (fun _ => emptied st k v)); auto.
  - simpl. rewrite repeat_length. reflexivity.
  - apply ip_result; auto. { simpl. apply repeat_length. }
    intros p i b Hi Hp Hb. apply repeat_nth in Hb. subst b. apply G.
Qed.

Lemma elementwise_flip (C : Type) (f : B -> A -> outcome C) (v : vec A) (u : vec B) e : v_dims v = v_dims u ->
  elementwise (fun y x => f x y) v u e -> elementwise f u v e.
Proof.
  intros D. unfold elementwise.
  destruct (list_eq_dec Nat.eq_dec (v_dims v) (v_dims u)) as [_|D']; [|congruence].
  destruct (list_eq_dec Nat.eq_dec (v_dims u) (v_dims v)) as [_|D']; [|congruence].
  rewrite D. intros [(r & -> & L1 & L2 & P)|(i & a & b & H1 & H2 & Ho & Hb)].
  - left. exists r. repeat split; auto. intros i a b c Ha Hb Hc. exact (P i b a c Hb Ha Hc).
  - right. exists i, b, a. repeat split; auto. intros j a' b' Hj Ha Hb'. exact (Hb j b' a' Hj Hb' Ha).
Qed.

Lemma ip_sv_gen (f : B -> A -> outcome A) (st : store A) k v x get :
  nth_error st k = Some v ->
  (forall w, get (upd st k w) = Ok x) ->
  exists e, elementwise f (spread v x) v e /\ ip_sv f st get k = omap (fun r => (emptied st k v, r)) e.
Proof.
  intros Hv G. destruct (ip_vs_gen (fun y x => f x y) st k v x get Hv G) as (e & E & R).
  exists e. split; [|exact R]. apply elementwise_flip; auto.
Qed.

(* vectorized functions: the temporary keeps the values *)
Definition replaced (st : store A) k (v : vec A) (r : vec A) : store A := upd st k r.

Lemma omap_replaced (st : store A) k (v : vec A) (e : outcome (list A)) :
  omap (fun r => (upd st k (mk_vec (v_dims v) r), mk_vec (v_dims v) r)) e =
  omap (fun r => (upd st k r, r)) (omap (mk_vec (v_dims v)) e).
Proof. destruct e; reflexivity. Qed.

Lemma vz_gen (f : A -> B -> outcome A) (st : store A) k v (u : vec B) get :
  nth_error st k = Some v -> List.length (v_data v) = List.length (v_data u) -> v_dims v = v_dims u ->
  (forall p i b, i < List.length (v_data v) -> List.length p = i -> nth_error (v_data u) i = Some b ->
     get (upd st k (mk_vec (v_dims v) (p ++ skipn i (v_data v)))) i = Ok b) ->
  exists e, elementwise f v u e /\
    (st' <- ip_loop f get st k (List.length (v_data v)) ;; copy_out st' k) = omap (fun r => (upd st k r, r)) e.
Proof.
  intros Hv L D G. exists (omap (mk_vec (v_dims v)) (each f (v_data v) (v_data u))). split.
  - unfold elementwise. destruct (list_eq_dec Nat.eq_dec (v_dims v) (v_dims u)); [|contradiction]. apply each_spec, L.
  - rewrite (copy_result f get st k v (v_data u) Hv (eq_sym L) G). apply omap_replaced.
Qed.
End IP.

(* ---- vectorize_lambda ------------------------------------------------------ *)

Section Lam.
Context {A C : Type}.

Lemma lambda_dims_some (st : store A) : forall args d0,
  Forall (arg_ok st) args ->
  (Forall (dims_are st d0) args /\
     ofold (fun acc a => match a with LScalar _ => Ok acc | LVec o =>
        d <- o_dims st o ;; match acc with None => Ok (Some d) | Some d0 => _ <- check (dims_eqb d0 d) ;; Ok acc end end)
       args (Some d0) = Ok (Some d0)) \/
  (~ Forall (dims_are st d0) args /\
     ofold (fun acc a => match a with LScalar _ => Ok acc | LVec o =>
        d <- o_dims st o ;; match acc with None => Ok (Some d) | Some d0 => _ <- check (dims_eqb d0 d) ;; Ok acc end end)
       args (Some d0) = CheckFail).
Proof.
  induction args as [|a t IH]; intros d0 H; simpl.
  - left. split; [constructor|reflexivity].
  - inversion_clear H. destruct a as [s|o]; simpl.
    + destruct (IH d0 H1) as [[P E]|[P E]]; [left; split; [constructor; [exact I|exact P]|exact E]|].
      right. split; [intros F; inversion_clear F; auto|exact E].
    + destruct H0 as (v & Hv & _). rewrite (o_dims_value _ _ _ Hv). cbn [obind]. rewrite dims_eqb_dec.
      destruct (list_eq_dec Nat.eq_dec d0 (v_dims v)) as [D|D]; cbn [check obind].
      * destruct (IH d0 H1) as [[P E]|[P E]].
        -- left. split; [constructor; auto|exact E]. exists v. auto.
        -- right. split; [intros F; inversion_clear F; auto|exact E].
      * right. split; [|reflexivity]. intros F. inversion_clear F. destruct H as (v' & Hv' & D'). congruence.
Qed.

Lemma lambda_dims_ok (st : store A) args : Forall (arg_ok st) args -> all_scalar args = false ->
  (exists d, Forall (dims_are st d) args /\ lambda_dims st args = Ok (Some d) /\
     exists v, In (LVec v) args) \/
  ((forall d, ~ Forall (dims_are st d) args) /\ lambda_dims st args = CheckFail).
Proof.
  unfold lambda_dims. induction args as [|a t IH]; intros H S; [discriminate|].
  inversion_clear H. destruct a as [s|o]; simpl in *.
  - destruct (IH H1 S) as [(d & P & E & v & Hin)|[P E]].
    + left. exists d. repeat split; [constructor; [exact I|exact P]|exact E|]. exists v. auto.
    + right. split; [|exact E]. intros d F. inversion_clear F. exact (P d H2).
  - destruct H0 as (v & Hv & Wv). rewrite (o_dims_value _ _ _ Hv). cbn [obind].
    destruct (lambda_dims_some st t (v_dims v) H1) as [[P E]|[P E]]; rewrite E.
    + left. exists (v_dims v). repeat split; [constructor; [exists v; auto|exact P]|]. exists o. auto.
    + right. split; [|reflexivity]. intros d F. inversion_clear F. destruct H as (v' & Hv' & D).
      apply P. replace v' with v in D by congruence. subst d. exact H0.
Qed.

Lemma value_view_ptr (st : store A) w v i x : value st (OView w) = Some v -> nth_error (v_data v) i = Some x ->
  exists p, nth_error (w_ptrs w) i = Some p /\ read st p = Ok x.
Proof.
  simpl. destruct (deref st (w_ptrs w)) as [l|] eqn:E; [|discriminate]. intros H Hx. injection H as <-.
  exact (deref_nth _ _ _ _ _ _ E Hx).
Qed.

Lemma get_ref_ok (st : store A) i a d n : arg_ok st a -> dims_are st d a -> i < nprod d -> n = nprod d ->
  exists r x, get_ref st i a = Ok r /\ s_get st r = Ok x /\ ith_arg st i a x /\ ith_ref i a r.
Proof.
  intros Ho Hd Hi _. destruct a as [s|o].
  - destruct Ho as (x & Hx). exists s, x. simpl. rewrite (s_get_value _ _ _ Hx). auto.
  - destruct Ho as (v & Hv & [Wv _]). destruct Hd as (v' & Hv' & D). replace v' with v in D by congruence.
    destruct (nth_error (v_data v) i) as [x|] eqn:E; [|apply nth_error_None in E; rewrite Wv, D in E; lia].
    destruct o as [k|w].
    + exists (SElem (k, i)), x. pose proof (o_get_value st (OVec k) v i x Hv E) as R.
      cbn [get_ref s_get o_get] in *. rewrite R. cbn [obind]. repeat split; auto. exists v. auto.
    + destruct (value_view_ptr st w v i x Hv E) as (p & Hp & Hr).
      exists (SElem p), x. cbn [get_ref s_get]. unfold oget. rewrite Hp. cbn [obind]. rewrite Hr. cbn [obind].
      repeat split; auto; [exists v; auto|]. exists p. auto.
Qed.

Lemma refs_ok (st : store A) i d args : Forall (arg_ok st) args -> Forall (dims_are st d) args -> i < nprod d ->
  exists rs xs, omapl (get_ref st i) args = Ok rs /\ omapl (s_get st) rs = Ok xs /\
    Forall2 (ith_arg st i) args xs /\ Forall2 (ith_ref i) args rs.
Proof.
  intros H1 H2 Hi. induction args as [|a t IH].
  - exists [], []. repeat split; constructor.
  - inversion_clear H1. inversion_clear H2. destruct (IH H0 H3) as (rs & xs & E1 & E2 & F1 & F2).
    destruct (get_ref_ok st i a d (nprod d) H H1 Hi eq_refl) as (r & x & G1 & G2 & G3 & G4).
    exists (r :: rs), (x :: xs). simpl. rewrite G1. cbn [obind]. rewrite E1. cbn [obind omapl]. rewrite G2. cbn [obind].
    rewrite E2. repeat split; constructor; auto.
Qed.

Lemma all_dims_wf (st : store A) args d v : In (LVec v) args -> Forall (arg_ok st) args -> Forall (dims_are st d) args ->
  exists w : vec A, wf w /\ v_dims w = d.
Proof.
  intros Hin H1 H2. rewrite Forall_forall in H1, H2. destruct (H1 _ Hin) as (w & Hw & Ww). destruct (H2 _ Hin) as (w' & Hw' & D).
  exists w. split; [exact Ww|congruence].
Qed.
End Lam.

Lemma ofold_ext_in (A S : Type) (f g : S -> A -> outcome S) l : (forall s x, In x l -> f s x = g s x) ->
  forall s, ofold f l s = ofold g l s.
Proof.
  induction l as [|x t IH]; intros H s; simpl; [reflexivity|]. rewrite H by (left; reflexivity).
  destruct (g s x); simpl; try reflexivity. apply IH. intros; apply H; right; assumption.
Qed.

Section Lam2.
Context {A C : Type}.

Lemma vl_value_ok (lam : list A -> outcome C) cd (st : store A) args d v :
  In (LVec v) args -> Forall (arg_ok st) args -> Forall (dims_are st d) args -> lambda_dims st args = Ok (Some d) ->
  (forall i xs, i < nprod d -> Forall2 (ith_arg st i) args xs -> exists y, lam xs = Ok y) ->
  exists r, vl_value lam cd st args = Ok (mk_vec d r) /\ List.length r = nprod d /\
    forall i xs y, i < nprod d -> Forall2 (ith_arg st i) args xs -> nth_error r i = Some y -> lam xs = Ok y.
Proof.
  intros Hin H1 H2 E H. unfold vl_value. rewrite E. cbn [obind].
  destruct (all_dims_wf st args d v Hin H1 H2) as (w & Ww & <-).
  rewrite (vec_ctor_wf A C cd w Ww). cbn [obind v_data v_dims]. unfold v_size. cbn [v_data]. destruct Ww as [Lw _].
  set (h := fun i => rs <- omapl (get_ref st i) args ;; xs <- omapl (s_get st) rs ;; lam xs).
  rewrite (fill_omapl C _ h) by reflexivity. rewrite repeat_length, Lw.
  destruct (omapl_pointwise _ _ h (seq 0 (nprod (v_dims w)))) as [(r & -> & L & P)|(i & a & Hi & Ho & _)].
  - exists r. cbn [obind]. rewrite seq_length in L. repeat split; auto.
    intros i xs y Hi F Hy. assert (Hs : nth_error (seq 0 (nprod (v_dims w))) i = Some i).
    { rewrite nth_error_seq. destruct (i <? nprod (v_dims w)) eqn:E'; [reflexivity|apply Nat.ltb_ge in E'; lia]. }
    specialize (P i i y Hs Hy). unfold h in P.
    destruct (refs_ok st i (v_dims w) args H1 H2 Hi) as (rs & xs' & R1 & R2 & F1 & _).
    rewrite R1 in P. cbn [obind] in P. rewrite R2 in P. cbn [obind] in P.
    replace xs with xs'; [exact P|]. clear -F F1.
    revert xs xs' F F1. induction args as [|a t IH]; intros xs xs' F F1; inversion F; inversion F1; subst; [reflexivity|].
    f_equal; [|apply IH; assumption]. clear -H1 H6. destruct a as [s|o]; simpl in *; [congruence|].
    destruct H1 as (u & Hu & Hx). destruct H6 as (u' & Hu' & Hx'). congruence.
  - exfalso. apply nth_error_In in Hi. apply in_seq in Hi.
    destruct (refs_ok st a (v_dims w) args H1 H2 ltac:(lia)) as (rs & xs & R1 & R2 & F1 & _).
    destruct (H a xs ltac:(lia) F1) as (y & Hy). unfold h in Ho. rewrite R1 in Ho. cbn [obind] in Ho. rewrite R2 in Ho. cbn [obind] in Ho.
    rewrite Hy in Ho. destruct Ho as [[H' _]|[[H' _]|[[H' _]|[H' _]]]]; discriminate.
Qed.

(* the calls made by the loop, in order *)
Lemma vl_void_ok (S : Type) (act : list (sref A) -> S -> outcome S) (st : store A) args d v s :
  In (LVec v) args -> Forall (arg_ok st) args -> Forall (dims_are st d) args -> lambda_dims st args = Ok (Some d) ->
  exists calls, List.length calls = nprod d /\
    (forall i rs, nth_error calls i = Some rs -> Forall2 (ith_ref i) args rs) /\
    vl_void act st args s = ofold (fun s rs => act rs s) calls s.
Proof.
  intros Hin H1 H2 E. unfold vl_void. rewrite E. cbn [obind].
  destruct (all_dims_wf st args d v Hin H1 H2) as (w & [Lw Mw] & <-).
  rewrite nwrap_small by (rewrite <- Lw; apply max_lt_two64, Mw).
  assert (G : forall n k, k + n <= nprod (v_dims w) -> exists calls, List.length calls = n /\
    (forall i rs, nth_error calls i = Some rs -> Forall2 (ith_ref (k + i)) args rs) /\
    forall s, ofold (fun s i => rs <- omapl (get_ref st i) args ;; act rs s) (seq k n) s = ofold (fun s rs => act rs s) calls s).
  { induction n as [|n IH]; intros k Hk.
    - exists []. repeat split; auto. intros [|i] rs Hr; discriminate.
    - destruct (IH (Datatypes.S k) ltac:(lia)) as (calls & L & P & Q).
      destruct (refs_ok st k (v_dims w) args H1 H2 ltac:(lia)) as (rs & xs & R1 & _ & _ & F2).
      exists (rs :: calls). simpl. repeat split; [lia| |].
      + intros [|i] rs' Hr; simpl in Hr.
        * injection Hr as <-. rewrite Nat.add_0_r. exact F2.
        * rewrite <- Nat.add_succ_comm. apply P, Hr.
      + intros s0. rewrite R1. cbn [obind]. destruct (act rs s0); simpl; try reflexivity. apply Q. }
  destruct (G (nprod (v_dims w)) 0 ltac:(lia)) as (calls & L & P & Q). exists calls. repeat split; auto.
Qed.

(* vectorize_lambda_first *)
Lemma vlf_ok (B : Type) (lam : A -> B -> outcome C) cd gone (st : store A) t v arg : value st t = Some v -> wf v ->
  elementwise lam v (spread v arg) (vlf lam cd false gone st t arg).
Proof.
  intros Hv Wv. unfold elementwise, vlf. cbn [v_dims spread].
  destruct (list_eq_dec Nat.eq_dec (v_dims v) (v_dims v)) as [_|E]; [|congruence].
  rewrite (o_dims_value _ _ _ Hv). cbn [obind]. rewrite (vec_ctor_wf A C cd v Wv). cbn [obind].
  rewrite (o_size_value _ _ _ Hv). cbn [obind v_data v_dims].
  assert (L : List.length (v_data v) = List.length (v_data (spread v arg))) by (simpl; rewrite repeat_length; reflexivity).
  pose proof (fill_each A B C lam (v_data v) (v_data (spread v arg))
    (fun _ i => x <- o_get st t i ;; lam x arg) (repeat cd (List.length (v_data v)))) as F.
  rewrite repeat_length in F. specialize (F eq_refl L).
  match goal with |- context [obind ?X _] => set (loop := X) end.
  assert (Hl : loop = omap (fun l => (l, arg)) (fill (List.length (v_data v)) (fun _ i => x <- o_get st t i ;; lam x arg) (repeat cd (List.length (v_data v))))).
  { unfold loop, fill. clear. generalize (repeat cd (List.length (v_data v))) as l. generalize (seq 0 (List.length (v_data v))) as q.
    induction q as [|i q IH]; intros l; simpl; [reflexivity|].
    destruct (o_get st t i) as [a| | | |]; simpl; try reflexivity. destruct (lam a arg) as [c| | | |]; simpl; try reflexivity.
    destruct (oset l i c); simpl; try reflexivity. apply IH. }
  rewrite Hl, F.
  - pose proof (each_spec A B C lam (v_data v) (v_data (spread v arg)) (mk_vec (v_dims v)) L) as G.
    revert G. unfold omap. destruct (each lam (v_data v) (v_data (spread v arg))); simpl; auto.
  - intros p i a b Hp Ha Hb. rewrite (o_get_value _ _ _ _ _ Hv Ha). cbn [obind]. apply repeat_nth in Hb. subst b. reflexivity.
Qed.

(* same_dims_or_scalar *)
Lemma sds_check_ok (st : store A) n : forall l, Forall (arg_ok st) l -> exists b, sds_check st n l = Ok b /\
  (b = true <-> Forall (fun a => match a with LScalar _ => True | LVec o => exists v, value st o = Some v /\ List.length (v_data v) = n end) l).
Proof.
  induction l as [|a t IH]; intros H; simpl.
  - exists true. split; [reflexivity|]. split; auto.
  - inversion_clear H. destruct (IH H1) as (b & E & Hb). destruct a as [s|o].
    + exists b. split; [exact E|]. rewrite Hb. split; [intros F; constructor; auto|intros F; inversion F; auto].
    + destruct H0 as (v & Hv & _). rewrite (o_size_value _ _ _ Hv). cbn [obind].
      destruct (Nat.eqb_spec (List.length (v_data v)) n) as [D|D].
      * exists b. split; [exact E|]. rewrite Hb. split; [intros F; constructor; eauto|intros F; inversion F; auto].
      * exists false. split; [reflexivity|]. split; [discriminate|]. intros F. inversion_clear F.
        destruct H as (v' & Hv' & D'). congruence.
Qed.

Lemma sds_ok (st : store A) : forall l, Forall (arg_ok st) l ->
  (Forall (fun a => match a with LScalar _ => True | LVec _ => False end) l /\ sds_size st l = Ok 0) \/
  exists o v pre post, l = pre ++ LVec o :: post /\ Forall (fun a => match a with LScalar _ => True | LVec _ => False end) pre /\
    value st o = Some v /\ sds_size st l = Ok (List.length (v_data v)).
Proof.
  induction l as [|a t IH]; intros H; simpl.
  - left. split; [constructor|reflexivity].
  - inversion_clear H. destruct a as [s|o].
    + destruct (IH H1) as [[F E]|(o & v & pre & post & -> & F & Hv & E)].
      * left. split; [constructor; auto|exact E].
      * right. exists o, v, (LScalar s :: pre), post. repeat split; auto.
    + right. destruct H0 as (v & Hv & _). exists o, v, [], t. repeat split; auto. apply (o_size_value _ _ _ Hv).
Qed.
End Lam2.
