(* C63: element-wise operators.  C64: vectorized functions. *)
From Verif Require Import Base IndexModel VecModel VecSpec ViewModel OpModel OpSpec OpProofs OpProofs2.
From Coq Require Import String.
Local Open Scope string_scope.
Local Open Scope list_scope.
Local Open Scope nat_scope.

(* ---- C63 ------------------------------------------------------------------- *)

(* v op u: the operands are vectors or views; element i of the result is the scalar
   operator applied to elements i, a shape mismatch stops the program *)
Theorem C63_vec_vec : forall A B C (f : A -> B -> outcome C) sa v sb u va ub,
  value sa v = Some va -> value sb u = Some ub -> shaped va -> shaped ub ->
  elementwise f va ub (bin_vv f sa v sb u).
Proof. exact bin_vv_ok. Qed.
Print Assumptions C63_vec_vec.

(* v op s; s may be an element of v, the result is a new vector *)
Theorem C63_vec_scalar : forall A B C (f : A -> B -> outcome C) sa v sb s va x,
  value sa v = Some va -> svalue sb s = Some x ->
  elementwise f va (spread va x) (bin_vs f sa v sb s).
Proof. exact bin_vs_ok. Qed.
Print Assumptions C63_vec_scalar.

(* s op v *)
Theorem C63_scalar_vec : forall A B C (f : A -> B -> outcome C) sa s sb v vb x,
  svalue sa s = Some x -> value sb v = Some vb ->
  elementwise f (spread vb x) vb (bin_sv f sa s sb v).
Proof. exact bin_sv_ok. Qed.
Print Assumptions C63_scalar_vec.

(* v op u for a temporary v: same value as above, v is left empty *)
Theorem C63_temp_vec : forall A (f : A -> A -> outcome A) st k v u ub,
  nth_error st k = Some v -> value st u = Some ub -> shaped v -> shaped ub -> apart k u ->
  exists st', moved st k st' /\ exists e, elementwise f v ub e /\
    ip_vv f st k (v_dims ub) (fun st i => o_get st u i) = omap (fun r => (st', r)) e.
Proof.
  intros A f st k v u ub Hv Hu Sv Su Ha. exists (emptied st k v). split; [exists v; auto|].
  apply ip_vv_gen; auto. intros p i b Hi Hp Hb. eapply o_get_during; eauto.
Qed.
Print Assumptions C63_temp_vec.

(* u op v for a temporary v *)
Theorem C63_vec_temp : forall A (f : A -> A -> outcome A) st k v u ub,
  nth_error st k = Some v -> value st u = Some ub -> shaped v -> shaped ub -> apart k u ->
  exists st', moved st k st' /\ exists e, elementwise f ub v e /\
    ip_uv f st (v_dims ub) (fun st i => o_get st u i) k = omap (fun r => (st', r)) e.
Proof.
  intros A f st k v u ub Hv Hu Sv Su Ha. exists (emptied st k v). split; [exists v; auto|].
  apply ip_uv_gen; auto. intros p i b Hi Hp Hb. eapply o_get_during; eauto.
Qed.
Print Assumptions C63_vec_temp.

(* the other operand has another element type, so it shares no memory with v *)
Theorem C63_temp_vec_types : forall A B (f : A -> B -> outcome A) (st : store A) k v (sb : store B) u ub,
  nth_error st k = Some v -> value sb u = Some ub -> shaped v -> shaped ub ->
  exists st', moved st k st' /\ exists e, elementwise f v ub e /\
    ip_vv f st k (v_dims ub) (fun _ i => o_get sb u i) = omap (fun r => (st', r)) e.
Proof.
  intros A B f st k v sb u ub Hv Hu Sv Su. exists (emptied st k v). split; [exists v; auto|].
  apply ip_vv_gen; auto. intros p i b Hi Hp Hb. eapply o_get_value; eauto.
Qed.
Print Assumptions C63_temp_vec_types.

Theorem C63_vec_temp_types : forall A B (f : B -> A -> outcome A) (st : store A) k v (sb : store B) u ub,
  nth_error st k = Some v -> value sb u = Some ub -> shaped v -> shaped ub ->
  exists st', moved st k st' /\ exists e, elementwise f ub v e /\
    ip_uv f st (v_dims ub) (fun _ i => o_get sb u i) k = omap (fun r => (st', r)) e.
Proof.
  intros A B f st k v sb u ub Hv Hu Sv Su. exists (emptied st k v). split; [exists v; auto|].
  apply ip_uv_gen; auto. intros p i b Hi Hp Hb. eapply o_get_value; eauto.
Qed.
Print Assumptions C63_vec_temp_types.

(* two temporaries *)
Theorem C63_temp_temp : forall A B (f : A -> B -> outcome A) (st : store A) k v (sb : store B) j u,
  nth_error st k = Some v -> nth_error sb j = Some u -> shaped v -> shaped u ->
  exists st', moved st k st' /\ exists e, elementwise f v u e /\
    ip_rr f st k sb j = omap (fun r => (st', r)) e.
Proof.
  intros A B f st k v sb j u Hv Hu Sv Su. exists (emptied st k v). split; [exists v; auto|].
  unfold ip_rr, oget at 1. rewrite Hu. cbn [obind].
  apply ip_vv_gen; auto. intros p i b Hi Hp Hb. apply oget_Ok. exact Hb.
Qed.
Print Assumptions C63_temp_temp.

(* temporaries and scalars *)
Theorem C63_temp_scalar : forall A (f : A -> A -> outcome A) st k v s x,
  nth_error st k = Some v -> svalue st s = Some x -> sapart k s ->
  exists st', moved st k st' /\ exists e, elementwise f v (spread v x) e /\
    ip_vs f st k (fun st => s_get st s) = omap (fun r => (st', r)) e.
Proof.
  intros A f st k v s x Hv Hs Ha. exists (emptied st k v). split; [exists v; auto|].
  apply ip_vs_gen; auto. intros w. apply s_get_during; auto.
Qed.
Print Assumptions C63_temp_scalar.

Theorem C63_scalar_temp : forall A (f : A -> A -> outcome A) st k v s x,
  nth_error st k = Some v -> svalue st s = Some x -> sapart k s ->
  exists st', moved st k st' /\ exists e, elementwise f (spread v x) v e /\
    ip_sv f st (fun st => s_get st s) k = omap (fun r => (st', r)) e.
Proof.
  intros A f st k v s x Hv Hs Ha. exists (emptied st k v). split; [exists v; auto|].
  apply ip_sv_gen; auto. intros w. apply s_get_during; auto.
Qed.
Print Assumptions C63_scalar_temp.

(* Finding: std::move(v) + v[{2,1,0}] reads elements already overwritten *)
Theorem C63_temp_view_refuted : exists (st : store nat) w ub res,
  st = [mk_vec [3] [1;2;3]] /\ view_ids st 0 false [2;1;0] = Ok w /\ value st (OView w) = Some ub /\
  res = ip_vv (fun x y => Ok (x + y)) st 0 (v_dims ub) (fun st i => o_get st (OView w) i) /\
  (exists st' r, res = Ok (st', mk_vec [3] r) /\ r <> [4;4;4]) /\
  elementwise (fun x y => Ok (x + y)) (mk_vec [3] [1;2;3]) ub (Ok (mk_vec [3] [4;4;4])).
Proof.
  exists [mk_vec [3] [1;2;3]], (mk_view (PVec 0) false [3] [(0,2);(0,1);(0,0)]), (mk_vec [3] [3;2;1]),
    (Ok ([mk_vec [0] []], mk_vec [3] [4;4;7])).
  repeat split; try reflexivity.
  - exists [mk_vec [0] []], [4;4;7]. split; [reflexivity|discriminate].
  - unfold elementwise. simpl. left. exists [4;4;4]. repeat split; auto.
    intros [|[|[|i]]] a b c H1 H2 H3; simpl in *; try (destruct i; discriminate);
      injection H1 as <-; injection H2 as <-; injection H3 as <-; reflexivity.
Qed.
Print Assumptions C63_temp_view_refuted.

(* Finding: std::move(v) * v[1] re-reads the scalar after it was modified *)
Theorem C63_temp_scalar_refuted : exists (st : store nat) x res,
  st = [mk_vec [3] [1;2;3]] /\ svalue st (SElem (0, 1)) = Some x /\
  res = ip_vs (fun x y => Ok (x * y)) st 0 (fun st => s_get st (SElem (0, 1))) /\
  exists st' r, res = Ok (st', mk_vec [3] r) /\ r <> map (fun y => y * x) [1;2;3].
Proof.
  exists [mk_vec [3] [1;2;3]], 2, (Ok ([mk_vec [0] []], mk_vec [3] [2;4;12])). repeat split; try reflexivity.
  exists [mk_vec [0] []], [2;4;12]. split; [reflexivity|discriminate].
Qed.
Print Assumptions C63_temp_scalar_refuted.

(* comparisons give a vector of booleans of the same shape *)
Theorem C63_compare : forall A B (r : A -> B -> bool) sa v sb u va ub,
  value sa v = Some va -> value sb u = Some ub -> wf va -> wf ub ->
  elementwise (fun x y => Ok (r x y)) va ub (cmp_vv r sa v sb u).
Proof. exact cmp_vv_ok. Qed.
Print Assumptions C63_compare.

Theorem C63_compare_scalar : forall A B (r : A -> B -> bool) sa v sb s va x,
  value sa v = Some va -> svalue sb s = Some x -> wf va ->
  elementwise (fun x y => Ok (r x y)) va (spread va x) (cmp_vs r sa v sb s).
Proof. exact cmp_vs_ok. Qed.
Print Assumptions C63_compare_scalar.

Theorem C63_scalar_compare : forall A B (r : A -> B -> bool) sa s sb v vb x,
  svalue sa s = Some x -> value sb v = Some vb -> wf vb ->
  elementwise (fun x y => Ok (r x y)) (spread vb x) vb (cmp_sv r sa s sb v).
Proof. exact cmp_sv_ok. Qed.
Print Assumptions C63_scalar_compare.

(* && and || on vectors of booleans *)
Theorem C63_logical : forall (g : bool -> bool -> bool) st v1 v2 a b,
  value st v1 = Some a -> value st v2 = Some b -> shaped a -> shaped b ->
  elementwise (fun x y => Ok (g x y)) a b (log_vv g st v1 v2).
Proof. exact log_vv_ok. Qed.
Print Assumptions C63_logical.

Theorem C63_logical_scalar : forall (g : bool -> bool -> bool) st v a b, value st v = Some a ->
  elementwise (fun x y => Ok (g x y)) a (spread a b) (log_vs g st v b) /\
  elementwise (fun x y => Ok (g x y)) (spread a b) a (log_sv g st b v).
Proof. intros g st v a b H. split; [apply log_vs_ok, H|apply log_sv_ok, H]. Qed.
Print Assumptions C63_logical_scalar.

(* the same for temporaries *)
Theorem C63_logical_temp : forall (g : bool -> bool -> bool) st k v u ub b,
  nth_error st k = Some v -> value st u = Some ub -> shaped v -> shaped ub -> apart k u ->
  exists st', moved st k st' /\
    (exists e, elementwise (fun x y => Ok (g x y)) v ub e /\ ip_log_rv g st k u = omap (fun r => (st', r)) e) /\
    (exists e, elementwise (fun x y => Ok (g x y)) ub v e /\ ip_log_vr g st u k = omap (fun r => (st', r)) e) /\
    (exists e, elementwise (fun x y => Ok (g x y)) v (spread v b) e /\ ip_log_rs g st k b = omap (fun r => (st', r)) e) /\
    (exists e, elementwise (fun x y => Ok (g x y)) (spread v b) v e /\ ip_log_sr g st b k = omap (fun r => (st', r)) e).
Proof.
  intros g st k v u ub b Hv Hu Sv Su Ha. exists (emptied st k v). split; [exists v; auto|].
  unfold ip_log_rv, ip_log_vr, ip_log_rs, ip_log_sr. rewrite (o_dims_value _ _ _ Hu). cbn [obind].
  split; [|split; [|split]].
  - apply ip_vv_gen; auto. intros p i x Hi Hp Hx. eapply o_get_during; eauto.
  - apply ip_uv_gen; auto. intros p i x Hi Hp Hx. eapply o_get_during; eauto.
  - apply ip_vs_gen; auto.
  - apply ip_sv_gen; auto.
Qed.
Print Assumptions C63_logical_temp.

(* -v and !v *)
Theorem C63_unary : forall A (f : A -> outcome A) st v a, value st v = Some a ->
  elementwise (fun x (_ : unit) => f x) a (spread a tt) (un_op f st v).
Proof. exact un_op_ok. Qed.
Print Assumptions C63_unary.

Theorem C63_not_temp : forall st k v, nth_error st k = Some v ->
  exists st', moved st k st' /\ ip_not st k = Ok (st', mk_vec (v_dims v) (map negb (v_data v))).
Proof.
  intros st k v Hv. exists (emptied st k v). split; [exists v; auto|].
  destruct (ip_vs_gen (fun x (_ : unit) => Ok (negb x)) st k v tt (fun _ => Ok tt) Hv (fun _ => eq_refl)) as (e & E & R).
  unfold ip_not. etransitivity; [exact R|]. unfold elementwise in E. simpl in E.
  destruct (list_eq_dec Nat.eq_dec (v_dims v) (v_dims v)); [|congruence].
  destruct E as [(r & -> & L1 & L2 & P)|(i & a & b & _ & _ & Ho & _)].
  - simpl. do 3 f_equal. apply list_eq_nth_error. intros i. rewrite nth_error_map.
    destruct (nth_error (v_data v) i) as [x|] eqn:Ex; simpl.
    + assert (Hl : i < List.length r) by (rewrite <- L1; apply nth_error_Some; congruence).
      destruct (nth_error r i) as [y|] eqn:Ey; [|apply nth_error_None in Ey; lia].
      destruct (nth_error (repeat tt (List.length (v_data v))) i) as [z|] eqn:Ez; [|apply nth_error_None in Ez; lia].
      specialize (P i x z y Ex Ez Ey). congruence.
    + apply nth_error_None in Ex. apply nth_error_None. lia.
  - destruct Ho as [[H _]|[[H _]|[[H _]|[H _]]]]; discriminate.
Qed.
Print Assumptions C63_not_temp.

(* how [elementwise] reads for an operator that never fails *)
Theorem C63_total : forall A B C (g : A -> B -> C) (v : vec A) (u : vec B) res,
  elementwise (fun x y => Ok (g x y)) v u res -> shaped v -> shaped u ->
  (v_dims v = v_dims u /\ exists r, res = Ok (mk_vec (v_dims v) r) /\ List.length r = List.length (v_data v) /\
     forall i a b, nth_error (v_data v) i = Some a -> nth_error (v_data u) i = Some b -> nth_error r i = Some (g a b)) \/
  (v_dims v <> v_dims u /\ res = CheckFail).
Proof.
  intros A B C g v u res. unfold elementwise. destruct (list_eq_dec Nat.eq_dec (v_dims v) (v_dims u)) as [D|D]; [|auto].
  intros [(r & -> & L1 & L2 & P)|(i & a & b & _ & _ & Ho & _)] Sv Su.
  - left. split; [exact D|]. exists r. repeat split; auto.
    intros i a b Ha Hb. destruct (nth_error r i) as [c|] eqn:E.
    + specialize (P i a b c Ha Hb E). congruence.
    + apply nth_error_None in E. assert (i < List.length (v_data v)) by (apply nth_error_Some; congruence). lia.
  - destruct Ho as [[H _]|[[H _]|[[H _]|[H _]]]]; discriminate.
Qed.
Print Assumptions C63_total.

(* int_t vectors: v / u returns iff no divisor is zero and no quotient overflows;
   otherwise the behaviour is undefined *)
Theorem C63_int_div : forall st v u va ub,
  value st v = Some va -> value st u = Some ub -> shaped va -> shaped ub -> v_dims va = v_dims ub ->
  (Forall (fun x => - two63 <= x < two63)%Z (v_data va)) ->
  (exists r, bin_vv i_div st v st u = Ok (mk_vec (v_dims va) r) /\
     (forall i x y, nth_error (v_data va) i = Some x -> nth_error (v_data ub) i = Some y ->
        y <> 0%Z /\ nth_error r i = Some (Z.quot x y))) \/
  (bin_vv i_div st v st u = UB /\
     exists i x y, nth_error (v_data va) i = Some x /\ nth_error (v_data ub) i = Some y /\
       (y = 0 \/ x = - two63 /\ y = -1)%Z).
Proof.
  intros st v u va ub Hv Hu Sv Su D Hx. pose proof (bin_vv_ok _ _ _ i_div st v st u va ub Hv Hu Sv Su) as E.
  unfold elementwise in E. destruct (list_eq_dec Nat.eq_dec (v_dims va) (v_dims ub)) as [_|N]; [|contradiction].
  destruct E as [(r & E & L1 & L2 & P)|(i & a & b & Ha & Hb & Ho & _)].
  - left. exists r. split; [exact E|]. intros i x y Hi Hj.
    destruct (nth_error r i) as [c|] eqn:Ec.
    + specialize (P i x y c Hi Hj Ec). unfold i_div in P. destruct (Z.eqb_spec y 0); [discriminate|].
      unfold signed64 in P. destruct ((- two63 <=? Z.quot x y) && (Z.quot x y <? two63))%Z; [|discriminate].
      split; congruence.
    + apply nth_error_None in Ec. assert (i < List.length (v_data va)) by (apply nth_error_Some; congruence). lia.
  - right. assert (U : i_div a b = UB /\ bin_vv i_div st v st u = UB).
    { destruct Ho as [[H _]|[H|[[H _]|[H _]]]]; auto; exfalso; unfold i_div, signed64 in H;
        destruct (b =? 0)%Z; try discriminate; destruct ((- two63 <=? Z.quot a b) && (Z.quot a b <? two63))%Z; discriminate. }
    destruct U as [U1 U2]. split; [exact U2|]. exists i, a, b. repeat split; auto.
    unfold i_div in U1. destruct (Z.eqb_spec b 0) as [->|Nb]; [auto|right].
    rewrite Forall_forall in Hx. specialize (Hx a (nth_error_In _ _ Ha)).
    unfold signed64 in U1. destruct ((- two63 <=? Z.quot a b) && (Z.quot a b <? two63))%Z eqn:Q; [discriminate|].
    apply andb_false_iff in Q. rewrite Z.leb_gt, Z.ltb_ge in Q.
    assert (Z.abs (Z.quot a b) * Z.abs b <= Z.abs a)%Z.
    { rewrite <- Z.quot_abs by exact Nb. rewrite Z.mul_comm. apply Z.mul_quot_le; lia. }
    assert (T : (0 < two63)%Z) by reflexivity.
    assert (Hb1 : (Z.abs b = 1)%Z) by nia.
    assert (b = 1 \/ b = -1)%Z as [->| ->] by lia.
    + rewrite Z.quot_1_r in Q. lia.
    + assert (Eq : (Z.quot a (-1) = - a)%Z) by (change (-1)%Z with (- (1))%Z; rewrite Z.quot_opp_r, Z.quot_1_r by lia; reflexivity).
      rewrite Eq in Q. lia.
Qed.
Print Assumptions C63_int_div.

(* o << v *)
Theorem C63_print : forall A (show : A -> string) st v va o, value st v = Some va ->
  print show st v o = Ok (append o (append "{" (append (joined (map show (v_data va))) "}"))).
Proof. exact print_ok. Qed.
Print Assumptions C63_print.

Example C63_ex_add :
  bin_vv i_add [mk_vec [2;2] [1;2;3;4]%Z; mk_vec [2;2] [10;20;30;40]%Z] (OVec 0)
               [mk_vec [2;2] [1;2;3;4]%Z; mk_vec [2;2] [10;20;30;40]%Z] (OVec 1)
  = Ok (mk_vec [2;2] [11;22;33;44]%Z).
Proof. reflexivity. Qed.
Example C63_ex_shape :
  bin_vv i_add [mk_vec [4] [1;2;3;4]%Z] (OVec 0) [mk_vec [3] [1;2;3]%Z] (OVec 0) = CheckFail.
Proof. reflexivity. Qed.
Example C63_ex_sub_temp :
  ip_sv i_sub [mk_vec [3] [1;2;3]%Z] (fun _ => Ok 10%Z) 0 = Ok ([mk_vec [0] []], mk_vec [3] [9;8;7]%Z).
Proof. reflexivity. Qed.
Example C63_ex_view :
  (w <- view_ids [mk_vec [3] [5;6;7]%Z] 0 true [2;0] ;;
   cmp_vs Z.leb [mk_vec [3] [5;6;7]%Z] (OView w) [] (SVal 6%Z)) = Ok (mk_vec [2] [false;true]).
Proof. reflexivity. Qed.
Example C63_ex_print : print (fun b : bool => if b then "1" else "0") [mk_vec [3] [true;false;true]] (OVec 0) "x = "
  = Ok "x = {1, 0, 1}"%string.
Proof. reflexivity. Qed.

(* ---- C64 ------------------------------------------------------------------- *)

(* VIF_VECTORIZE(f): f(v, arg) *)
Theorem C64_vectorize : forall A B C (f : A -> B -> outcome C) sa v sb arg va x,
  value sa v = Some va -> svalue sb arg = Some x ->
  elementwise f va (spread va x) (vz1 f sa v sb arg).
Proof. exact bin_vs_ok. Qed.
Print Assumptions C64_vectorize.

(* VIF_VECTORIZE2(f): two vectors, or one vector and one scalar *)
Theorem C64_vectorize2 : forall A B C (f : A -> B -> outcome C) sa v sb u va ub,
  value sa v = Some va -> value sb u = Some ub -> shaped va -> shaped ub ->
  elementwise f va ub (vz2_vv f sa v sb u).
Proof. exact bin_vv_ok. Qed.
Print Assumptions C64_vectorize2.

Theorem C64_vectorize2_scalar : forall A B C (f : A -> B -> outcome C) sa v sb u va ub x y,
  value sa v = Some va -> value sb u = Some ub ->
  elementwise f va (spread va y) (vz2_vs f sa v y) /\ elementwise f (spread ub x) ub (vz2_sv f x sb u).
Proof.
  intros A B C f sa v sb u va ub x y Hv Hu. split.
  - exact (bin_vs_ok A B C f sa v [] (SVal y) va y Hv eq_refl).
  - exact (bin_sv_ok A B C f [] (SVal x) sb u ub x eq_refl Hu).
Qed.
Print Assumptions C64_vectorize2_scalar.

(* f(v, arg) for a temporary v *)
Theorem C64_vectorize_temp : forall A B (f : A -> B -> outcome A) (st : store A) k v x,
  nth_error st k = Some v ->
  exists st', moved st k st' /\ exists e, elementwise f v (spread v x) e /\
    vz1_r f st k (fun _ => Ok x) = omap (fun r => (st', r)) e.
Proof.
  intros A B f st k v x Hv. exists (emptied st k v). split; [exists v; auto|].
  exact (ip_vs_gen f st k v x (fun _ => Ok x) Hv (fun _ => eq_refl)).
Qed.
Print Assumptions C64_vectorize_temp.

(* f(v1, v2) where v1 or v2 is a temporary: it is returned by copy and keeps the
   results *)
Theorem C64_vectorize2_temp : forall A (f : A -> A -> outcome A) (st : store A) k v u ub,
  nth_error st k = Some v -> value st u = Some ub -> shaped v -> shaped ub -> apart k u ->
  (exists e, elementwise f v ub e /\
     vz2_rv f st k (v_dims ub) (fun st i => o_get st u i) = omap (fun r => (upd st k r, r)) e) /\
  (exists e, elementwise f ub v e /\
     vz2_vr f st (v_dims ub) (List.length (v_data ub)) (fun st i => o_get st u i) k = omap (fun r => (upd st k r, r)) e).
Proof.
  intros A f st k v u ub Hv Hu Sv Su Ha. unfold vz2_rv, vz2_vr, oget. rewrite Hv. cbn [obind]. rewrite !dims_eqb_dec.
  destruct (list_eq_dec Nat.eq_dec (v_dims v) (v_dims ub)) as [D|D];
    destruct (list_eq_dec Nat.eq_dec (v_dims ub) (v_dims v)) as [D'|D']; try congruence; cbn [check obind].
  - assert (L : List.length (v_data v) = List.length (v_data ub)) by (unfold shaped in *; congruence).
    split.
    + apply vz_gen; auto. intros p i b Hi Hp Hb. eapply o_get_during; eauto.
    + destruct (vz_gen (fun y x => f x y) st k v ub (fun st i => o_get st u i) Hv L D) as (e & E & R).
      { intros p i b Hi Hp Hb. eapply o_get_during; eauto. }
      exists e. split; [apply elementwise_flip; auto|]. rewrite <- L. exact R.
  - split; exists CheckFail; (split; [apply ip_checkfail; congruence|reflexivity]).
Qed.
Print Assumptions C64_vectorize2_temp.

Theorem C64_vectorize2_temp_scalar : forall A B (f : A -> B -> outcome A) (g : B -> A -> outcome A) (st : store A) k v x,
  nth_error st k = Some v ->
  (exists e, elementwise f v (spread v x) e /\ vz2_rs f st k x = omap (fun r => (upd st k r, r)) e) /\
  (exists e, elementwise g (spread v x) v e /\ vz2_sr g st x k = omap (fun r => (upd st k r, r)) e).
Proof.
  intros A B f g st k v x Hv. unfold vz2_rs, vz2_sr, oget. rewrite Hv. cbn [obind].
  assert (L : List.length (v_data v) = List.length (v_data (spread v x))) by (simpl; rewrite repeat_length; reflexivity).
  split.
  - apply vz_gen; auto. intros p i b Hi Hp Hb. apply repeat_nth in Hb. congruence.
  - destruct (vz_gen (fun y x => g x y) st k v (spread v x) (fun _ _ => Ok x) Hv L eq_refl) as (e & E & R).
    { intros p i b Hi Hp Hb. apply repeat_nth in Hb. congruence. }
    exists e. split; [apply elementwise_flip; auto|exact R].
Qed.
Print Assumptions C64_vectorize2_temp_scalar.

(* vectorize_lambda_first(f)(v, arg), when f does not consume arg *)
Theorem C64_lambda_first : forall A B C (lam : A -> B -> outcome C) cd gone (st : store A) t v arg,
  value st t = Some v -> wf v ->
  elementwise lam v (spread v arg) (vlf lam cd false gone st t arg).
Proof. intros A B C. exact (@vlf_ok A C B). Qed.
Print Assumptions C64_lambda_first.

(* Finding: a temporary argument that f takes by value is moved into the first call;
   the other calls receive a moved-from object (here the empty string) *)
Theorem C64_lambda_first_moved_refuted : exists (st : store nat) (lam : nat -> string -> outcome nat) v arg r,
  value st (OVec 0) = Some v /\
  vlf lam 0 true EmptyString st (OVec 0) arg = Ok (mk_vec (v_dims v) r) /\
  ~ elementwise lam v (spread v arg) (Ok (mk_vec (v_dims v) r)).
Proof.
  exists [mk_vec [2] [1;1]], (fun x s => Ok (x + String.length s)), (mk_vec [2] [1;1]), "ab"%string, [3;1].
  repeat split; try reflexivity. unfold elementwise. simpl. intros [(r & E & _ & _ & P)|(i & a & b & _ & _ & Ho & _)].
  - injection E as <-. specialize (P 1 1 "ab"%string 1 eq_refl eq_refl eq_refl). discriminate.
  - destruct Ho as [[H _]|[[H _]|[[H _]|[H _]]]]; discriminate.
Qed.
Print Assumptions C64_lambda_first_moved_refuted.

(* vectorize_lambda(f)(args...): all vector arguments must have the same dimensions;
   element i is f applied to the elements i (and to the scalars) *)
Theorem C64_lambda : forall A C (lam : list A -> outcome C) cd (st : store A) args,
  Forall (arg_ok st) args -> all_scalar args = false ->
  (forall d, ~ Forall (dims_are st d) args) /\ vl_value lam cd st args = CheckFail \/
  exists d, Forall (dims_are st d) args /\
    ((forall i xs, i < nprod d -> Forall2 (ith_arg st i) args xs -> exists y, lam xs = Ok y) ->
     exists r, vl_value lam cd st args = Ok (mk_vec d r) /\ List.length r = nprod d /\
       forall i xs y, i < nprod d -> Forall2 (ith_arg st i) args xs -> nth_error r i = Some y -> lam xs = Ok y).
Proof.
  intros A C lam cd st args H S. destruct (lambda_dims_ok st args H S) as [(d & P & E & v & Hin)|[P E]].
  - right. exists d. split; [exact P|]. intros T. eapply vl_value_ok; eauto.
  - left. split; [exact P|]. unfold vl_value. rewrite E. reflexivity.
Qed.
Print Assumptions C64_lambda.

(* the same when f returns nothing: the calls are made once per element, in order,
   with references to the elements, so f can modify them *)
Theorem C64_lambda_void : forall A S (act : list (sref A) -> S -> outcome S) (st : store A) args s,
  Forall (arg_ok st) args -> all_scalar args = false ->
  (forall d, ~ Forall (dims_are st d) args) /\ vl_void act st args s = CheckFail \/
  exists d, Forall (dims_are st d) args /\
    exists calls, List.length calls = nprod d /\
      (forall i rs, nth_error calls i = Some rs -> Forall2 (ith_ref i) args rs) /\
      vl_void act st args s = ofold (fun s rs => act rs s) calls s.
Proof.
  intros A S act st args s H Sc. destruct (lambda_dims_ok st args H Sc) as [(d & P & E & v & Hin)|[P E]].
  - right. exists d. split; [exact P|]. eapply vl_void_ok; eauto.
  - left. split; [exact P|]. unfold vl_void. rewrite E. reflexivity.
Qed.
Print Assumptions C64_lambda_void.

(* only scalars: one call *)
Theorem C64_lambda_scalar : forall A C (lam : list A -> outcome C) (st : store A) args xs,
  all_scalar args = true -> Forall2 (ith_arg st 0) args xs -> vl_scalar lam st args = lam xs.
Proof.
  intros A C lam st args xs S F. unfold vl_scalar.
  assert (E : omapl (fun a => match a with LScalar s => s_get st s | LVec _ => UB end) args = Ok xs).
  { revert S. induction F as [|a x l l' Ha F IH]; simpl; intros S; [reflexivity|].
    destruct a as [s|o]; [|discriminate]. simpl in Ha. rewrite (s_get_value _ _ _ Ha). cbn [obind]. rewrite IH by exact S. reflexivity. }
  rewrite E. reflexivity.
Qed.
Print Assumptions C64_lambda_scalar.

(* same_dims_or_scalar compares numbers of elements ... *)
Theorem C64_same_dims : forall A (st : store A) l, Forall (arg_ok st) l ->
  exists b, same_dims_or_scalar st l = Ok b /\
    ((forall o v, In (LVec o) l -> value st o = Some v -> v_data v <> []) ->
     (b = true <-> forall o1 o2 v1 v2, In (LVec o1) l -> In (LVec o2) l -> value st o1 = Some v1 -> value st o2 = Some v2 ->
        List.length (v_data v1) = List.length (v_data v2))).
Proof.
  intros A st l H. unfold same_dims_or_scalar. destruct (sds_ok st l H) as [[F E]|(o & v & pre & post & El & F & Hv & E)].
  - rewrite E. exists true. split; [reflexivity|]. intros _. split; [intros _|reflexivity].
    intros o1 o2 v1 v2 H1. rewrite Forall_forall in F. destruct (F _ H1).
  - rewrite E. cbn [obind]. assert (Hin : In (LVec o) l) by (rewrite El; apply in_or_app; right; left; reflexivity).
    destruct (Nat.eqb_spec (List.length (v_data v)) 0) as [Z|Z].
    + exists true. split; [reflexivity|]. intros N. destruct (N o v Hin Hv). destruct (v_data v); [reflexivity|discriminate].
    + destruct (sds_check_ok st (List.length (v_data v)) l H) as (b & Eb & Hb). exists b. split; [exact Eb|]. intros _.
      rewrite Hb. rewrite Forall_forall. split.
      * intros G o1 o2 v1 v2 H1 H2 E1 E2. destruct (G _ H1) as (w1 & W1 & L1). destruct (G _ H2) as (w2 & W2 & L2). congruence.
      * intros G a Ha. destruct a as [s|o']; [exact I|]. rewrite Forall_forall in H. destruct (H _ Ha) as (v' & Hv' & _).
        exists v'. split; [exact Hv'|]. exact (G o' o v' v Ha Hin Hv' Hv).
Qed.
Print Assumptions C64_same_dims.

(* ... Finding: not dimensions, and anything goes with an empty first vector *)
Theorem C64_same_dims_refuted :
  same_dims_or_scalar [mk_vec [2;3] [1;2;3;4;5;6]; mk_vec [3;2] [1;2;3;4;5;6]] [LVec (OVec 0); LVec (OVec 1)] = Ok true /\
  same_dims_or_scalar [mk_vec [0] []; mk_vec [2] [1;2]] [LVec (OVec 0); LVec (OVec 1)] = Ok true /\
  same_dims_or_scalar [mk_vec [0] []; mk_vec [2] [1;2]] [LVec (OVec 1); LVec (OVec 0)] = Ok false.
Proof. repeat split. Qed.
Print Assumptions C64_same_dims_refuted.

(* Finding: same_size does not compare sizes, it only tests that they are not zero *)
Theorem C64_same_size_refuted :
  (forall A (st : store A) a l na, Forall (arg_ok st) l -> arg_ok st a -> m_size st a = Ok na -> na <> 0 ->
     (forall b nb, In b l -> m_size st b = Ok nb -> nb <> 0) -> same_size st a l = Ok true) /\
  same_size [mk_vec [2] [1;2]; mk_vec [3] [1;2;3]] (LVec (OVec 0)) [LVec (OVec 1)] = Ok true /\
  same_size [mk_vec [0] []; mk_vec [0] []] (LVec (OVec 0)) [LVec (OVec 1) : larg nat] = Ok false.
Proof.
  split; [|split; reflexivity].
  intros A st a l na H Ha Hna Z G. induction l as [|b t IH]; simpl; [reflexivity|].
  inversion_clear H. rewrite Hna. cbn [obind].
  assert (exists nb, m_size st b = Ok nb) as (nb & Hnb).
  { destruct b as [s|o]; simpl; [eauto|]. destruct H0 as (v & Hv & _). exists (List.length (v_data v)). apply (o_size_value _ _ _ Hv). }
  rewrite Hnb. cbn [obind]. rewrite IH; auto.
  - cbn [obind]. assert (Zb := G b nb (or_introl eq_refl) Hnb).
    destruct na; [contradiction|]. destruct nb; [contradiction|]. reflexivity.
  - intros b' nb' Hb'. apply G. right. exact Hb'.
Qed.
Print Assumptions C64_same_size_refuted.

Example C64_ex_lambda :
  vl_value (fun xs => Ok (fold_right Nat.add 0 xs)) 0 [mk_vec [3] [1;2;3]; mk_vec [3] [10;20;30]]
    [LVec (OVec 0); LScalar (SVal 100); LVec (OVec 1)] = Ok (mk_vec [3] [111;122;133]).
Proof. reflexivity. Qed.
Example C64_ex_mismatch :
  vl_value (fun xs => Ok (fold_right Nat.add 0 xs)) 0 [mk_vec [3] [1;2;3]; mk_vec [2] [10;20]]
    [LVec (OVec 0); LVec (OVec 1)] = CheckFail.
Proof. reflexivity. Qed.
Example C64_ex_void :
  vl_void (fun rs s => Ok (s ++ [rs])) [mk_vec [2] [7;8]] [LVec (OVec 0); LScalar (SVal 5)] [] =
  Ok [[SElem (0,0); SVal 5]; [SElem (0,1); SVal 5]].
Proof. reflexivity. Qed.
Example C64_ex_vz : vz2_rv (fun x y => Ok (Nat.pow x y)) [mk_vec [3] [2;3;4]; mk_vec [3] [3;2;1]] 0 [3]
  (fun st i => o_get st (OVec 1) i) = Ok ([mk_vec [3] [8;9;4]; mk_vec [3] [3;2;1]], mk_vec [3] [8;9;4]).
Proof. reflexivity. Qed.
