(* Property theorems C08, C09: assignment and compound assignment through views. *)
From Verif Require Import Base IndexModel IndexSpec VecModel VecSpec ViewModel ViewSpec ViewProofs.

(* ---- C08 : no aliasing in plain assignment -------------------------------- *)

(* v[a] = v[b] *)
Theorem C08_index_index : forall A (st : store A) k v a b,
  nth_error st k = Some v -> Forall (fun i => i < v_size v) a -> Forall (fun i => i < v_size v) b ->
  length a = length b ->
  exists w u vals r,
    view_ids st k false a = Ok w /\ view_ids st k false b = Ok u /\
    pick (v_data v) b = Some vals /\ stored (v_data v) a vals r /\
    assign_view_view st w u = Ok (upd st k (mk_vec (v_dims v) r)).
Proof.
  intros A st k v a b Hv Ha Hb L.
  pose proof (view_ids_ok st k false a v Hv Ha) as Wa. pose proof (view_ids_ok st k false b v Hv Hb) as Wb.
  destruct (view_ids_points _ _ _ _ _ Wa) as (P1 & T1 & _). destruct (view_ids_points _ _ _ _ _ Wb) as (P2 & T2 & _).
  destruct (view_view_ok _ _ _ _ _ _ _ _ _ P1 P2 (fun _ => conj (T1 eq_refl) (T2 eq_refl)) L Hv Hv)
    as (vals & r & H1 & H2 & H3).
  eexists _, _, vals, r. repeat split; try eassumption; apply H2.
Qed.
Print Assumptions C08_index_index.

(* the same for all pairs of views, however they were obtained, on the same vector
   (both tracked) or on different vectors (any views) *)
Theorem C08_view_view : forall A (st : store A) k j tw tu w u v v2,
  taken st k tw w -> taken st j tu u -> (k = j -> tw = true /\ tu = true) ->
  nth_error st k = Some v -> nth_error st j = Some v2 ->
  length (positions w) = length (positions u) ->
  exists vals r, pick (v_data v2) (positions u) = Some vals /\
    stored (v_data v) (positions w) vals r /\
    assign_view_view st w u = Ok (upd st k (mk_vec (v_dims v) r)).
Proof.
  intros A st k j tw tu w u v v2 H1 H2 H3 H4 H5 H6.
  apply taken_points in H1. apply taken_points in H2. destruct H1 as [P1 T1]. destruct H2 as [P2 T2].
  eapply view_view_ok; try eassumption. intros E. destruct (H3 E) as [-> ->]. subst j. auto.
Qed.
Print Assumptions C08_view_view.

(* v[a] = v2, where v2 may be v itself *)
Theorem C08_view_vec : forall A (st : store A) k j t w v v2,
  taken st k t w -> (k = j -> t = true) ->
  nth_error st k = Some v -> nth_error st j = Some v2 -> length (positions w) = v_size v2 ->
  exists r, stored (v_data v) (positions w) (v_data v2) r /\
    assign_view_vec st w j = Ok (upd st k (mk_vec (v_dims v) r)).
Proof.
  intros A st k j t w v v2 H1 H2 H3 H4 H5. apply taken_points in H1. destruct H1 as [P1 T1].
  eapply view_vec_ok; try eassumption. auto.
Qed.
Print Assumptions C08_view_vec.

(* v = v2[b], where v2 may be v itself *)
Theorem C08_vec_view : forall A (dflt : A) (st : store A) k j t u v v2,
  taken st j t u -> (k = j -> t = true) ->
  nth_error st k = Some v -> nth_error st j = Some v2 ->
  exists vals, pick (v_data v2) (positions u) = Some vals /\
    assign_vec_view dflt st k u = Ok (upd st k (mk_vec (w_dims u) vals)).
Proof.
  intros A dflt st k j t w v v2 H1 H2 H3 H4. apply taken_points in H1. destruct H1 as [P1 T1].
  eapply vec_view_ok; try eassumption. intros E; subst j; auto.
Qed.
Print Assumptions C08_vec_view.

(* v[a] = s, where the scalar s may be an element of v *)
Theorem C08_view_scalar : forall A (st : store A) k t w v q x,
  taken st k t w -> nth_error st k = Some v -> read st q = Ok x ->
  exists r, stored (v_data v) (positions w) (repeat x (length (positions w))) r /\
    assign_view_scalar st w q = Ok (upd st k (mk_vec (v_dims v) r)).
Proof.
  intros A st k t w v q x H1 H2 H3. apply taken_points in H1. destruct H1 as [P1 T1].
  eapply view_scalar_ok; eassumption.
Qed.
Print Assumptions C08_view_scalar.

(* [stored] determines the result, and reads as expected for distinct targets *)
Theorem C08_stored_distinct : forall A (old : list A) a vals r,
  stored old a vals r -> NoDup a -> length a = length vals -> Forall (fun i => i < length old) a ->
  pick r a = Some vals /\ forall i, ~ In i a -> nth_error r i = nth_error old i.
Proof. exact @stored_distinct. Qed.
Print Assumptions C08_stored_distinct.

(* sizes differ: rejected *)
Theorem C08_size_mismatch : forall A (st : store A) w u,
  length (positions w) <> length (positions u) -> assign_view_view st w u = CheckFail.
Proof.
  intros A st w u H. unfold positions in H. rewrite !map_length in H. unfold assign_view_view.
  destruct (Nat.eqb_spec (length (w_ptrs w)) (length (w_ptrs u))); [contradiction|reflexivity].
Qed.
Print Assumptions C08_size_mismatch.

(* A view of the same vector taken through a const reference:  v = cv[{2,0,1}] *)
Theorem C08_const_vec_refuted :
  exists (st : store nat) v u vals st',
    nth_error st 0 = Some v /\ taken st 0 false u /\ view_ids st 0 true [2;0;1] = Ok u /\
    pick (v_data v) [2;0;1] = Some vals /\
    assign_vec_view 0 st 0 u = Ok st' /\ st' <> [mk_vec [3] vals].
Proof.
  exists [mk_vec [3] [1;2;3]], (mk_vec [3] [1;2;3]), (mk_view (PVec 0) true [3] [(0,2);(0,0);(0,1)]),
    [3;1;2], [mk_vec [3] [3;3;3]].
  repeat split; try reflexivity; try discriminate. eapply (taken_ids _ 0 true [2;0;1]). reflexivity.
Qed.
Print Assumptions C08_const_vec_refuted.

(* v[{1,2}] = cv[{0,1}] *)
Theorem C08_const_view_refuted :
  exists (st : store nat) w u vals st',
    view_ids st 0 false [1;2] = Ok w /\ view_ids st 0 true [0;1] = Ok u /\
    st = [mk_vec [3] [1;2;3]] /\ pick [1;2;3] [0;1] = Some vals /\
    assign_view_view st w u = Ok st' /\
    forall r, stored [1;2;3] [1;2] vals r -> st' <> [mk_vec [3] r].
Proof.
  exists [mk_vec [3] [1;2;3]], (mk_view (PVec 0) false [2] [(0,1);(0,2)]), (mk_view (PVec 0) true [2] [(0,0);(0,1)]),
    [1;2], [mk_vec [3] [1;1;1]].
  repeat split; try reflexivity. intros r [_ H] E. injection E as <-. specialize (H 2). discriminate H.
Qed.
Print Assumptions C08_const_view_refuted.

(* auto w = v[_];  w[1-_-2] = v[0-_-1]: a range of a view, although nothing is const *)
Theorem C08_range_of_view_refuted :
  exists (st : store nat) w0 w u vals st',
    view_rng st 0 false RFull = Ok w0 /\ view_view_rng w0 99 false (RLeftRight 1 2) = Ok w /\
    view_rng st 0 false (RLeftRight 0 1) = Ok u /\
    st = [mk_vec [3] [1;2;3]] /\ pick [1;2;3] (positions u) = Some vals /\
    assign_view_view st w u = Ok st' /\
    forall r, stored [1;2;3] (positions w) vals r -> st' <> [mk_vec [3] r].
Proof.
  exists [mk_vec [3] [1;2;3]], (mk_view (PVec 0) false [3] [(0,0);(0,1);(0,2)]),
    (mk_view (PView 99) false [2] [(0,1);(0,2)]), (mk_view (PVec 0) false [2] [(0,0);(0,1)]),
    [1;2], [mk_vec [3] [1;1;1]].
  repeat split; try reflexivity. intros r [_ H] E. injection E as <-. specialize (H 2). discriminate H.
Qed.
Print Assumptions C08_range_of_view_refuted.

Example C08_ex_overlap :
  (w <- view_ids [mk_vec [5] [10;11;12;13;14]] 0 false [1;2;3;3] ;;
   u <- view_ids [mk_vec [5] [10;11;12;13;14]] 0 false [0;1;2;4] ;;
   assign_view_view [mk_vec [5] [10;11;12;13;14]] w u) = Ok [mk_vec [5] [10;10;11;14;14]].
Proof. reflexivity. Qed.
Example C08_ex_taken :
  let st := [mk_vec [2;2] [1;2;3;4]] in
  exists w w', taken st 0 true w' /\ view_multi st 0 false [SRange RFull; SScalar 1] = Ok w /\
    view_view_ids w false [1;0] = Ok w' /\ positions w' = [3;1].
Proof.
  intros st. exists (mk_view (PVec 0) false [2] [(0,1);(0,3)]), (mk_view (PVec 0) false [2] [(0,3);(0,1)]). split; [|split; [vm_compute; reflexivity|split; [vm_compute; reflexivity|reflexivity]]].
  eapply (taken_sub st 0 true (mk_view (PVec 0) false [2] [(0,1);(0,3)]) false [1;0]); [|vm_compute; reflexivity].
  apply (taken_multi st 0 false [SRange RFull; SScalar 1] _ (mk_vec [2;2] [1;2;3;4])).
  - reflexivity.
  - repeat split; vm_compute; congruence.
  - repeat constructor; vm_compute; congruence.
  - repeat constructor.
  - vm_compute; reflexivity.
Qed.

(* ---- C09 : no aliasing in compound assignment ----------------------------- *)

(* v[a] op= v2[b] *)
Theorem C09_view_view : forall A (f : A -> A -> A) (st : store A) k j tw tu w u v v2,
  taken st k tw w -> taken st j tu u -> (k = j -> tw = true /\ tu = true) ->
  nth_error st k = Some v -> nth_error st j = Some v2 -> w_dims w = w_dims u ->
  exists vals r, pick (v_data v2) (positions u) = Some vals /\
    combined f (v_data v) (positions w) vals r /\
    op_view_view f st w u = Ok (upd st k (mk_vec (v_dims v) r)).
Proof.
  intros A f st k j tw tu w u v v2 H1 H2 H3 H4 H5 H6.
  apply taken_points in H1. apply taken_points in H2. destruct H1 as [P1 T1]. destruct H2 as [P2 T2].
  eapply op_view_view_ok; try eassumption. intros E. destruct (H3 E) as [-> ->]. subst j. auto.
Qed.
Print Assumptions C09_view_view.

(* v[a] op= v2, where v2 may be v *)
Theorem C09_view_vec : forall A (f : A -> A -> A) (st : store A) k j t w v v2,
  taken st k t w -> (k = j -> t = true) ->
  nth_error st k = Some v -> nth_error st j = Some v2 -> w_dims w = v_dims v2 ->
  exists r, combined f (v_data v) (positions w) (v_data v2) r /\
    op_view_vec f st w j = Ok (upd st k (mk_vec (v_dims v) r)).
Proof.
  intros A f st k j t w v v2 H1 H2 H3 H4 H5. apply taken_points in H1. destruct H1 as [P1 T1].
  eapply op_view_vec_ok; try eassumption. auto.
Qed.
Print Assumptions C09_view_vec.

(* v op= v2[b], where v2 may be v *)
Theorem C09_vec_view : forall A (f : A -> A -> A) (st : store A) k j t u v v2,
  taken st j t u -> (k = j -> t = true) ->
  nth_error st k = Some v -> nth_error st j = Some v2 -> v_dims v = w_dims u ->
  exists vals r, pick (v_data v2) (positions u) = Some vals /\
    combined f (v_data v) (seq 0 (v_size v)) vals r /\
    op_vec_view f st k u = Ok (upd st k (mk_vec (v_dims v) r)).
Proof.
  intros A f st k j t w v v2 H1 H2 H3 H4 H5. apply taken_points in H1. destruct H1 as [P1 T1].
  eapply op_vec_view_ok; try eassumption. intros E; subst j; auto.
Qed.
Print Assumptions C09_vec_view.

(* v op= v2, including v op= v *)
Theorem C09_vec_vec : forall A (f : A -> A -> A) (st : store A) k j v v2,
  nth_error st k = Some v -> nth_error st j = Some v2 -> v_dims v = v_dims v2 ->
  exists r, combined f (v_data v) (seq 0 (v_size v)) (v_data v2) r /\
    op_vec_vec f st k j = Ok (upd st k (mk_vec (v_dims v) r)).
Proof. exact @op_vec_vec_ok. Qed.
Print Assumptions C09_vec_vec.

(* v[a] op= s: s is passed by value, so an element of v gives its old value *)
Theorem C09_view_scalar : forall A (f : A -> A -> A) (st : store A) k t w v q x,
  taken st k t w -> nth_error st k = Some v -> read st q = Ok x ->
  exists r, combined f (v_data v) (positions w) (repeat x (length (positions w))) r /\
    op_view_scalar f st w x = Ok (upd st k (mk_vec (v_dims v) r)).
Proof.
  intros A f st k t w v q x H1 H2 _. apply taken_points in H1. destruct H1 as [P1 T1].
  eapply op_view_scalar_ok; eassumption.
Qed.
Print Assumptions C09_view_scalar.

(* v op= s with s not an element of v *)
Theorem C09_vec_scalar : forall A (f : A -> A -> A) (st : store A) k v s x,
  nth_error st k = Some v ->
  match s with SVal y => y = x | SElem q => fst q <> k /\ read st q = Ok x end ->
  op_vec_scalar f st k s = Ok (upd st k (mk_vec (v_dims v) (map (fun y => f y x) (v_data v)))).
Proof. exact @op_vec_scalar_ok. Qed.
Print Assumptions C09_vec_scalar.

(* [combined] reads as expected for distinct targets *)
Theorem C09_combined_distinct : forall A f (old : list A) a vals r,
  combined f old a vals r -> NoDup a -> length a = length vals -> Forall (fun i => i < length old) a ->
  (forall n i x, nth_error a n = Some i -> nth_error vals n = Some x ->
     exists y, nth_error old i = Some y /\ nth_error r i = Some (f y x)) /\
  forall i, ~ In i a -> nth_error r i = nth_error old i.
Proof. exact @combined_distinct. Qed.
Print Assumptions C09_combined_distinct.

(* v *= v[1]: the scalar is re-read after it was modified *)
Theorem C09_vec_scalar_refuted :
  exists (st : store nat) x st',
    read st (0, 1) = Ok x /\ st = [mk_vec [3] [1;2;3]] /\
    op_vec_scalar Nat.mul st 0 (SElem (0, 1)) = Ok st' /\
    st' <> [mk_vec [3] (map (fun y => y * x) [1;2;3])].
Proof.
  exists [mk_vec [3] [1;2;3]], 2, [mk_vec [3] [2;4;12]]. repeat split; try reflexivity. discriminate.
Qed.
Print Assumptions C09_vec_scalar_refuted.

Example C09_ex_overlap :
  (w <- view_ids [mk_vec [4] [1;2;3;4]] 0 false [1;2;2] ;;
   u <- view_ids [mk_vec [4] [1;2;3;4]] 0 false [0;1;2] ;;
   op_view_view Nat.add [mk_vec [4] [1;2;3;4]] w u) = Ok [mk_vec [4] [1;3;8;4]].
Proof. reflexivity. Qed.
Example C09_ex_self : op_vec_vec Nat.add [mk_vec [3] [1;2;3]] 0 0 = Ok [mk_vec [3] [2;4;6]].
Proof. reflexivity. Qed.
