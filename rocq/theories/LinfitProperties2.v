(* Examples of linear fits and findings on linfit_nn(), with rational numbers. *)
From Coq Require Import QArith Qreduction.
From Verif Require Import Base ImageModel MatModel LinfitModel.
Local Open Scope Q_scope.

(* ---- rational numbers ---- *)
Definition q_add a b := Qred (Qplus a b).
Definition q_sub a b := Qred (Qminus a b).
Definition q_mul a b := Qred (Qmult a b).
Definition q_div a b := Qred (Qdiv a b).
Definition q_abs a := if Qle_bool 0 a then a else Qred (Qopp a).
Definition q_lt a b := negb (Qle_bool b a).
(* the roots of the squares *)
Definition q_sqrt (a : Q) : Q :=
  let r := Z.sqrt (Qnum a) # Pos.sqrt (Qden a) in if Qeq_bool (Qmult r r) a then r else a.
Definition q_linfit := linfit (0 # 1) (1 # 1) q_add q_sub q_mul q_div q_abs q_lt Qeq_bool q_sqrt.
Definition q_linfit_pack := linfit_pack (0 # 1) (1 # 1) q_add q_sub q_mul q_div q_abs q_lt Qeq_bool q_sqrt.
Definition q_linfit_nn := linfit_nn (0 # 1) (1 # 1) q_add q_sub q_mul q_div q_abs q_lt Qeq_bool.
Definition q_batch := linfit_batch (0 # 1) (1 # 1) q_add q_sub q_mul q_div q_abs q_lt Qeq_bool q_sqrt.
Definition q_pack_batch := linfit_pack_batch (0 # 1) (1 # 1) q_add q_sub q_mul q_div q_abs q_lt Qeq_bool q_sqrt.
Definition q_update := update_model (0 # 1) (1 # 1) q_add q_sub q_mul q_div q_abs q_lt Qeq_bool q_sqrt.
Definition q_updates := update_models (0 # 1) (1 # 1) q_add q_sub q_mul q_div q_abs q_lt Qeq_bool q_sqrt.
Definition q_fit := fit (0 # 1) q_add q_sub q_mul q_div.
Definition q_fit_nochi2 := fit_nochi2 (0 # 1) q_add q_mul q_div.
Definition q_update_chi2 := update_chi2 (0 # 1) q_add q_sub q_mul q_div.
(* what linfit_nn() uses: 10000 iterations, 1e-4 *)
Definition q_nn := q_linfit_nn (N.to_nat 10000) (1 # 10000).

(* Finding: a model that overlaps with none of those that are correlated with the data gets NaN, not 0,
   and with it chi2.  Here y = (1,0) and the models (1,0) and (0,1); then y = -1 and the model 1.  The
   right answers are (1,0) and 0. *)
Theorem C74_linfit_nn_nan_refuted :
  q_nn (AV [2%nat] ([1; 0]%Q)) (AS 1%Q) [AV [2%nat] ([1; 0]%Q); AV [2%nat] ([0; 1]%Q)] =
    Ok (Nnres false None [Some 1%Q; None]) /\
  q_nn (AV [1%nat] ([(-1)]%Q)) (AS 1%Q) [AV [1%nat] ([1]%Q)] = Ok (Nnres false None [None]).
Proof. vm_compute. repeat split; reflexivity. Qed.
Print Assumptions C74_linfit_nn_nan_refuted.
(* Finding: models that are anti-correlated can get negative parameters.  Here y = (-1,2) and the models
   (-2,0) and (3,2), for two iterations. *)
Theorem C74_linfit_nn_negative_refuted :
  omap (fun r => n_params r) (q_linfit_nn 2 (1 # 10000) (AV [2%nat] ([-1; 2]%Q)) (AS 1%Q)
     [AV [2%nat] ([-2; 0]%Q); AV [2%nat] ([3; 2]%Q)]) = Ok [Some (19 # 41); Some (-41 # 1633)]%Q.
Proof. vm_compute. repeat split; reflexivity. Qed.
Print Assumptions C74_linfit_nn_negative_refuted.

(* ---- examples ---- *)
(* a line through three points: 1 + 2x; a scalar model and a scalar error *)
Example C72_example_line :
  q_linfit (AV [3%nat] ([1; 3; 5]%Q)) (AS 1%Q) [AS 1%Q; AV [3%nat] ([0; 1; 2]%Q)] =
  Ok (Lres true (Some 0%Q) [Some 1%Q; Some 2%Q] [Some (5 # 6); Some (1 # 2)]
        (Img 2 2 [5 # 6; -1 # 2; -1 # 2; 1 # 2])).
Proof. vm_compute. repeat split; reflexivity. Qed.
(* points that are not on a line, and errors that are not equal *)
Example C72_example_weights :
  q_linfit (AV [2%nat] ([4; 10]%Q)) (AV [2%nat] ([1; 3]%Q)) [AV [2%nat] ([0; 6]%Q)] =
    Ok (Lres true (Some 16%Q) [Some (5 # 3)] [Some (1 # 2)] (Img 1 1 [1 # 4])) /\
  q_linfit_pack [2%nat] ([4; 10]%Q) [2%nat] ([1; 3]%Q) [1%nat; 2%nat] ([0; 6]%Q) =
    q_linfit (AV [2%nat] ([4; 10]%Q)) (AV [2%nat] ([1; 3]%Q)) [AV [2%nat] ([0; 6]%Q)].
Proof. vm_compute. repeat split; reflexivity. Qed.
(* twice the same model *)
Example C72_example_degenerate :
  omap (fun r => (success r, chi2 r, params r, errors r))
    (q_linfit (AV [2%nat] ([4; 10]%Q)) (AS 1%Q) [AV [2%nat] ([1; 2]%Q); AV [2%nat] ([2; 4]%Q)]) =
  Ok (false, None, [None; None], [None; None]).
Proof. vm_compute. repeat split; reflexivity. Qed.
Example C72_example_refused :
  q_linfit (AV [2%nat] ([4; 10]%Q)) (AS 1%Q) [AV [3%nat] ([1; 2; 3]%Q)] = CheckFail /\
  q_linfit_pack [2%nat] ([4; 10]%Q) [2%nat] ([1; 3]%Q) [1%nat; 3%nat] ([0; 6; 7]%Q) = CheckFail.
Proof. vm_compute. repeat split; reflexivity. Qed.
(* a batch: fit, change a model into one that is degenerate, and back into another one *)
Definition q_b1 := q_batch (AV [3%nat] ([1; 1; 2]%Q)) [AS 1%Q; AV [3%nat] ([0; 1; 2]%Q)].
Definition q_b2 := obind q_b1 (fun b => obind (q_fit b (AV [3%nat] ([1; 3; 5]%Q))) (fun b =>
  obind (q_update b 1 ([2; 2; 2]%Q)) (fun b => q_fit b (AV [3%nat] ([1; 3; 5]%Q))))).
Definition q_b3 := obind q_b2 (fun b =>
  obind (q_updates b [(1%nat, [2; 2; 1]%Q); (0%nat, [1; 0; 1]%Q)]) (fun b => q_fit b (AV [3%nat] ([5; 4; 3]%Q)))).
Example C73_example_session :
  omap (fun b => (success (b_fr b), params (b_fr b))) q_b1 = Ok (true, []) /\
  omap (fun b => (success (b_fr b), chi2 (b_fr b), params (b_fr b), errors (b_fr b))) q_b2 =
    Ok (false, None, [None; None], [None; None]) /\
  omap b_fr q_b3 = q_linfit (AV [3%nat] ([5; 4; 3]%Q)) (AV [3%nat] ([1; 1; 2]%Q))
     [AV [3%nat] ([1; 0; 1]%Q); AV [3%nat] ([2; 2; 1]%Q)] /\
  omap (fun b => (success (b_fr b), chi2 (b_fr b), params (b_fr b))) q_b3 = Ok (true, Some (0 # 1), [Some (1 # 1); Some (2 # 1)]).
Proof. vm_compute. repeat split; reflexivity. Qed.
Example C73_example_UB :
  obind q_b1 (fun b => q_update_chi2 b (AV [3%nat] ([1; 3; 5]%Q))) = UB /\
  obind q_b1 (fun b => q_update b 0 ([1; 3]%Q)) = UB /\
  obind q_b1 (fun b => q_update b 2 ([1; 3; 5]%Q)) = CheckFail /\
  q_batch (AS 1%Q) [AV [3%nat] ([0; 1; 2]%Q)] = CheckFail /\
  q_pack_batch [3%nat] ([1; 1; 1]%Q) [2%nat; 2%nat] ([1; 2; 3; 4]%Q) = UB.
Proof. vm_compute. repeat split; reflexivity. Qed.
(* the first guess is (1,1); the best parameters are (1,2) and one iteration gets closer *)
Example C74_example :
  q_linfit_nn 1 (1 # 10000) (AV [2%nat] ([1; 4]%Q)) (AS 1%Q) [AV [2%nat] ([1; 0]%Q); AV [2%nat] ([0; 2]%Q)] =
    Ok (Nnres false (Some (0 # 1)) [Some (1 # 1); Some (2 # 1)]) /\
  omap (fun r => n_params r) (q_linfit_nn 1 (1 # 10000) (AV [2%nat] ([1; 4]%Q)) (AS 1%Q)
    [AV [2%nat] ([1; 0]%Q); AV [2%nat] ([1; 2]%Q)]) = Ok [Some (1 # 2); Some (18 # 11)].
Proof. vm_compute. repeat split; reflexivity. Qed.
