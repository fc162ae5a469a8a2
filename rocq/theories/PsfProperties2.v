(* Examples of fits of point sources (C107), with rational numbers (the square root is left out). *)
From Coq Require Import QArith Qreduction.
From Verif Require Import Base VecModel ImageModel MatModel LinfitModel PsfModel.
Local Open Scope nat_scope.

Definition q_add a b := Qred (Qplus a b).
Definition q_sub a b := Qred (Qminus a b).
Definition q_mul a b := Qred (Qmult a b).
Definition q_div a b := Qred (Qdiv a b).
Definition q_abs a := if Qle_bool 0 a then a else Qred (Qopp a).
Definition q_lt a b := negb (Qle_bool b a).
Definition q_psffit := psffit 0%Q 1%Q q_add q_sub q_mul q_div q_abs q_lt Qeq_bool (fun a => a) 1000%Q.
Definition the_psf : img Q := Img 3 3 [0; 1; 0; 1; 4; 1; 0; 1; 0]%Q.
Definition some (l : list Q) : list (option Q) := map Some l.

(* 2 + 3 psf, at the pixel (1, 1) *)
Example ex_fit : match q_psffit (Img 3 3 (some [2; 5; 2; 5; 14; 5; 2; 5; 2]%Q)) (Img 1 1 [Some 1%Q]) the_psf [1; 1]%Z with
  | Ok r => p_bg r = Some 2%Q /\ p_flux r = Some 3%Q /\ p_chi2 r = Some 0%Q | _ => False end.
Proof. vm_compute. auto. Qed.
(* all the pixels of the PSF are the same *)
Example ex_fit_flat : q_psffit (Img 1 1 (some [2]%Q)) (Img 1 1 [Some 1%Q]) (Img 1 1 [1%Q]) [0; 0]%Z = Ok (Psfres None None None None None).
Proof. vm_compute. reflexivity. Qed.
(* a PSF of three columns and one row *)
Example ex_fit_shape : q_psffit (Img 3 3 (some [2; 5; 2; 5; 14; 5; 2; 5; 2]%Q)) (Img 1 1 [Some 1%Q]) (Img 1 3 [1; 4; 1]%Q) [1; 1]%Z = CheckFail.
Proof. vm_compute. reflexivity. Qed.
