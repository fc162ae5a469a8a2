(* C113: headers with astrometry *)
From Coq Require Import Ascii String Lia.
From Verif Require Import Base StrModel KeyModel KeySpec KeyProofs WcshModel WcshSpec WcshProofs WcshProofs2.
Local Open Scope list_scope.
Notation length := List.length.

Section Wcs.
Variable V : Type.
Variable finite : V -> bool.
Variables neg_scale pos_scale : V -> V.
Variable epoch nan : V.
Variable show : V -> list ascii.
Variable showu : N -> list ascii.
Variable parse : list ascii -> option V.
Variable parseu : list ascii -> option N.
Hypothesis show_plain : forall x, plain (show x).
Hypothesis showu_plain : forall n, plain (showu n).
Notation make_header := (make_header V finite neg_scale pos_scale epoch show showu).
Notation make_header_from := (make_header_from V finite neg_scale pos_scale epoch nan show showu parse parseu).
Notation expected := (expected V finite neg_scale pos_scale epoch show showu).

(* The parameters that are given appear in the header under their keywords, every other keyword is as before,
   and the result is a header again; an empty header is started. *)
Theorem C113_make : forall p hdr, hdr = [] \/ header hdr -> exists hdr', make_header p hdr = Ok (true, hdr') /\ header hdr' /\
  forall key, get_text hdr' key = match expected p key with Some v => Ok (Some v) | None => get_text hdr key end.
Proof. intros p hdr H. now apply make_ok. Qed.

(* The parameters as texts: the name in any case with blanks around it, the last one of a name counts. *)
Theorem C113_texts : forall l ss hdr, Forall2 (written V parse parseu) l ss ->
  make_header_from l hdr = make_header (fold_left (apply V) ss (unset V nan)) hdr.
Proof. intros l ss hdr F. unfold WcshModel.make_header_from. change (WcshModel.default V nan) with (unset V nan). rewrite (read_params_ok V parse parseu l ss F). reflexivity. Qed.

(* A text that is not a parameter makes the whole fail, and the header is not touched. *)
Theorem C113_ill_formed : forall l t hdr, In t l -> (forall s, ~ written V parse parseu t s) -> make_header_from l hdr = Ok (false, hdr).
Proof. intros l t hdr I N. unfold WcshModel.make_header_from. now rewrite (read_params_bad V parse parseu l t I N). Qed.

(* Twice the same parameters is once. *)
Theorem C113_again : forall p hdr h1 h2, hdr = [] \/ header hdr -> make_header p hdr = Ok (true, h1) -> make_header p h1 = Ok (true, h2) ->
  forall key, get_text h2 key = get_text h1 key.
Proof.
  intros p hdr h1 h2 H E1 E2 key. destruct (C113_make p hdr H) as (a & A1 & A2 & A3). rewrite E1 in A1. injection A1 as <-.
  destruct (C113_make p h1 (or_intror A2)) as (b & B1 & _ & B3). rewrite E2 in B1. injection B1 as <-.
  rewrite B3, (A3 key). destruct (expected p key); reflexivity.
Qed.

(* Finding: the number of axes is written as NAXES, which is not a keyword of FITS: NAXIS is left as it was, and is
   not in a new header, which has NAXIS1 and NAXIS2. *)
Theorem C113_naxes_refuted : forall p hdr, hdr = [] \/ header hdr -> dx p <> (2 ^ 64 - 1)%N -> dy p <> (2 ^ 64 - 1)%N ->
  exists hdr', make_header p hdr = Ok (true, hdr') /\ get_text hdr' (lit "NAXES") = Ok (Some (showu 2)) /\
    get_text hdr' (lit "NAXIS1") = Ok (Some (showu (dx p))) /\ get_text hdr' (lit "NAXIS") = get_text hdr (lit "NAXIS").
Proof.
  intros p hdr H X Y. destruct (C113_make p hdr H) as (h & E & _ & G). exists h. split; [exact E|]. rewrite !G.
  apply N.eqb_neq in X, Y. unfold WcshSpec.expected. rewrite X, Y. cbn [negb andb].
  destruct (finite (scale p)), (finite (px p) && finite (py p)), (finite (ra p) && finite (dec p)); cbn; auto.
Qed.

(* Finding: a reference of which one coordinate is missing (or not a number) is ignored, and the result is true. *)
Theorem C113_half_refuted : forall p hdr, hdr = [] \/ header hdr -> finite (px p) = true -> finite (py p) = false ->
  exists hdr', make_header p hdr = Ok (true, hdr') /\ get_text hdr' (lit "CRPIX1") = get_text hdr (lit "CRPIX1").
Proof.
  intros p hdr H X Y. destruct (C113_make p hdr H) as (h & E & _ & G). exists h. split; [exact E|]. rewrite G.
  unfold WcshSpec.expected. rewrite X, Y. cbn [andb].
  destruct (finite (scale p)), (finite (ra p) && finite (dec p)), (negb (dx p =? _)%N && negb (dy p =? _)%N); cbn; reflexivity.
Qed.

(* Finding: a new scale is written as CDELT only; the matrix CD of the header, which replaces CDELT where there is one, keeps
   the old scale. *)
Theorem C113_matrix_refuted : forall p hdr, hdr = [] \/ header hdr -> exists hdr', make_header p hdr = Ok (true, hdr') /\
  get_text hdr' (lit "CD1_1") = get_text hdr (lit "CD1_1") /\ get_text hdr' (lit "CD2_2") = get_text hdr (lit "CD2_2").
Proof.
  intros p hdr H. destruct (C113_make p hdr H) as (h & E & _ & G). exists h. split; [exact E|]. rewrite !G.
  unfold WcshSpec.expected.
  destruct (finite (scale p)), (finite (px p) && finite (py p)), (finite (ra p) && finite (dec p)), (negb (dx p =? _)%N && negb (dy p =? _)%N); cbn; auto.
Qed.
End Wcs.
Print Assumptions C113_make.
Print Assumptions C113_texts.
Print Assumptions C113_ill_formed.
Print Assumptions C113_again.
Print Assumptions C113_naxes_refuted.
Print Assumptions C113_half_refuted.
Print Assumptions C113_matrix_refuted.

(* a toy: numbers are texts *)
Definition toy_finite (s : list ascii) : bool := match s with [] => false | _ => true end.
Definition toy_parse (s : list ascii) : option (list ascii) := match s with [] => None | _ => Some s end.
Definition toy_parseu (s : list ascii) : option N := match s with [c] => Some (N_of_ascii c - 48)%N | _ => None end.
Definition toy_make := make_header_from (list ascii) toy_finite (fun s => "-"%char :: s) (fun s => s) (lit "2000") [] (fun s => s) (fun n => [ascii_of_N (n + 48)]) toy_parse toy_parseu.
Example C113_ex : exists h, toy_make [lit " Pixel_Scale :6"; lit "sky_ref:1,2"; lit "pixel_scale:7"] [] = Ok (true, h) /\
  get_text h (lit "CDELT1") = Ok (Some (lit "-7")) /\ get_text h (lit "CRVAL2") = Ok (Some (lit "2")) /\ get_text h (lit "CRPIX1") = Ok None /\ length h = 640.
Proof. eexists. split; [vm_compute; reflexivity|]. vm_compute. repeat split. Qed.
Example C113_ill_ex : toy_make [lit "dims:5"; lit "pixel_scale:7"] (lit "x") = Ok (false, lit "x") /\ toy_make [lit "scale:7"] [] = Ok (false, []) /\
  toy_make [lit "sky_ref:1:2"] [] = Ok (false, []).
Proof. vm_compute. repeat split. Qed.
Example C113_axes_ex : exists h, toy_make [lit "dims:5,6"] [] = Ok (true, h) /\ get_text h (lit "NAXIS") = Ok None /\ get_text h (lit "NAXIS2") = Ok (Some (lit "6")).
Proof. eexists. split; [vm_compute; reflexivity|]. vm_compute. repeat split. Qed.
Example C113_plain_ex : plain (lit "-3.56985") /\ header end_card.
Proof. split; [apply plain_literal; [reflexivity|cbn; lia]|apply header_end]. Qed.
