(* C119: headers made acceptable for WCSLIB. *)
From Coq Require Import Ascii String Lia.
From Verif Require Import Base StrModel StrSpec KeySpec HdrModel HdrSpec HdrProofs HdrProperties CureModel.
From Verif Require RegModel.
From Verif Require Import CureSpec CureProofs.
Local Open Scope list_scope.
Local Open Scope nat_scope.
Import RegModel (regex_match).

(* The patterns recognise the keywords that they are meant for, and no others. *)
Theorem C119_patterns : forall k,
  (regex_match k unit_key = true <-> is_unit_key k) /\ (regex_match k lookup_key = true <-> is_lookup_key k) /\
  (regex_match k lookup_value = true <-> contains ["L"; "o"; "o"; "k"; "u"; "p"]%char k) /\
  (regex_match k sip_key = true <-> is_sip_key k) /\ (regex_match k distortion_key = true <-> is_distortion_key k).
Proof. intros k. split; [apply unit_ok|]. split; [apply lookup_ok|]. split; [apply (part "Lookup")|]. split; [apply sip_ok|apply distortion_ok]. Qed.
Print Assumptions C119_patterns.
(* The keywords that are written are those of the header, in the same order, with the names of units
   corrected, without the SIP keywords, and without the other distortion keywords if one of them uses a lookup table. *)
Theorem C119_cure : forall hdr ks, parse_header hdr = Ok ks ->
  exists ks', cured ks ks' /\ cure_header hdr = serialize_header ks' /\ (forall x, cured ks x -> x = ks').
Proof.
  intros hdr ks E. destruct (cure_keys_ok ks) as (ks' & K & C). exists ks'. split; [exact C|]. split; [unfold cure_header; rewrite E; cbn [obind]; rewrite K; reflexivity|].
  intros x X. eapply cured_fun; eauto.
Qed.
Print Assumptions C119_cure.
(* A header that can be read back: so can the corrected one, and correcting it again changes nothing. *)
Theorem C119_text : forall ks hdr, Forall normal ks -> serialize_header ks = Ok hdr ->
  exists ks' h, cured ks ks' /\ cure_header hdr = Ok h /\ parse_header h = Ok ks' /\ length h = 80 * length ks' /\ cure_header h = Ok h.
Proof.
  intros ks hdr N E. destruct (C100_roundtrip ks N) as (h0 & E0 & _ & P0). rewrite E in E0. injection E0 as <-.
  destruct (C119_cure _ _ P0) as (ks' & C & Ec & _). destruct (C100_roundtrip ks' (normal_cured _ _ N C)) as (h & Eh & L & Ph).
  exists ks', h. split; [exact C|]. split; [congruence|]. split; [exact Ph|]. split; [exact L|].
  destruct (C119_cure _ _ Ph) as (ks2 & C2 & Ec2 & U). rewrite Ec2. rewrite <- (U ks' (cured_twice _ _ C)). exact Eh.
Qed.
Print Assumptions C119_text.
(* A header with nothing to correct is left as it is. *)
Theorem C119_unchanged : forall ks hdr, Forall normal ks -> serialize_header ks = Ok hdr ->
  (forall k, In k ks -> ~ is_unit_key (key k) /\ ~ is_lookup_key (key k) /\ ~ is_sip_key (key k)) -> cure_header hdr = Ok hdr.
Proof.
  intros ks hdr N E H. destruct (C100_roundtrip ks N) as (h0 & E0 & _ & P0). rewrite E in E0. injection E0 as <-.
  destruct (C119_cure _ _ P0) as (ks' & _ & Ec & U). rewrite Ec. rewrite <- (U ks); [exact E|]. exists ks. split.
  - clear - H. induction ks as [|k l IH]; constructor; [constructor; apply H; left; reflexivity|]. apply IH. intros x I. apply H. right. exact I.
  - apply kept_all. intros k I [S|[(k0 & I0 & L & _) _]]; [destruct (H k I) as (_ & _ & X); exact (X S)|destruct (H k0 I0) as (_ & X & _); exact (X L)].
Qed.
Print Assumptions C119_unchanged.
(* Keywords of other names are found in the corrected header with the same value and comment. *)
Theorem C119_others : forall ks ks' k, cured ks ks' -> In k ks -> ~ is_unit_key (key k) -> ~ is_sip_key (key k) -> ~ is_distortion_key (key k) -> In k ks'.
Proof.
  intros ks ks' k (l & F & K) I U S D. apply (kept_in _ _ _ K). split.
  - destruct (forall2_in_l _ _ _ F k I) as (y & Y & Fy). inversion Fy; subst; [contradiction|exact Y].
  - intros [X|[_ X]]; contradiction.
Qed.
Print Assumptions C119_others.

(* --- examples -------------------------------------------------------------------- *)
Definition kw (a b : string) : keyword := Keyword (lit a) (lit b) [] false.
Example ex_cure : cure_keys [kw "CUNIT3" "'micron  '"; kw "CUNIT" "'micron'"; kw "A_1_2" "5"; kw "CPDIS1" "'Lookup'"; kw "DP1" "1"; kw "D2IMEXT2" "1"; kw "CRVAL1" "3"] =
  Ok [kw "CUNIT3" "'um'"; kw "CUNIT" "'micron'"; kw "CRVAL1" "3"].
Proof. vm_compute. reflexivity. Qed.
Example ex_no_lookup : cure_keys [kw "CPDIS1" "'Polynomial'"; kw "DP1" "1"; kw "CUNIT1" "degrees"] = Ok [kw "CPDIS1" "'Polynomial'"; kw "DP1" "1"; kw "CUNIT1" "'deg'"].
Proof. vm_compute. reflexivity. Qed.

(* Finding: the SIP coefficients are left out, but not the other traces of the distortion: the type of the axes,
   which ends with -SIP, and A_DMAX. *)
Theorem C119_sip_refuted : cure_keys [kw "CTYPE1" "'RA---TAN-SIP'"; kw "A_ORDER" "2"; kw "A_2_0" "1"; kw "A_DMAX" "1"] =
  Ok [kw "CTYPE1" "'RA---TAN-SIP'"; kw "A_DMAX" "1"].
Proof. vm_compute. reflexivity. Qed.
Print Assumptions C119_sip_refuted.
(* Finding: the other cards are not copied but read and written again: a comment with an equal sign is
   changed though there is nothing to correct. *)
Theorem C119_comment_refuted : exists h, cure_header (card "COMMENT see x=1 below") = Ok h /\ h <> card "COMMENT see x=1 below" /\
  h = card "COMMENT see x=              1 below".
Proof. eexists. split; [vm_compute; reflexivity|]. split; [discriminate|vm_compute; reflexivity]. Qed.
Print Assumptions C119_comment_refuted.
(* Finding: a header that begins with a card CONTINUE, or in which a keyword without a value is continued,
   has undefined behaviour, as for parse_header. *)
Theorem C119_continue_UB : forall line rest, cards (line :: rest) -> starts_with continuation line -> cure_header (concat (line :: rest)) = UB.
Proof. intros line rest C S. unfold cure_header. rewrite (C100_first_continue_UB _ _ C S). reflexivity. Qed.
Print Assumptions C119_continue_UB.
