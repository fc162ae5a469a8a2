(* C115: the header of a FITS file. *)
From Coq Require Import Ascii String.
From Verif Require Import Base StrSpec KeySpec KeyProofs FfileModel FfileSpec FfileProofs2.
Local Open Scope list_scope.
Notation length := List.length.

(* The cards of a header are added to those of the HDU, in their order, without those that describe an HDU and
   without the end.  A last card which is not complete is completed, or left out in the same way. *)
Theorem C115_write : forall l tl out, cards l -> length tl < 80 ->
  exists r x, kept l r /\ ((left_out tl /\ x = []) \/ (~ left_out tl /\ x = [padded 80 tl])) /\
    write_header out (concat l ++ tl) = Ok (out ++ r ++ x).
Proof. exact write_header_ok. Qed.
Print Assumptions C115_write.
Example C115_write_ex : exists o, write_header [] (padded 80 (word "NAXIS1  = 5") ++ padded 80 (word "A       = 1") ++ word "B       = 2") = Ok o /\
  o = [padded 80 (word "A       = 1"); padded 80 (word "B       = 2")].
Proof. eexists. split; [reflexivity|reflexivity]. Qed.

Lemma lookup_kept l r k o : kept l r -> ~ describes k -> (forall c, In c l -> named c k -> ~ (exists s, c = word "END " ++ s)) ->
  lookup l k o -> lookup r k o.
Proof.
  intros K D NE. assert (S : forall c, In c l -> named c k -> ~ left_out c).
  { intros c I N [E|(k' & N' & D')]; [now apply (NE c)|]. now rewrite (named_fun c k k' N N') in D. }
  clear NE. destruct o as [t|]; cbn [lookup].
  - intros (p & c & q & (-> & N & F) & V). assert (J : exists rp rq, r = rp ++ c :: rq /\ kept p rp).
    { clear V. revert r K S F. induction p as [|x p IH]; intros r K S F; cbn [app] in K.
      - inversion K as [|c' l' r' N' K'|c' l' r' N' K']; subst; [exists [], r'; split; [reflexivity|constructor]|].
        destruct (S c); [left; reflexivity|exact N|exact N'].
      - inversion K as [|c' l' r' N' K'|c' l' r' N' K']; subst.
        + destruct (IH r' K') as (rp & rq & -> & Kp); [intros c' I; apply S; right; exact I|intros c' I; apply F; right; exact I|].
          exists (x :: rp), rq. split; [reflexivity|now apply kept_yes].
        + destruct (IH r K') as (rp & rq & -> & Kp); [intros c' I; apply S; right; exact I|intros c' I; apply F; right; exact I|].
          exists rp, rq. split; [reflexivity|now apply kept_no]. }
    destruct J as (rp & rq & -> & Kp). exists rp, c, rq. split; [|exact V]. split; [reflexivity|]. split; [exact N|].
    intros d I. apply F. now apply (kept_in p rp d Kp) in I.
  - intros H d I. apply H. now apply (kept_in l r d K) in I.
Qed.
Lemma lookup_after a b k o : (forall d, In d a -> ~ named d k) -> lookup b k o -> lookup (a ++ b) k o.
Proof.
  intros N. induction a as [|x a IH]; intros L; [exact L|]. apply (lookup_insert [] (a ++ b) k x o); [apply N; left; reflexivity|].
  apply IH; [|exact L]. intros d I. apply N. right. exact I.
Qed.
Lemma lookup_before a b k o : (forall d, In d b -> ~ named d k) -> lookup a k o -> lookup (a ++ b) k o.
Proof.
  intros N. induction b as [|x b IH]; intros L; [now rewrite app_nil_r|]. apply lookup_insert; [apply N; left; reflexivity|].
  apply IH; [|exact L]. intros d I. apply N. right. exact I.
Qed.
Lemma blank_unnamed k : ~ named blank k.
Proof. intros (a & b & E & _). assert (I : In "="%char blank) by (rewrite E; apply in_or_app; right; left; reflexivity). apply repeat_spec in I. discriminate. Qed.
(* The keywords of the header which are not in the HDU, and do not describe an HDU, are then in the HDU, with the
   values they have in the header. *)
Theorem C115_lookup : forall l out k o, cards l -> (forall d, In d out -> ~ named d k) -> ~ describes k ->
  (forall c, In c l -> named c k -> ~ (exists s, c = word "END " ++ s)) -> lookup l k o ->
  exists out', write_header out (concat l) = Ok out' /\ lookup out' k o.
Proof.
  intros l out k o C N D NE L. destruct (header_aligned l out C) as (r & R & W). eexists. split; [exact W|].
  apply lookup_after; [exact N|]. apply lookup_before; [intros d [<-|[]]; apply blank_unnamed|]. now apply (lookup_kept l).
Qed.
Print Assumptions C115_lookup.
Example C115_lookup_ex : exists o, write_header [padded 80 (word "A       = 1")] (padded 80 (word "GAIN    = 5") ++ padded 80 (word "END")) = Ok o /\
  KeyModel.get_text (concat o) (word "GAIN") = Ok (Some (word "5")).
Proof. eexists. split; reflexivity. Qed.

(* Finding: a keyword which is in the HDU already is not replaced.  There are then two cards for it, and the
   value found is the old one. *)
Theorem C115_replace_refuted : forall l out k t, cards l -> lookup out k (Some t) ->
  exists out', write_header out (concat l) = Ok out' /\ lookup out' k (Some t) /\
    (forall c, In c l -> ~ left_out c -> In c out') /\ forall c, In c out -> In c out'.
Proof.
  intros l out k t C (p & c & q & (-> & N & F) & V). destruct (header_aligned l (p ++ c :: q) C) as (r & R & W). eexists. split; [exact W|]. split; [|split].
  - exists p, c, (q ++ r ++ [blank]). split; [|exact V]. split; [now rewrite <- app_assoc|auto].
  - intros d I K. apply in_or_app. right. apply in_or_app. left. apply (kept_in l r d R). auto.
  - intros d I. apply in_or_app. now left.
Qed.
Print Assumptions C115_replace_refuted.
Example C115_replace_refuted_ex : exists o, write_header [padded 80 (word "GAIN    = 1")] (padded 80 (word "GAIN    = 5")) = Ok o /\
  KeyModel.get_text (concat o) (word "GAIN") = Ok (Some (word "1")).
Proof. eexists. split; reflexivity. Qed.

Fixpoint copies (n : nat) (out : list (list ascii)) : outcome (list (list ascii)) :=
  match n with O => Ok out | S n => o <- write_header [] (read_header out) ;; copies n o end.
Lemma end_left_out : left_out (record (lit "END")).
Proof. left. eexists. reflexivity. Qed.
Lemma copy_ok out : cards out -> (forall c, In c out -> ~ left_out c) -> write_header [] (read_header out) = Ok (out ++ [blank]).
Proof.
  intros C K. assert (E : read_header out = concat (out ++ [record (lit "END")])) by (unfold read_header; rewrite concat_app; cbn [concat]; now rewrite app_nil_r).
  rewrite E. destruct (header_aligned (out ++ [record (lit "END")]) []) as (r & R & W).
  - apply cards_app. split; [exact C|]. intros c [<-|[]]. reflexivity.
  - rewrite W. cbn [app]. do 2 f_equal. eapply kept_fun; [exact R|]. rewrite <- (app_nil_r out) at 2. apply kept_app; [now apply kept_all|].
    apply kept_no; [exact end_left_out|constructor].
Qed.
(* Finding: the header of an HDU, read then written in a new HDU, gets a blank card at its end; so copied n times, n
   blank cards. *)
Theorem C115_copy_refuted : forall n out, cards out -> (forall c, In c out -> ~ left_out c) -> copies n out = Ok (out ++ repeat blank n).
Proof.
  induction n as [|n IH]; intros out C K; cbn [copies repeat]; [now rewrite app_nil_r|]. rewrite copy_ok by assumption. cbn [obind].
  rewrite IH; [now rewrite <- app_assoc| |].
  - apply cards_app. split; [exact C|]. intros c [<-|[]]. apply repeat_length.
  - intros c I. apply in_app_or in I. destruct I as [I|[<-|[]]]; [now apply K|apply blank_kept].
Qed.
Print Assumptions C115_copy_refuted.
Example C115_copy_refuted_ex : copies 2 [padded 80 (word "GAIN    = 1")] = Ok [padded 80 (word "GAIN    = 1"); blank; blank].
Proof. reflexivity. Qed.

(* Apart from the blank card, a copied header has the cards which do not describe the HDU, in their order. *)
Theorem C115_copy : forall out, cards out -> exists r, kept out r /\ write_header [] (read_header out) = Ok (r ++ [blank]).
Proof.
  intros out C. assert (E : read_header out = concat (out ++ [record (lit "END")])) by (unfold read_header; rewrite concat_app; cbn [concat]; now rewrite app_nil_r).
  rewrite E. destruct (header_aligned (out ++ [record (lit "END")]) []) as (r & R & W).
  - apply cards_app. split; [exact C|]. intros c [<-|[]]. reflexivity.
  - exists r. split; [|exact W]. destruct (header_aligned out [] C) as (r' & R' & _).
    assert (X : kept (out ++ [record (lit "END")]) (r' ++ [])) by (apply kept_app; [exact R'|apply kept_no; [exact end_left_out|constructor]]).
    rewrite app_nil_r in X. now rewrite (kept_fun _ _ _ R X).
Qed.
Print Assumptions C115_copy.
Example C115_copy_ex : write_header [] (read_header [padded 80 (word "SIMPLE  = T"); padded 80 (word "NAXIS   = 0"); padded 80 (word "GAIN    = 1")]) = Ok [padded 80 (word "GAIN    = 1"); blank].
Proof. reflexivity. Qed.

(* Finding: the end of the header is recognised by the blank after it.  END as the last three characters of a
   header is written as one more card. *)
Theorem C115_end_refuted : forall l out, cards l -> exists r, kept l r /\
  write_header out (concat l ++ word "END") = Ok (out ++ r ++ [end_card]).
Proof.
  intros l out C. destruct (write_header_ok l (word "END") out C) as (r & x & R & [(K & _)|(_ & ->)] & W); [cbn; lia| |exists r; split; [exact R|exact W]].
  destruct K as [(s & E)|(k & (a & b & E & _) & _)]; [discriminate|]. assert (I : In "="%char (word "END")) by (rewrite E; apply in_or_app; right; left; reflexivity).
  cbn in I. destruct I as [I|[I|[I|[]]]]; discriminate.
Qed.
Print Assumptions C115_end_refuted.
Example C115_end_refuted_ex : write_header [] (word "END") = Ok [end_card].
Proof. reflexivity. Qed.
