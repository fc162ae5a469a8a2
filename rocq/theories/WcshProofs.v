From Coq Require Import Ascii String Lia.
From Verif Require Import Base StrModel StrSpec StrProofs KeyModel KeySpec KeyProofs KeyProperties HdrProofs WcshModel WcshSpec.
Local Open Scope list_scope.
Notation length := List.length.

Lemma bare_stripped t : bare t -> stripped t t.
Proof. intros B. exists [], []. rewrite app_nil_r. repeat split; try (intros c []); apply B. Qed.
Lemma entry_len key v : length key <= 8 -> length v <= 67 -> length (entry key v (given [])) <= 80.
Proof. intros K L. unfold entry. cbn [given]. rewrite !app_length, repeat_length. cbn [length]. lia. Qed.
Definition good_key (key : list ascii) : Prop := length key <= 8 /\ bare key /\ ~ In "="%char key.

Lemma set_step hdr key v : header hdr -> good_key key -> plain v -> exists hdr', setkey hdr key v [] = Ok (true, hdr') /\ header hdr' /\
  get_text hdr' key = Ok (Some v) /\ forall other, other <> key -> get_text hdr' other = get_text hdr other.
Proof.
  intros (body & C & ->) (K1 & K2 & K3) (P1 & P2 & P3). assert (Cl : closing body [end_card]) by (left; reflexivity).
  assert (E := entry_len key v K1 P3).
  destruct (C99_set_get body [end_card] key v [] v C Cl K1 K2 K3 P2 (bare_stripped v P1) E (fun _ => P3)) as (hdr' & H1 & H2).
  exists hdr'. split; [exact H1|]. split; [|split; [exact H2|]].
  - destruct (C99_setkey body [end_card] key v [] C Cl K1 E) as (new & L & [(_ & _ & W)|(p & old & q & (F & _) & W & _)]); rewrite H1 in W; injection W as ->.
    + exists (body ++ [padded 80 new]). rewrite <- app_assoc. split; [|reflexivity]. intros c I. apply in_app_or in I.
      destruct I as [I|[<-|[]]]; [now apply C|]. unfold padded. rewrite app_length, repeat_length. lia.
    + exists (p ++ [padded 80 new] ++ q). rewrite <- !app_assoc. split; [|reflexivity]. intros c I. subst body.
      apply in_app_or in I. destruct I as [I|[<-|I]]; [apply C; apply in_or_app; auto| |apply C; apply in_or_app; right; now right].
      unfold padded. rewrite app_length, repeat_length. lia.
  - intros other O. destruct (C99_set_other body [end_card] key v [] other C Cl K1 K2 K3 E (fun _ => P3) O) as (h2 & H3 & H4 & _). congruence.
Qed.

(* a list of keywords *)
Fixpoint assoc (key : list ascii) (l : list (string * list ascii)) : option (list ascii) :=
  match l with [] => None | (k, v) :: l => if list_eq_dec ascii_dec key (lit k) then Some v else assoc key l end.
Lemma assoc_none key l : ~ In key (map (fun e => lit (fst e)) l) -> assoc key l = None.
Proof.
  induction l as [|(k, v) l IH]; intros N; [reflexivity|]. cbn [assoc]. destruct (list_eq_dec ascii_dec key (lit k)) as [->|]; [destruct N; left; reflexivity|].
  apply IH. intros I. apply N. now right.
Qed.
Lemma set_all_ok l : forall hdr, header hdr -> Forall (fun e => good_key (lit (fst e)) /\ plain (snd e)) l -> NoDup (map (fun e => lit (fst e)) l) ->
  exists hdr', set_all hdr l = Ok (true, hdr') /\ header hdr' /\
    forall key, get_text hdr' key = match assoc key l with Some v => Ok (Some v) | None => get_text hdr key end.
Proof.
  induction l as [|(k, v) l IH]; intros hdr H F N; [exists hdr; repeat split; auto|].
  inversion F as [|? ? (K & P) F']; subst. inversion N as [|? ? N1 N2]; subst. cbn [fst snd map] in *.
  destruct (set_step hdr (lit k) v H K P) as (h1 & E1 & H1 & G1 & O1). cbn [set_all]. rewrite E1. cbn [obind].
  destruct (IH h1 H1 F' N2) as (h2 & E2 & H2 & G2). exists h2. split; [exact E2|]. split; [exact H2|]. intros key. rewrite G2. cbn [assoc].
  destruct (list_eq_dec ascii_dec key (lit k)) as [->|D]; [rewrite assoc_none by exact N1; exact G1|]. destruct (assoc key l); [reflexivity|now apply O1].
Qed.
Lemma good_literal (s : string) : forallb (fun c => negb (Ascii.eqb c "="%char) && negb (existsb (Ascii.eqb c) white)) (lit s) = true -> (length (lit s) <= 8) -> good_key (lit s).
Proof.
  intros H L. rewrite forallb_forall in H. split; [exact L|].
  assert (W : forall c, In c (lit s) -> ~ In c white).
  { intros c I J. specialize (H c I). apply andb_prop in H. destruct H as (_ & H). apply Bool.negb_true_iff in H.
    assert (X : existsb (Ascii.eqb c) white = true) by (apply existsb_exists; exists c; split; [exact J|apply Ascii.eqb_refl]). congruence. }
  split; [split|].
  - intros c u E. apply W. rewrite E. left. reflexivity.
  - intros u c E. apply W. rewrite E. apply in_or_app. right. left. reflexivity.
  - intros I. specialize (H _ I). discriminate.
Qed.

Section Wcs.
Variable V : Type.
Variable finite : V -> bool.
Variables neg_scale pos_scale : V -> V.
Variable epoch nan : V.
Variable show : V -> list ascii.
Variable showu : N -> list ascii.
Variable parse : list ascii -> option V.
Variable parseu : list ascii -> option N.
Hypothesis show_plain : forall x, plain (show x).
Hypothesis showu_plain : forall n, plain (showu n).

Definition group (b : bool) (l : list (string * list ascii)) := if b then l else [].
Definition all_entries (p : params V) : list (string * list ascii) :=
  group (finite (scale p)) [("CDELT1"%string, show (neg_scale (scale p))); ("CDELT2"%string, show (pos_scale (scale p)));
                   ("CTYPE1"%string, lit "'RA---TAN'"); ("CTYPE2"%string, lit "'DEC--TAN'"); ("EQUINOX"%string, show epoch)] ++
  group (finite (px p) && finite (py p)) [("CRPIX1"%string, show (px p)); ("CRPIX2"%string, show (py p))] ++
  group (finite (ra p) && finite (dec p)) [("CRVAL1"%string, show (ra p)); ("CRVAL2"%string, show (dec p))] ++
  group (negb (N.eqb (dx p) npos) && negb (N.eqb (dy p) npos)) [("NAXES"%string, showu 2); ("NAXIS1"%string, showu (dx p)); ("NAXIS2"%string, showu (dy p));
                 ("META_0"%string, showu 2); ("META_1"%string, showu (dx p)); ("META_2"%string, showu (dy p))].
Lemma set_all_app a : forall b hdr, set_all hdr (a ++ b) = (' (ok, h) <- set_all hdr a ;; if negb ok then Ok (false, h) else set_all h b).
Proof.
  induction a as [|(k, v) a IH]; intros b hdr; cbn [app set_all]; [reflexivity|].
  destruct (setkey hdr (lit k) v []) as [(ok & h)| | | |]; cbn [obind]; try reflexivity. destruct ok; [apply IH|reflexivity].
Qed.
Lemma set_group (b : bool) l hdr : (if b then set_all hdr l else Ok (true, hdr)) = set_all hdr (group b l).
Proof. destruct b; reflexivity. Qed.
Lemma stepwise a b hdr (f : list ascii -> outcome (bool * list ascii)) : (forall h, f h = set_all h b) -> (' (ok, h) <- set_all hdr a ;; if negb ok then Ok (false, h) else f h) = set_all hdr (a ++ b).
Proof. intros H. rewrite set_all_app. destruct (set_all hdr a) as [(ok & h)| | | |]; cbn [obind]; try reflexivity. now rewrite H. Qed.
Lemma make_eq p hdr : make_header V finite neg_scale pos_scale epoch show showu p hdr =
  set_all (match hdr with [] => lit "END" ++ repeat " "%char 77 | _ => hdr end) (all_entries p).
Proof.
  unfold make_header, all_entries. cbv zeta. rewrite set_group. apply stepwise. intros h1. rewrite set_group. apply stepwise. intros h2.
  rewrite set_group. apply stepwise. intros h3. apply set_group.
Qed.
Lemma keys_nodup p : NoDup (map (fun e => lit (fst e)) (all_entries p)).
Proof.
  unfold all_entries, group. destruct (finite (scale p)), (finite (px p) && finite (py p)), (finite (ra p) && finite (dec p)),
    (negb (N.eqb (dx p) npos) && negb (N.eqb (dy p) npos));
  cbn [app map fst]; repeat (constructor; [intros I; repeat (destruct I as [I|I]; [discriminate I|]); destruct I|]); constructor.
Qed.
Lemma group_forall (P : string * list ascii -> Prop) b l : Forall P l -> Forall P (group b l).
Proof. destruct b; [auto|constructor]. Qed.
Lemma plain_literal s : forallb (fun c => negb (Ascii.eqb c "/"%char) && negb (existsb (Ascii.eqb c) white)) (lit s) = true -> length (lit s) <= 67 -> plain (lit s).
Proof.
  intros H L. rewrite forallb_forall in H.
  assert (W : forall c, In c (lit s) -> ~ In c white).
  { intros c I J. specialize (H c I). apply andb_prop in H. destruct H as (_ & H). apply Bool.negb_true_iff in H.
    assert (X : existsb (Ascii.eqb c) white = true) by (apply existsb_exists; exists c; split; [exact J|apply Ascii.eqb_refl]). congruence. }
  split; [split|split; [|exact L]].
  - intros c u E. apply W. rewrite E. left. reflexivity.
  - intros u c E. apply W. rewrite E. apply in_or_app. right. left. reflexivity.
  - intros I. specialize (H _ I). discriminate.
Qed.
Lemma entries_good p : Forall (fun e => good_key (lit (fst e)) /\ plain (snd e)) (all_entries p).
Proof.
  unfold all_entries. rewrite !Forall_app. repeat split; apply group_forall;
  repeat (constructor; [split; [apply good_literal; [reflexivity|cbn; lia]|cbn [snd]; first [apply show_plain|apply showu_plain|apply plain_literal; [reflexivity|cbn; lia]]]|]); constructor.
Qed.
Lemma assoc_app key a b : assoc key (a ++ b) = match assoc key a with Some v => Some v | None => assoc key b end.
Proof. induction a as [|(k, v) a IH]; [reflexivity|]. cbn [app assoc]. destruct (list_eq_dec ascii_dec key (lit k)); [reflexivity|exact IH]. Qed.
Lemma assoc_expected p key : assoc key (all_entries p) = expected V finite neg_scale pos_scale epoch show showu p key.
Proof.
  unfold all_entries, expected. change (2 ^ 64 - 1)%N with npos. rewrite !assoc_app. unfold group.
  destruct (finite (scale p)), (finite (px p) && finite (py p)), (finite (ra p) && finite (dec p)), (negb (N.eqb (dx p) npos) && negb (N.eqb (dy p) npos));
  cbn [assoc andb]; unfold lit;
  repeat match goal with |- context [list_eq_dec ascii_dec key ?s] => destruct (list_eq_dec ascii_dec key s) as [->|]; [reflexivity|]; cbn [orb] end; reflexivity.
Qed.
Lemma header_end : header end_card.
Proof. exists []. split; [intros c []|]. cbn [app concat]. now rewrite app_nil_r. Qed.
Lemma make_ok p hdr : hdr = [] \/ header hdr -> exists hdr', make_header V finite neg_scale pos_scale epoch show showu p hdr = Ok (true, hdr') /\ header hdr' /\
  forall key, get_text hdr' key = match expected V finite neg_scale pos_scale epoch show showu p key with Some v => Ok (Some v) | None => get_text hdr key end.
Proof.
  intros H. rewrite make_eq.
  assert (K : exists h0, match hdr with [] => lit "END" ++ repeat " "%char 77 | _ => hdr end = h0 /\ header h0 /\ forall key, get_text h0 key = get_text hdr key).
  { destruct H as [->|H].
    - exists end_card. split; [reflexivity|]. split; [exact header_end|]. intros key. 
      assert (X : forall l, cards l -> (forall d, In d l -> ~ named d key) -> get_text (concat l) key = Ok None).
      { intros l C N. destruct (get_text_ok l key C) as (o & -> & L). destruct o as [t|]; [|reflexivity]. destruct L as (u & c & q & (E & Nm & _) & _). destruct (N c); [|exact Nm]. rewrite E. apply in_or_app. right. left. reflexivity. }
      transitivity (@Ok (option (list ascii)) None).
      + rewrite <- (app_nil_r end_card). change (end_card ++ []) with (concat [end_card]). apply X; [intros c [<-|[]]; reflexivity|].
        intros d [<-|[]] (a & b & E & _). assert (Q : existsb (Ascii.eqb "="%char) end_card = false) by reflexivity.
        rewrite E, existsb_app in Q. cbn in Q. rewrite Bool.orb_true_r in Q. discriminate.
      + symmetry. apply (X []); [intros c []|intros d []].
    - exists hdr. split; [|auto]. destruct hdr; [|reflexivity]. destruct H as (body & C & E). apply (f_equal (@List.length ascii)) in E. rewrite concat_app, app_length in E. cbn in E. lia. }
  destruct K as (h0 & -> & H0 & G0). destruct (set_all_ok (all_entries p) h0 H0 (entries_good p) (keys_nodup p)) as (h' & E & H' & G).
  exists h'. split; [exact E|]. split; [exact H'|]. intros key. rewrite G, assoc_expected. destruct (expected _ _ _ _ _ _ _ p key); [reflexivity|apply G0].
Qed.
End Wcs.
