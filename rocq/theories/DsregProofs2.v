(* Lemmas on writing DS9 region files. *)
From Coq Require Import Ascii String QArith.
From Verif Require Import Base VecProofs StrModel StrSpec StrProofs StrProofs2 StrProofs3 StrProperties DsregModel DsregSpec DsregProofs.
Local Open Scope nat_scope.
Local Open Scope list_scope.

Lemma free_app ch a b : free_of ch a -> free_of ch b -> free_of ch (a ++ b).
Proof. intros A B c I. apply in_app_or in I. destruct I; auto. Qed.
Lemma trimmed_same s : s <> [] -> free_of blank s -> trimmed s s.
Proof. intros N F. exists [], []. cbn [app]. rewrite app_nil_r. split; [reflexivity|]. split; [intros ? []|]. split; [intros ? []|]. apply free_core; assumption. Qed.
Lemma trimmed_space s : s <> [] -> free_of blank s -> trimmed (" "%char :: s) s.
Proof.
  intros N F. exists [" "%char], []. rewrite app_nil_r. split; [reflexivity|]. split; [intros c [<-|[]]; now left|]. split; [intros ? []|]. apply free_core; assumption.
Qed.
Lemma joined_3 (a b c : str) : joined [a; b; c] [","%char] = a ++ ","%char :: b ++ ","%char :: c.
Proof. reflexivity. Qed.
Lemma joined_5 (a b c d e : str) : joined [a; b; c; d; e] [","%char] = a ++ ","%char :: b ++ ","%char :: c ++ ","%char :: d ++ ","%char :: e.
Proof. reflexivity. Qed.

Section Round.
Variable parse : str -> option Q.
Variable show : Q -> str.
Variable sex : str -> str -> outcome (option (Q * Q)).
Notation printable := (printable parse show).

Lemma show_in q c : printable q -> In c (show q) -> ~ In c ([","; "("; ")"; ":"; "034"; "#"]%char ++ blank).
Proof. intros (_ & _ & F) I. apply F. exact I. Qed.
Lemma show_blank q : printable q -> show q <> [] /\ free_of blank (show q).
Proof. intros (_ & N & F). split; [exact N|]. intros c I J. apply (F c I). apply in_or_app. right. exact J. Qed.
Lemma show_not q c : printable q -> In c [","; "("; ")"; ":"; "034"; "#"]%char -> ~ In c (show q).
Proof. intros (_ & _ & F) I J. apply (F c J). apply in_or_app. left. exact I. Qed.

(* what may follow a size *)
Definition unit_ok (ss : str) := ss = [] \/ ss = quote.
Lemma sized q ss : printable q -> unit_ok ss -> show q ++ ss <> [] /\ free_of blank (show q ++ ss) /\ ~ In ","%char (show q ++ ss) /\ ~ In ")"%char (show q ++ ss).
Proof.
  intros P [-> | ->].
  - rewrite app_nil_r. destruct (show_blank q P). split; [assumption|]. split; [assumption|]. split; apply show_not; cbn; tauto.
  - split; [intros K; apply app_eq_nil in K; destruct K; discriminate|]. split; [apply free_app; [apply show_blank, P|]|].
    + intros c [<-|[]] K. cbn in K. intuition discriminate.
    + split; intros K; apply in_app_or in K; (destruct K as [K|[K|[]]]; [|discriminate]); revert K; apply show_not; cbn; auto.
Qed.

Lemma circle_line r ss a b c : rtype r = txt "circle" -> rpar r = [a; b; c] -> printable a -> printable b -> printable c -> unit_ok ss ->
  exists line, write_region show ss r = Ok line /\ region_line line (txt "circle") [show a; show b; show c ++ ss] [].
Proof.
  intros Et Ep Pa Pb Pc U. unfold write_region, param. rewrite Et, Ep. change (str_eqb (txt "circle") (chars "circle")) with true. cbn [List.length Nat.ltb Nat.leb check obind oget nth_error].
  eexists. split; [reflexivity|]. destruct (show_blank a Pa) as (Na & Fa). destruct (show_blank b Pb) as (Nb & Fb). destruct (sized c ss Pc U) as (Nc & Fc & C1 & C2).
  exists (txt "circle"), [show a; " "%char :: show b; " "%char :: show c ++ ss]. rewrite joined_3. split; [unfold comma; do 6 (cbn [app]; rewrite <- ?app_assoc); reflexivity|].
  split; [apply trimmed_same; [discriminate|intros x I K; cbn in I, K; intuition congruence]|].
  split; [constructor; [apply trimmed_same; assumption|]; constructor; [apply trimmed_space; assumption|]; constructor; [apply trimmed_space; assumption|constructor]|].
  split; [discriminate|]. split; [cbn; intuition discriminate|]. split.
  - intros x [<-|[<-|[<-|[]]]].
    + split; apply show_not; cbn; auto.
    + split; (intros [K|K]; [discriminate|]); revert K; apply show_not; cbn; auto.
    + split; (intros [K|K]; [discriminate|]); auto.
  - split; [exists "c"%char, (txt "ircle"); split; [left; reflexivity|discriminate]|]. intros (t & E). discriminate.
Qed.
Lemma box_line r ss a b c d e : rtype r = txt "box" -> rpar r = [a; b; c; d; e] -> printable a -> printable b -> printable c -> printable d -> printable e -> unit_ok ss ->
  exists line, write_region show ss r = Ok line /\ region_line line (txt "box") [show a; show b; show c ++ ss; show d ++ ss; show e] [].
Proof.
  intros Et Ep Pa Pb Pc Pd Pe U. unfold write_region, param. rewrite Et, Ep. change (str_eqb (txt "box") (chars "circle")) with false. change (str_eqb (txt "box") (chars "box")) with true.
  cbn [List.length Nat.ltb Nat.leb check obind oget nth_error].
  eexists. split; [reflexivity|]. destruct (show_blank a Pa) as (Na & Fa). destruct (show_blank b Pb) as (Nb & Fb). destruct (sized c ss Pc U) as (Nc & Fc & C1 & C2).
  destruct (sized d ss Pd U) as (Nd & Fd & D1 & D2). destruct (show_blank e Pe) as (Ne & Fe).
  exists (txt "box"), [show a; " "%char :: show b; " "%char :: show c ++ ss; " "%char :: show d ++ ss; " "%char :: show e]. rewrite joined_5.
  split; [unfold comma; do 8 (cbn [app]; rewrite <- ?app_assoc); reflexivity|].
  split; [apply trimmed_same; [discriminate|intros x I K; cbn in I, K; intuition congruence]|].
  split; [constructor; [apply trimmed_same; assumption|]; do 4 (constructor; [apply trimmed_space; assumption|]); constructor|].
  split; [discriminate|]. split; [cbn; intuition discriminate|]. split.
  - intros x [<-|[<-|[<-|[<-|[<-|[]]]]]].
    + split; apply show_not; cbn; auto.
    + split; (intros [K|K]; [discriminate|]); revert K; apply show_not; cbn; auto.
    + split; (intros [K|K]; [discriminate|]); auto.
    + split; (intros [K|K]; [discriminate|]); auto.
    + split; (intros [K|K]; [discriminate|]); revert K; apply show_not; cbn; auto.
  - split; [exists "b"%char, (txt "ox"); split; [left; reflexivity|discriminate]|]. intros (t & E). discriminate.
Qed.
(* a region that can be written *)
Definition regular (r : region) : Prop := Forall printable (rpar r) /\
  ((rtype r = txt "circle" /\ List.length (rpar r) = 3) \/ (rtype r = txt "box" /\ List.length (rpar r) = 5)).
Lemma none_left : options [] None None.
Proof. apply options_no. intros []. Qed.
Lemma size_unit q : printable q -> size_is parse false (show q ++ quote) q.
Proof. intros (E & _). exists (show q). split; [reflexivity|exact E]. Qed.
Lemma size_pixel q : printable q -> size_is parse true (show q ++ []) q.
Proof. intros (E & _). rewrite app_nil_r. exact E. Qed.
Lemma no_size q : printable q -> read_dim parse false (show q ++ []) = Ok None.
Proof.
  intros P. rewrite app_nil_r. destruct (dim_inv parse sex false (show q)) as [(v & (t & E & _) & _)|(_ & E)]; [|exact E].
  exfalso. apply (show_not q "034"%char P); [cbn; tauto|]. rewrite E. apply in_or_app. right. left. reflexivity.
Qed.

Ltac five L := let F := fresh "F" in destruct L as (F & [(Et & El)|(Et & El)]);
  [destruct (rpar _) as [|a [|b [|c [|? ?]]]] eqn:Ep; try discriminate|destruct (rpar _) as [|a [|b [|c [|d [|e [|? ?]]]]]] eqn:Ep; try discriminate];
  repeat match goal with H : Forall _ (_ :: _) |- _ => inversion H; clear H; subst end.

Lemma unit_line r : regular r -> exists line, write_region show quote r = Ok line /\
  forall g regs, read_line parse sex (g, false, regs) line = Ok (g, false, regs ++ [Region (rtype r) g [] false (rpar r)]).
Proof.
  intros L. five L.
  - destruct (circle_line r quote a b c) as (line & E & R); auto; [right; reflexivity|]. exists line. split; [exact E|]. intros g regs.
    rewrite (line_ok parse sex g false regs line _ _ [] None None R none_left).
    rewrite (parsed_ok parse sex false _ _ [a; b; c]); [rewrite Et; reflexivity|]. constructor; [|apply size_unit; assumption].
    constructor; [apply show_not; [assumption|cbn; tauto]|apply H1|apply H3].
  - destruct (box_line r quote a b c d e) as (line & E & R); auto; [right; reflexivity|]. exists line. split; [exact E|]. intros g regs.
    rewrite (line_ok parse sex g false regs line _ _ [] None None R none_left).
    rewrite (parsed_ok parse sex false _ _ [a; b; c; d; e]); [rewrite Et; reflexivity|]. constructor; [|apply size_unit; assumption|apply size_unit; assumption|apply H5].
    constructor; [apply show_not; [assumption|cbn; tauto]|apply H1|apply H3].
Qed.
Definition moved (p : list Q) : list Q := match p with x :: y :: t => (x - 1)%Q :: (y - 1)%Q :: t | _ => p end.
Lemma pixel_line r : regular r -> exists line, write_region show [] r = Ok line /\
  (forall g regs, read_line parse sex (g, true, regs) line = Ok (g, true, regs ++ [Region (rtype r) g [] true (moved (rpar r))])) /\
  (forall g regs, read_line parse sex (g, false, regs) line = Ok (g, false, regs)).
Proof.
  intros L. five L.
  - destruct (circle_line r [] a b c) as (line & E & R); auto; [left; reflexivity|]. exists line. split; [exact E|]. split; intros g regs.
    + rewrite (line_ok parse sex g true regs line _ _ [] None None R none_left).
      rewrite (parsed_ok parse sex true _ _ (moved [a; b; c])); [rewrite Et; reflexivity|]. constructor; [|apply size_pixel; assumption].
      constructor; [apply show_not; [assumption|cbn; tauto]|apply H1|apply H3].
    + rewrite (line_ok parse sex g false regs line _ _ [] None None R none_left). unfold parsed.
      rewrite (centre_ok parse sex false (show a) (show b) a b). 2: { constructor; [apply show_not; [assumption|cbn; tauto]|apply H1|apply H3]. }
      cbn [obind]. unfold read_params. change (str_eqb (txt "circle") (chars "circle")) with true. rewrite no_size by assumption. reflexivity.
  - destruct (box_line r [] a b c d e) as (line & E & R); auto; [left; reflexivity|]. exists line. split; [exact E|]. split; intros g regs.
    + rewrite (line_ok parse sex g true regs line _ _ [] None None R none_left).
      rewrite (parsed_ok parse sex true _ _ (moved [a; b; c; d; e])); [rewrite Et; reflexivity|]. constructor; [|apply size_pixel; assumption|apply size_pixel; assumption|apply H5].
      constructor; [apply show_not; [assumption|cbn; tauto]|apply H1|apply H3].
    + rewrite (line_ok parse sex g false regs line _ _ [] None None R none_left). unfold parsed.
      rewrite (centre_ok parse sex false (show a) (show b) a b). 2: { constructor; [apply show_not; [assumption|cbn; tauto]|apply H1|apply H3]. }
      cbn [obind]. unfold read_params. change (str_eqb (txt "box") (chars "circle")) with false. change (str_eqb (txt "box") (chars "box")) with true. rewrite no_size by assumption. reflexivity.
Qed.
Lemma all_lines (w : region -> outcome str) (f : region -> list region) g ph rs : (forall r, In r rs -> exists line, w r = Ok line /\
    forall regs, read_line parse sex (g, ph, regs) line = Ok (g, ph, regs ++ f r)) ->
  exists lines, omapl w rs = Ok lines /\ forall regs, ofold (read_line parse sex) lines (g, ph, regs) = Ok (g, ph, regs ++ flat_map f rs).
Proof.
  induction rs as [|r rs IH]; intros H.
  - exists []. split; [reflexivity|]. intros regs. cbn. rewrite app_nil_r. reflexivity.
  - destruct (H r (or_introl eq_refl)) as (line & E & R). destruct IH as (lines & El & Rl); [intros; apply H; right; assumption|].
    exists (line :: lines). cbn [omapl]. rewrite E. cbn [obind]. rewrite El. cbn [obind]. split; [reflexivity|]. intros regs. cbn [ofold flat_map].
    rewrite R. cbn [obind]. rewrite Rl, <- app_assoc. reflexivity.
Qed.
Lemma flat_single {A B} (f : A -> B) l : flat_map (fun r => [f r]) l = map f l.
Proof. induction l; cbn; congruence. Qed.
Lemma flat_nothing {A B} (l : list A) : flat_map (fun _ => @nil B) l = [].
Proof. induction l; auto. Qed.
End Round.

Lemma header_fk5 parse sex regs : ofold (read_line parse sex) (header ++ [chars "fk5"]) (chars "green", false, regs) = Ok (chars "green", false, regs).
Proof. vm_compute. reflexivity. Qed.
Lemma header_wcs parse sex regs : ofold (read_line parse sex) (header ++ [chars "wcs;"]) (chars "green", false, regs) = Ok (chars "green", false, regs).
Proof. vm_compute. reflexivity. Qed.
Lemma header_physical parse sex regs : ofold (read_line parse sex) (header ++ [chars "physical"]) (chars "green", false, regs) = Ok (chars "green", true, regs).
Proof. vm_compute. reflexivity. Qed.
