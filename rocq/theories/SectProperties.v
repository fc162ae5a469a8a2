(* Sections of FITS images and bands of catalogs, chosen by name. *)
From Coq Require Import Ascii String Lia.
From Verif Require Import Base StrModel PathModel SectModel SectSpec SectProofs.
From Verif Require PathProofs StrProofs3 RegModel RegSpec RegProofs OrderModel OrderProofs.
Local Open Scope list_scope.
Local Open Scope nat_scope.
Definition txt (s : string) : list ascii := list_ascii_of_string s.

(* --- sections ----------------------------------------------------------------- *)
(* the files of the sections are named by the lines that are neither empty nor comments, in the same order,
   in the directory of the file that lists them; every content is a text of lines *)
Theorem C121_sections : forall open d b content ls r, ~ In "/"%char b -> ~ (forall x, In x b -> x = " "%char) ->
  open (d ++ "/"%char :: b) = Some content -> text_of ls content -> chosen ls r -> r <> [] ->
  read_sectfits open (d ++ "/"%char :: b) = Ok (map (fun l => d ++ "/"%char :: l) r).
Proof.
  intros open d b content ls r N S O T C R. unfold read_sectfits. rewrite O. destruct (PathProofs.plain_ok d b N S) as [_ D].
  change "/"%char with slash in *. rewrite D. cbn [obind]. rewrite (lines_ok ls content T). apply chosen_ok in C. rewrite C.
  destruct r as [|x r]; [contradiction|]. cbn [map]. rewrite <- app_assoc. f_equal. f_equal. apply map_ext. intros l. rewrite <- app_assoc. reflexivity.
Qed.
Print Assumptions C121_sections.
Theorem C121_every_text : forall s, exists ls r, text_of ls s /\ chosen ls r.
Proof. intros s. destruct (text_total s) as (ls & T). exists ls, (filter named ls). split; [exact T|]. now apply chosen_ok. Qed.
Print Assumptions C121_every_text.
Definition disk (f : list ascii) : option (list ascii) :=
  if list_eq_dec ascii_dec f (txt "d/m.sectfits") then Some (txt "a.fits" ++ [newline; "#"%char; newline; newline] ++ txt "b.fits") else None.
Example C121_sections_ex : read_sectfits disk (txt "d/m.sectfits") = Ok [txt "d/a.fits"; txt "d/b.fits"].
Proof. reflexivity. Qed.
(* for a name without a directory, the files are looked for in ./ *)
Theorem C121_sections_here : forall open b content ls r, ~ In "/"%char b -> open b = Some content -> text_of ls content -> chosen ls r -> r <> [] ->
  read_sectfits open b = Ok (map (fun l => "."%char :: "/"%char :: l) r).
Proof.
  intros open b content ls r N O T C R. unfold read_sectfits. rewrite O. destruct (PathProofs.no_slash_ok b N) as [_ D]. rewrite D. cbn [obind].
  rewrite (lines_ok ls content T). apply chosen_ok in C. rewrite C. destruct r as [|x r]; [contradiction|]. reflexivity.
Qed.
Print Assumptions C121_sections_here.
(* a file that is not there, or that names no section, is reported *)
Theorem C121_no_section : forall open f, (open f = None -> read_sectfits open f = Throws) /\
  (forall content ls dir, open f = Some content -> get_directory f = Ok dir -> text_of ls content -> chosen ls [] -> read_sectfits open f = Throws).
Proof.
  intros open f. split; [intros O; unfold read_sectfits; rewrite O; reflexivity|]. intros content ls dir O D T C. unfold read_sectfits. rewrite O, D. cbn [obind].
  rewrite (lines_ok ls content T). apply chosen_ok in C. rewrite C. reflexivity.
Qed.
Print Assumptions C121_no_section.
(* Finding: a section given by an absolute path is looked for below the directory of the list; a line that is blank or
   whose # comes after a blank is taken as the name of a file, and so is the carriage return of a line ended by CR LF. *)
Theorem C121_sections_refuted : exists open f, open f = Some (txt "/data/a.fits" ++ [newline; " "%char; "#"%char; newline; "013"%char; newline]) /\
  read_sectfits open f = Ok [txt "d//data/a.fits"; txt "d/ #"; txt "d/" ++ ["013"%char]].
Proof.
  exists (fun _ => Some (txt "/data/a.fits" ++ [newline; " "%char; "#"%char; newline; "013"%char; newline])), (txt "d/m.sectfits"). split; reflexivity.
Qed.
Print Assumptions C121_sections_refuted.
(* the header of a section is that of the file it names; past the last section the program stops *)
Theorem C121_header : forall H open (hd : list ascii -> outcome H) (hdu : list ascii -> nat -> outcome H) f sects sect n, (exists a, f = a ++ txt ".sectfits") -> read_sectfits open f = Ok sects ->
  (forall s, nth_error sects sect = Some s -> read_header_sectfits H open hd f sect = hd s /\ read_header_sectfits_hdu H open hdu f sect n = hdu s n) /\
  (List.length sects <= sect -> read_header_sectfits H open hd f sect = CheckFail /\ read_header_sectfits_hdu H open hdu f sect n = CheckFail).
Proof.
  intros H open hd hdu f sects sect n S R. unfold read_header_sectfits, read_header_sectfits_hdu. fold (txt ".sectfits").
  destruct (StrProofs3.ends_with_ok f (txt ".sectfits")) as (e & E & K). rewrite E. cbn [obind]. apply K in S. subst e. rewrite R. cbn [obind]. split.
  - intros s N. assert (L : sect < List.length sects) by (apply nth_error_Some; rewrite N; discriminate). rewrite (proj2 (Nat.ltb_lt _ _) L). cbn [check obind]. unfold oget. rewrite N. split; reflexivity.
  - intros L. rewrite (proj2 (Nat.ltb_ge _ _) L). split; reflexivity.
Qed.
Print Assumptions C121_header.
Example C121_header_ex : read_header_sectfits nat disk (fun f => Ok (List.length f)) (txt "d/m.sectfits") 1 = Ok 8 /\
  read_header_sectfits nat disk (fun f => Ok (List.length f)) (txt "d/m.sectfits") 2 = CheckFail.
Proof. split; reflexivity. Qed.
(* any other file is read itself; Finding: whatever the number of the section *)
Theorem C121_header_plain : forall H open (hd : list ascii -> outcome H) (hdu : list ascii -> nat -> outcome H) f sect n, (forall a, f <> a ++ txt ".sectfits") ->
  read_header_sectfits H open hd f sect = hd f /\ read_header_sectfits_hdu H open hdu f sect n = hdu f n.
Proof.
  intros H open hd hdu f sect n S. unfold read_header_sectfits, read_header_sectfits_hdu. fold (txt ".sectfits").
  destruct (StrProofs3.ends_with_ok f (txt ".sectfits")) as (e & E & K). rewrite E. cbn [obind].
  destruct e; [destruct (proj1 K eq_refl) as (a & A); exfalso; exact (S a A)|]. split; reflexivity.
Qed.
Print Assumptions C121_header_plain.
(* the error for a list that is not there is passed on *)
Theorem C121_header_missing : forall H open (hd : list ascii -> outcome H) (hdu : list ascii -> nat -> outcome H) a sect n, open (a ++ txt ".sectfits") = None ->
  read_header_sectfits H open hd (a ++ txt ".sectfits") sect = Throws /\ read_header_sectfits_hdu H open hdu (a ++ txt ".sectfits") sect n = Throws.
Proof.
  intros H open hd hdu a sect n O. unfold read_header_sectfits, read_header_sectfits_hdu. fold (txt ".sectfits").
  destruct (StrProofs3.ends_with_ok (a ++ txt ".sectfits") (txt ".sectfits")) as (e & E & K). rewrite E. cbn [obind]. rewrite (proj2 K) by eauto.
  unfold read_sectfits. rewrite O. split; reflexivity.
Qed.
Print Assumptions C121_header_missing.

(* --- bands --------------------------------------------------------------------- *)
Lemma only_ext (P Q : nat -> Prop) i : (forall j, P j <-> Q j) -> the_only P i -> the_only Q i.
Proof. intros E [A B]. split; [apply E; exact A|]. intros j J. apply B, E. exact J. Qed.
(* the band is found if exactly one name matches; otherwise the number of the band is left as it is *)
Theorem C121_band : forall bands p bid,
  (forall i, the_only (at_place (found_in p) bands) i -> get_band bands p bid = Ok (true, i)) /\
  ((forall i, ~ the_only (at_place (found_in p) bands) i) -> get_band bands p bid = Ok (false, bid)).
Proof.
  intros bands p bid. unfold get_band. destruct (choose_ok (RegModel.regex_match_vec bands p) (fun b => ignore (at_checked bands b)) bid) as [A B].
  { intros i K. apply vec_place in K. destruct K as (s & K & _). apply at_checked_ok. apply nth_error_Some. rewrite K. discriminate. }
  split.
  - intros i O. apply A. revert O. apply only_ext. intros j. symmetry. apply vec_place.
  - intros N. apply B. intros i O. apply (N i). revert O. apply only_ext. intros j. apply vec_place.
Qed.
Print Assumptions C121_band.
Definition word (s : string) : RegModel.pattern := RegModel.Pattern false (RegModel.Text s) false.
Example C121_band_ex : get_band [txt "f160w"; txt "f125w"] (word "f1") 7 = Ok (false, 7) /\ get_band [txt "f160w"; txt "f125w"] (word "f125") 7 = Ok (true, 1) /\
  get_band [txt "f160w"; txt "f125w"] (word "ks") 7 = Ok (false, 7).
Proof. repeat split; reflexivity. Qed.
(* Finding: a name is a pattern that can be anywhere in the names of the bands: a band cannot be chosen by its own name if
   this name is in another one. *)
Theorem C121_band_refuted : exists bands name, In (txt name) bands /\ NoDup bands /\ get_band bands (word name) 0 = Ok (false, 0).
Proof.
  exists [txt "i"; txt "irac1"], "i"%string. split; [left; reflexivity|]. split; [|reflexivity].
  constructor; [intros [E|[]]; discriminate E|]. constructor; [intros []|constructor].
Qed.
Print Assumptions C121_band_refuted.
(* with a note, exactly one band must match both *)
Theorem C121_band_note : forall bands notes p q bid, List.length bands = List.length notes ->
  let both i := at_place (found_in p) bands i /\ at_place (found_in q) notes i in
  (forall i, the_only both i -> get_band_note bands notes p q bid = Ok (true, i)) /\
  ((forall i, ~ the_only both i) -> get_band_note bands notes p q bid = Ok (false, bid)).
Proof.
  intros bands notes p q bid L both.
  set (m := map (fun '(x, y) => x && y) (combine (RegModel.regex_match_vec bands p) (RegModel.regex_match_vec notes q))).
  assert (G : get_band_note bands notes p q bid = choose (OrderModel.where_ m) (fun b => _ <- ignore (at_checked bands b) ;; ignore (at_checked notes b)) bid).
  { unfold get_band_note, and_vec. unfold RegModel.regex_match_vec at 1 2. rewrite !map_length, (proj2 (Nat.eqb_eq _ _) L). reflexivity. }
  rewrite G.
  assert (M : forall i, nth_error m i = Some true <-> both i).
  { intros i. unfold both. rewrite <- !vec_place. unfold m. rewrite nth_error_map.
    generalize (RegModel.regex_match_vec bands p) as x, (RegModel.regex_match_vec notes q) as y. intros x y. clear. revert x y.
    induction i as [|i IH]; intros [|b x] [|c y]; cbn; try (split; [discriminate|intros [? ?]; discriminate]).
    - destruct b, c; cbn; split; try discriminate; try (intros [? ?]; discriminate); auto.
    - apply IH. }
  destruct (choose_ok m (fun b => _ <- ignore (at_checked bands b) ;; ignore (at_checked notes b)) bid) as [A B].
  { intros i K. apply M in K. destruct K as [(s & K & _) _]. assert (I : i < List.length bands) by (apply nth_error_Some; rewrite K; discriminate).
    rewrite at_checked_ok by exact I. cbn [obind]. apply at_checked_ok. lia. }
  split.
  - intros i O. apply A. revert O. apply only_ext. intros j. symmetry. apply M.
  - intros N. apply B. intros i O. apply (N i). revert O. apply only_ext. exact M.
Qed.
Print Assumptions C121_band_note.
Example C121_band_note_ex : get_band_note [txt "f160w"; txt "f160w"] [txt "deep"; txt "wide"] (word "f160w") (word "wide") 7 = Ok (true, 1).
Proof. reflexivity. Qed.
Theorem C121_band_note_checked : forall bands notes p q bid, List.length bands <> List.length notes -> get_band_note bands notes p q bid = CheckFail.
Proof.
  intros bands notes p q bid L. unfold get_band_note, and_vec. unfold RegModel.regex_match_vec at 1 2. rewrite !map_length, (proj2 (Nat.eqb_neq _ _) L). reflexivity.
Qed.
Print Assumptions C121_band_note_checked.
(* the band of a catalog, with or without notes *)
Theorem C121_band_cat : forall bands notes p bid, (forall n, notes = Some n -> List.length n = List.length bands) -> get_band_cat bands notes p bid = get_band bands p bid.
Proof.
  intros bands notes p bid L. unfold get_band_cat. set (n := match notes with Some n => n | None => _ end).
  assert (Ln : List.length n = List.length bands). { unfold n. destruct notes as [x|]; [apply L; reflexivity|apply repeat_length]. }
  unfold get_band, choose. destruct (OrderModel.where_ _) as [|a [|b l]] eqn:E; [reflexivity|reflexivity|]. rewrite <- E.
  assert (I : forall i, In i (OrderModel.where_ (RegModel.regex_match_vec bands p)) -> i < List.length bands).
  { intros i J. apply OrderProofs.where_in in J. apply vec_place in J. destruct J as (s & J & _). apply nth_error_Some. rewrite J. discriminate. }
  assert (X : forall l', (forall i, In i l' -> i < List.length bands) ->
    omapl (fun b0 => _ <- ignore (at_checked bands b0) ;; ignore (at_checked n b0)) l' = omapl (fun b0 => ignore (at_checked bands b0)) l').
  { induction l' as [|x l' IH]; intros Hs; [reflexivity|]. cbn [omapl]. pose proof (Hs x (or_introl eq_refl)). rewrite !at_checked_ok by lia. cbn [obind].
    rewrite IH by (intros y Y; apply Hs; right; exact Y). reflexivity. }
  rewrite X by exact I. reflexivity.
Qed.
Print Assumptions C121_band_cat.
(* Finding: if the notes of a catalog are fewer than its bands and several bands match, the program stops while it prints the candidates. *)
Theorem C121_band_cat_abort : exists bands notes p bid, get_band_cat bands (Some notes) p bid = CheckFail /\ get_band bands p bid = Ok (false, bid).
Proof. exists [txt "f1"; txt "f2"], [txt "a"], (word "f"), 3. split; reflexivity. Qed.
Print Assumptions C121_band_cat_abort.
