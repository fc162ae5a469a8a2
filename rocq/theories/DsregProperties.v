(* C91: DS9 region files. *)
From Coq Require Import Ascii String QArith.
From Verif Require Import Base StrModel StrSpec StrProofs StrProofs3 NumModel RealModel DsregModel DsregSpec DsregProofs DsregProofs2.
Local Open Scope nat_scope.
Local Open Scope list_scope.

(* A line with a well formed circle or box adds this region, with its own colour or the one of the
   last "global" line, and its text. *)
Theorem C91_region parse sex g ph regs line type args tail p c t :
  region_line line type args tail -> shape parse sex ph type args p -> options tail c t ->
  read_line parse sex (g, ph, regs) line = Ok (g, ph, regs ++
    [Region type (match c with Some c => c | None => g end) (match t with Some t => t | None => [] end) ph p]).
Proof.
  intros R Hs O. rewrite (line_ok parse sex g ph regs line type args tail c t R O), (parsed_ok parse sex ph type args p Hs). reflexivity.
Qed.
Print Assumptions C91_region.
(* A line with another shape, or with arguments that are no numbers or too few or too many, is skipped. *)
Theorem C91_unreadable parse sex g ph regs line type args tail c t :
  region_line line type args tail -> options tail c t -> (ph = false -> forall a b, exists o, sex a b = Ok o) ->
  (forall p, ~ shape parse sex ph type args p) ->
  read_line parse sex (g, ph, regs) line = Ok (g, ph, regs).
Proof.
  intros R O Hs N. rewrite (line_ok parse sex g ph regs line type args tail c t R O), (parsed_none parse sex ph type args Hs N). reflexivity.
Qed.
Print Assumptions C91_unreadable.
(* Blank lines and comments are skipped. *)
Theorem C91_comment parse sex s line m : trimmed line m -> (m = [] \/ exists t, m = "#"%char :: t) ->
  read_line parse sex s line = Ok s.
Proof.
  intros T H. unfold read_line. destruct s as ((g & ph) & regs). rewrite (trim_unique _ _ T). cbn [obind].
  destruct H as [->|(t & ->)]; reflexivity.
Qed.
Print Assumptions C91_comment.
(* A "global" line sets the default colour of the regions that follow. *)
Theorem C91_global parse sex g ph regs line t c : line = txt "global" ++ t -> given (txt "color=") line c ->
  read_line parse sex (g, ph, regs) line = Ok (match c with Some c => c | None => g end, ph, regs).
Proof.
  intros E G. unfold read_line. destruct (trim_ok line white) as (m & Em & (a & b & Sp & A & B) & C). rewrite Em. cbn [obind].
  assert (M : exists m', m = "g"%char :: m').
  { destruct m as [|d m].
    - exfalso. assert (M : made_of white line) by (rewrite Sp; intros x I; apply in_app_or in I; destruct I; auto).
      assert (K : In "g"%char white) by (apply M; rewrite E; left; reflexivity). cbn in K. intuition discriminate.
    - assert (K : a ++ d :: (m ++ b) = [] ++ "g"%char :: (txt "lobal" ++ t)) by (transitivity line; [symmetry; exact Sp|rewrite E; reflexivity]).
      apply (first_out white) in K; [destruct K as (_ & -> & _); eauto|exact A|intros ? []| |cbn; intuition discriminate].
      destruct C as [C|((d' & m' & Ed & Nd) & _)]; [discriminate|]. injection Ed as <- <-. exact Nd. }
  destruct M as (m' & ->). cbn [Ascii.eqb Bool.eqb].
  destruct (begins_with_ok line (chars "global")) as (bg & Eb & Hb). rewrite Eb. cbn [obind]. rewrite (proj2 Hb) by (exists t; exact E).
  pose proof (key_ok (txt "color=") [] line c G) as K. cbn [app List.length] in K. change (chars "color=") with (txt "color="). rewrite K. reflexivity.
Qed.
Print Assumptions C91_global.
(* The line "physical" announces pixels; other lines without parenthesis are ignored. *)
Theorem C91_system parse sex g ph regs line m : trimmed line m -> m <> [] -> ~ (exists t, m = "#"%char :: t) ->
  ~ (exists t, line = txt "global" ++ t) -> ~ In "("%char line ->
  (m = txt "physical" -> read_line parse sex (g, ph, regs) line = Ok (g, true, regs)) /\
  (m <> txt "physical" -> read_line parse sex (g, ph, regs) line = Ok (g, ph, regs)).
Proof.
  intros T Nm Nh Ng Np. unfold read_line. rewrite (trim_unique _ _ T). cbn [obind]. destruct m as [|c m]; [congruence|].
  destruct (Ascii.eqb_spec c "#"%char) as [->|_]; [exfalso; apply Nh; eauto|].
  destruct (begins_with_ok line (chars "global")) as (bg & Eb & Hb). rewrite Eb. cbn [obind].
  destruct bg; [exfalso; apply Ng, Hb; reflexivity|].
  rewrite (find_first_none "("%char [] line Np : find_first (has ["("%char]) line (Some 0) = None).
  split; intros E.
  - rewrite (proj2 (str_eqb_true _ _)) by exact E. reflexivity.
  - destruct (str_eqb (c :: m) (chars "physical")) eqn:E1; [apply str_eqb_true in E1; contradiction|reflexivity].
Qed.
Print Assumptions C91_system.
(* The regions of a file are those of its lines in turn, after those already in the vector; a
   missing file stops the program. *)
Theorem C91_file parse sex regs : read_regions parse sex None regs = CheckFail /\ read_regions parse sex (Some []) regs = Ok regs /\
  forall l1 l2 g ph r, ofold (read_line parse sex) l1 (txt "green", false, regs) = Ok (g, ph, r) ->
    read_regions parse sex (Some (l1 ++ l2)) regs = omap snd (ofold (read_line parse sex) l2 (g, ph, r)).
Proof.
  split; [reflexivity|]. split; [reflexivity|]. intros l1 l2 g ph r E. unfold read_regions. rewrite ofold_app.
  change (chars "green") with (txt "green"). rewrite E. cbn [obind]. destruct (ofold (read_line parse sex) l2 (g, ph, r)); reflexivity.
Qed.
Print Assumptions C91_file.

(* Regions in sky coordinates are read as they were written. *)
Theorem C91_wcs_round_trip parse show sex xy2ad aspix regs regs0 :
  Forall (fun r => rphys r = false /\ regular parse show r) regs ->
  exists lines, write_regions_wcs show xy2ad aspix true regs = Ok lines /\
    read_regions parse sex (Some lines) regs0 = Ok (regs0 ++ map (fun r => Region (rtype r) (txt "green") [] false (rpar r)) regs).
Proof.
  intros F. rewrite Forall_forall in F. unfold write_regions_wcs.
  destruct (all_lines parse sex (fun r => n <- physical_to_wcs xy2ad aspix r ;; write_region show quote n)
     (fun r => [Region (rtype r) (chars "green") [] false (rpar r)]) (chars "green") false regs) as (l & E & R).
  { intros r I. destruct (F r I) as (Hp & Hr). unfold physical_to_wcs. rewrite Hp. cbn [negb obind].
    destruct (unit_line parse show sex r Hr) as (line & El & Rl). exists line. split; [exact El|]. intros regs'. apply Rl. }
  rewrite E. cbn [obind]. eexists. split; [reflexivity|]. unfold read_regions.
  rewrite (app_assoc header), ofold_app, header_fk5. cbn [obind]. rewrite R. cbn [obind snd]. rewrite flat_single. reflexivity.
Qed.
Print Assumptions C91_wcs_round_trip.
(* Finding: the coordinates of the program are written as they are, but 1 is subtracted when they are
   read: regions in pixels that are written and read again are moved by one pixel, every time. *)
Theorem C91_physical_round_trip_refuted parse show sex regs regs0 :
  Forall (fun r => rphys r = true /\ regular parse show r) regs ->
  exists lines, write_regions_physical show regs = Ok lines /\
    read_regions parse sex (Some lines) regs0 = Ok (regs0 ++ map (fun r => Region (rtype r) (txt "green") [] true
      (match rpar r with x :: y :: t => (x - 1)%Q :: (y - 1)%Q :: t | _ => [] end)) regs).
Proof.
  intros F. rewrite Forall_forall in F. unfold write_regions_physical.
  destruct (all_lines parse sex (fun r => _ <- check (rphys r) ;; write_region show [] r)
     (fun r => [Region (rtype r) (chars "green") [] true (moved (rpar r))]) (chars "green") true regs) as (l & E & R).
  { intros r I. destruct (F r I) as (Hp & Hr). rewrite Hp. cbn [check obind].
    destruct (pixel_line parse show sex r Hr) as (line & El & Rl & _). exists line. split; [exact El|]. intros regs'. apply Rl. }
  rewrite E. cbn [obind]. eexists. split; [reflexivity|]. unfold read_regions.
  rewrite (app_assoc header), ofold_app, header_physical. cbn [obind]. rewrite R. cbn [obind snd]. rewrite flat_single. f_equal. f_equal.
  apply map_ext_in. intros r I. destruct (F r I) as (_ & _ & [(_ & L)|(_ & L)]); destruct (rpar r) as [|x [|y t]]; try discriminate; reflexivity.
Qed.
Print Assumptions C91_physical_round_trip_refuted.
(* Finding: when the first axis is not spatial the sizes are written without unit, and reading the
   file again finds no region. *)
Theorem C91_other_axes_refuted parse show sex xy2ad aspix regs regs0 :
  Forall (fun r => rphys r = false /\ regular parse show r) regs ->
  exists lines, write_regions_wcs show xy2ad aspix false regs = Ok lines /\ read_regions parse sex (Some lines) regs0 = Ok regs0.
Proof.
  intros F. rewrite Forall_forall in F. unfold write_regions_wcs.
  destruct (all_lines parse sex (fun r => n <- physical_to_wcs xy2ad aspix r ;; write_region show [] n)
     (fun r => []) (chars "green") false regs) as (l & E & R).
  { intros r I. destruct (F r I) as (Hp & Hr). unfold physical_to_wcs. rewrite Hp. cbn [negb obind].
    destruct (pixel_line parse show sex r Hr) as (line & El & _ & Rl). exists line. split; [exact El|]. intros regs'. rewrite app_nil_r. apply Rl. }
  rewrite E. cbn [obind]. eexists. split; [reflexivity|]. unfold read_regions.
  rewrite (app_assoc header), ofold_app, header_wcs. cbn [obind]. rewrite R. cbn [obind snd]. rewrite flat_nothing, app_nil_r. reflexivity.
Qed.
Print Assumptions C91_other_axes_refuted.

(* Writing regions in pixels with a coordinate system writes what the converted regions would give. *)
Theorem C91_write_converted show ad2xy aspix regs regs' :
  Forall2 (fun r r' => wcs_to_physical ad2xy aspix r = Ok r' /\ rphys r' = true) regs regs' ->
  write_regions_physical_wcs show ad2xy aspix regs = write_regions_physical show regs'.
Proof.
  intro F. unfold write_regions_physical_wcs, write_regions_physical. f_equal.
  induction F as [|r r' regs regs' (E & P) F IH]; [reflexivity|]. cbn [omapl].
  rewrite E, P. cbn [check obind]. destruct (write_region show [] r'); cbn [obind]; rewrite ?IH; reflexivity.
Qed.
Print Assumptions C91_write_converted.

(* Converting to sky coordinates and back gives the same region. *)
Theorem C91_conversions parse show xy2ad ad2xy aspix r : (forall p, ad2xy (xy2ad p) = p) -> ~ (aspix == 0)%Q ->
  rphys r = true -> regular parse show r ->
  exists r1 r2, physical_to_wcs xy2ad aspix r = Ok r1 /\ rphys r1 = false /\ wcs_to_physical ad2xy aspix r1 = Ok r2 /\
    rtype r2 = rtype r /\ rcolor r2 = rcolor r /\ rtext r2 = rtext r /\ rphys r2 = true /\ Forall2 Qeq (rpar r2) (rpar r).
Proof.
  intros Hi Ha Hp (_ & K). destruct r as [ty co te ph par]. cbn [rphys rtype rpar rcolor rtext] in *. subst ph.
  unfold physical_to_wcs, wcs_to_physical, param. cbn [rphys negb rtype rpar].
  destruct K as [(-> & L)|(-> & L)].
  - destruct par as [|x [|y [|r [|? ?]]]]; try discriminate. cbn [List.length Nat.ltb Nat.leb check obind oget nth_error].
    destruct (xy2ad ((x + 1)%Q, (y + 1)%Q)) as (ra, dec) eqn:E.
    eexists. eexists. split; [reflexivity|]. split; [reflexivity|]. cbn [rphys rpar rtype rcolor rtext]. cbn [List.length Nat.ltb Nat.leb check obind oget nth_error upd].
    rewrite <- E, Hi. split; [reflexivity|]. cbn [rphys rpar rtype rcolor rtext]. do 4 (split; [reflexivity|]).
    repeat constructor; [ring|ring|field; exact Ha].
  - destruct par as [|x [|y [|w [|h [|t [|? ?]]]]]]; try discriminate. cbn [List.length Nat.ltb Nat.leb check obind oget nth_error].
    destruct (xy2ad ((x + 1)%Q, (y + 1)%Q)) as (ra, dec) eqn:E.
    eexists. eexists. split; [reflexivity|]. split; [reflexivity|]. cbn [rphys rpar rtype rcolor rtext]. cbn [List.length Nat.ltb Nat.leb check obind oget nth_error upd].
    rewrite <- E, Hi. split; [reflexivity|]. cbn [rphys rpar rtype rcolor rtext]. do 4 (split; [reflexivity|]).
    repeat constructor; [ring|ring|field; exact Ha|field; exact Ha].
Qed.
Print Assumptions C91_conversions.

Definition number (s : str) : option Q := match real_from_string s with Some (Num q) => Some q | _ => None end.
Definition no_sex (a b : str) : outcome (option (Q * Q)) := Ok None.
(* Finding: nothing ends the "physical" mode: the regions after a later "fk5" line are lost, or read as pixels. *)
Theorem C91_reset_refuted : exists line line' r, read_regions number no_sex (Some [txt "fk5"; line]) [] = Ok [r] /\ rphys r = false /\
  read_regions number no_sex (Some [txt "physical"; txt "fk5"; line]) [] = Ok [] /\
  exists r', read_regions number no_sex (Some [txt "physical"; txt "fk5"; line']) [] = Ok [r'] /\ rphys r' = true.
Proof.
  exists (txt "circle(150,2,3" ++ ["034"%char] ++ txt ")"), (txt "circle(150,2,3)"). eexists. split; [vm_compute; reflexivity|]. split; [reflexivity|].
  split; [vm_compute; reflexivity|]. eexists. split; [vm_compute; reflexivity|]. reflexivity.
Qed.
Print Assumptions C91_reset_refuted.
(* Finding: a text with a space is cut, even between braces, and keeps the brace. *)
Theorem C91_text_refuted : exists r, read_regions number no_sex (Some [txt "physical"; txt "circle(3,4,5) # text={my star} color=red"]) [] = Ok [r] /\
  rtext r = txt "{my" /\ rcolor r = txt "red".
Proof. eexists. split; [vm_compute; reflexivity|]. split; reflexivity. Qed.
Print Assumptions C91_text_refuted.
(* Finding: the colour and the text of a region are not written. *)
Theorem C91_options_lost_refuted show ss ty c c' t t' ph p :
  write_region show ss (Region ty c t ph p) = write_region show ss (Region ty c' t' ph p).
Proof. reflexivity. Qed.
Print Assumptions C91_options_lost_refuted.
(* Regions of other shapes are not written. *)
Theorem C91_write_guard show ss r : rtype r <> txt "circle" -> rtype r <> txt "box" -> write_region show ss r = CheckFail.
Proof.
  intros N1 N2. unfold write_region. destruct (str_eqb (rtype r) (chars "circle")) eqn:E; [apply str_eqb_true in E; contradiction|].
  destruct (str_eqb (rtype r) (chars "box")) eqn:E2; [apply str_eqb_true in E2; contradiction|]. reflexivity.
Qed.
Print Assumptions C91_write_guard.
(* read_regions_physical without WCS refuses files with other regions, and also regions in the vector
   that were there before. *)
Theorem C91_physical_only parse sex file regs l : read_regions parse sex file regs = Ok l ->
  (Forall (fun r => rphys r = true) l -> read_regions_physical parse sex file regs = Ok l) /\
  (~ Forall (fun r => rphys r = true) l -> read_regions_physical parse sex file regs = CheckFail).
Proof.
  intros E. unfold read_regions_physical. rewrite E. cbn [obind]. destruct (forallb rphys l) eqn:F.
  - split; [reflexivity|]. intros N. exfalso. apply N. rewrite Forall_forall. rewrite forallb_forall in F. exact F.
  - split; [|reflexivity]. intros A. exfalso. assert (forallb rphys l = true); [|congruence]. rewrite forallb_forall. rewrite Forall_forall in A. exact A.
Qed.
Print Assumptions C91_physical_only.

Example C91_example_read : exists l, read_regions number no_sex (Some [
    txt "# Region file"; txt ""; txt "global color=blue width=1"; txt "physical";
    txt " circle( 3, 4.5 ,5) # color=red text=A12 "; txt "box(10,20,4,2,30)"; txt "ellipse(1,2,3,4)"; txt "circle(1,2)"; txt "circle(a,2,3)"]) [] = Ok l /\
  map rtype l = [txt "circle"; txt "box"] /\ map rcolor l = [txt "red"; txt "blue"] /\ map rtext l = [txt "A12"; []] /\
  map (fun r => map Qred (rpar r)) l = [[2; (7 # 2); 5]; [9; 19; 4; 2; 30]]%Q.
Proof. eexists. split; [vm_compute; reflexivity|]. repeat split. Qed.
(* small integers are printable *)
Definition show_small (q : Q) : str := match q with 0 => txt "0" | 7 => txt "7" | 12 => txt "12" | _ => txt "?" end%Q.
Example C91_example_printable : printable number show_small 7 /\ printable number show_small 12.
Proof. repeat split; try discriminate; intros c I K; cbn in I, K; intuition congruence. Qed.
Example C91_example_round : exists lines, write_regions_physical show_small [Region (txt "circle") (txt "red") [] true [7; 12; 7]%Q] = Ok lines /\
  List.length lines = 4 /\ nth_error lines 3 = Some (txt "circle(7, 12, 7)") /\
  exists r, read_regions number no_sex (Some lines) [] = Ok [r] /\ map Qred (rpar r) = [6; 11; 7]%Q.
Proof. eexists. split; [vm_compute; reflexivity|]. split; [reflexivity|]. split; [reflexivity|]. eexists. split; [vm_compute; reflexivity|]. reflexivity. Qed.
Example C91_example_regular : regular number show_small (Region (txt "circle") (txt "red") [] true [7; 12; 7]%Q).
Proof.
  split; [|left; split; reflexivity]. destruct C91_example_printable. constructor; [assumption|]. constructor; [assumption|]. constructor; [assumption|constructor].
Qed.
Example C91_example_line : region_line (txt "circle( 3, 4) # x") (txt "circle") [txt "3"; txt "4"] (txt " # x").
Proof.
  exists (txt "circle"), [txt " 3"; txt " 4"]. split; [reflexivity|]. split; [apply trimmed_same; [discriminate|intros x I K; cbn in I, K; intuition congruence]|].
  split; [repeat constructor; apply trimmed_space; try discriminate; intros x I K; cbn in I, K; intuition congruence|].
  split; [discriminate|]. split; [cbn; intuition discriminate|]. split; [intros a [<-|[<-|[]]]; cbn; intuition discriminate|].
  split; [exists "c"%char, (txt "ircle"); split; [left; reflexivity|discriminate]|]. intros (t & E). discriminate.
Qed.
