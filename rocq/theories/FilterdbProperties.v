(* C106: filter databases. *)
From Coq Require Import Ascii String QArith Qfield Lqa Lia Sorted.
From Verif Require Import Base StrModel StrSpec StrProofs PathModel IntegModel IntegSpec IntegProofs FilterdbModel FilterdbSpec FilterdbProofs.
From Verif Require AsciiModel.
Local Open Scope nat_scope.
Local Open Scope list_scope.
Notation length := List.length.

Lemma find_in {V} k (x : V) : forall m, ordered m -> find k m = Some x <-> In (k, x) m.
Proof.
  induction m as [|[k1 v1] m IH]; intros O; cbn [find In]; [split; [discriminate|tauto]|]. inversion O as [|? ? O1 F]; subst. destruct (str_cmp k k1) eqn:E.
  - apply cmp_eq in E. subst k1. split; [intros H; injection H as ->; auto|]. intros [H|H]; [injection H as ->; reflexivity|]. rewrite Forall_forall in F. apply F in H. cbn in H. rewrite (proj2 (cmp_eq k k) eq_refl) in H. discriminate.
  - rewrite IH by exact O1. split; [auto|]. intros [H|H]; [|exact H]. injection H as -> _. rewrite (proj2 (cmp_eq k k) eq_refl) in E. discriminate.
  - rewrite IH by exact O1. split; [auto|]. intros [H|H]; [|exact H]. injection H as -> _. rewrite (proj2 (cmp_eq k k) eq_refl) in E. discriminate.
Qed.
Lemma ofold_ext {A B} (f g : A -> B -> outcome A) : (forall a b, f a b = g a b) -> forall l a, ofold f l a = ofold g l a.
Proof. intros H. induction l as [|b l IH]; intros a; [reflexivity|]. cbn [ofold]. rewrite H. destruct (g a b); cbn [obind]; auto. Qed.
(* A database has, for each name, the file of the first line that says name=file, in the directory of
   the database; the other lines are ignored, and nothing else is there. *)
Theorem C106_database : forall filename content dir l, get_directory filename = Ok dir -> lines content l ->
  exists db, read_filter_db filename content = Ok db /\ (forall k file, In (k, file) db <-> exists v, file = dir ++ v /\ first_said l k v).
Proof.
  intros filename content dir l D L. unfold read_filter_db. rewrite D. cbn [obind]. rewrite (cut_fun _ _ _ L _ (pieces_lines content)).
  destruct (steps_ok (fun v => Some (dir ++ v)) (AsciiModel.pieces content) [] ltac:(constructor)) as (db & E & O & F). exists db. split.
  - rewrite <- E. apply ofold_ext. intros a b. unfold step. destruct (sides b) as [[[k v]|]| | | |]; reflexivity.
  - intros k file. rewrite <- find_in, F by exact O. cbn [find]. split.
    + intros [X|[_ (i & line & K & (v & S & G) & First)]]; [discriminate|]. injection G as <-. exists v. split; [reflexivity|]. exists i, line. split; [exact K|]. split; [exact S|]. intros j line' v' J Kj S'. apply (First j line' (dir ++ v') J Kj). exists v'. auto.
    + intros (v & -> & i & line & K & S & First). right. split; [reflexivity|]. exists i, line. split; [exact K|]. split; [exists v; auto|]. intros j line' x' J Kj (v' & S' & _). exact (First j line' v' J Kj S').
Qed.
Print Assumptions C106_database.
(* a map has, for each name, the first number given to it; a line with something else than a number is ignored *)
Theorem C106_map : forall to_id content l, lines content l -> exists m, read_filter_map to_id content = Ok m /\
  (forall k id, In (k, id) m <-> exists i line v, nth_error l i = Some line /\ says line k v /\ to_id v = Some id /\
     forall j line' v' id', j < i -> nth_error l j = Some line' -> says line' k v' -> to_id v' <> Some id').
Proof.
  intros to_id content l L. unfold read_filter_map. rewrite (cut_fun _ _ _ L _ (pieces_lines content)).
  destruct (steps_ok to_id (AsciiModel.pieces content) [] ltac:(constructor)) as (db & E & O & F). exists db. split; [exact E|].
  intros k id. rewrite <- find_in, F by exact O. cbn [find]. split.
  - intros [X|[_ (i & line & K & (v & S & G) & First)]]; [discriminate|]. exists i, line, v. split; [exact K|]. split; [exact S|]. split; [exact G|]. intros j line' v' id' J Kj S' G'. apply (First j line' id' J Kj). exists v'. auto.
  - intros (i & line & v & K & S & G & First). right. split; [reflexivity|]. exists i, line. split; [exact K|]. split; [exists v; auto|]. intros j line' x' J Kj (v' & S' & G'). exact (First j line' v' x' J Kj S' G').
Qed.
Print Assumptions C106_map.
Definition lit (s : string) : list ascii := list_ascii_of_string s.
Example ex_db : read_filter_db (lit "d/db.dat") (lit ("# x=y
b=f2
 a=f1.fits 
b=f3
c=d=e
")) = Ok [(lit "a", lit "d/f1.fits"); (lit "b", lit "d/f2")].
Proof. reflexivity. Qed.

(* get_filter_id: the number of a name of the map; if it is not there npos, and the names that differ
   from it in the fewest places are suggested *)
Theorem C106_id : forall content to_id m name, read_filter_map to_id content = Ok m ->
  (forall id, In (name, id) m -> get_filter_id m name = Ok (true, id, [])) /\
  ((forall id, ~ In (name, id) m) -> exists l, get_filter_id m name = Ok (false, 2 ^ 64 - 1, l)%Z /\
     (forall k, In k l <-> In k (map fst m) /\ forall k' d d', In k' (map fst m) -> differ name k d -> differ name k' d' -> d <= d')).
Proof.
  intros content to_id m name R.
  assert (O : ordered m).
  { unfold read_filter_map in R. destruct (steps_ok to_id (AsciiModel.pieces content) [] ltac:(constructor)) as (db & E & O & _). unfold step in E. rewrite E in R. injection R as <-. exact O. }
  split.
  - intros id I. unfold get_filter_id. apply (find_in name id m O) in I. rewrite I. reflexivity.
  - intros N. unfold get_filter_id. destruct (find name m) as [id|] eqn:F; [exfalso; apply (N id); apply (find_in name id m O); exact F|].
    destruct (suggest_ok m name) as (b & E & H). rewrite E. cbn [obind]. eexists. split; [reflexivity|].
    assert (D : forall a c d, differ a c d <-> d = dist a c).
    { intros a c d. unfold differ, dist. split.
      - intros (f & Hf & ->). rewrite StrProofs3.distance_ok. unfold StrProofs3.ndiff. f_equal. apply filter_ext. intros i. destruct (f i) eqn:Fi, (StrProofs3.differs a c i) eqn:Di; try reflexivity; exfalso; [apply Hf in Fi; apply StrProofs3.differs_iff in Fi; congruence|apply StrProofs3.differs_iff in Di; apply Hf in Di; congruence].
      - intros ->. exists (StrProofs3.differs a c). split; [intros i; apply StrProofs3.differs_iff|]. rewrite StrProofs3.distance_ok. reflexivity. }
    intros k. rewrite filter_In, Nat.eqb_eq. destruct m as [|p m].
    + cbn. tauto.
    + destruct (H ltac:(discriminate)) as [M I]. apply in_map_iff in I. destruct I as (k0 & E0 & I0). split.
      * intros [I1 I2]. split; [exact I1|]. intros k' d d' I' Dk Dk'. apply D in Dk, Dk'. subst. rewrite I2. apply M. exact I'.
      * intros [I1 I2]. split; [exact I1|]. apply Nat.le_antisymm; [|apply M; exact I1]. rewrite <- E0. apply (I2 k0); [exact I0|apply D; reflexivity|apply D; reflexivity].
Qed.
Print Assumptions C106_id.
(* for several names: all their numbers, npos where unknown, and whether all are known *)
Theorem C106_ids : forall m names, exists good ids, get_filter_ids m names = Ok (good, ids) /\ length ids = length names /\
  (forall i n, nth_error names i = Some n -> exists g id l, get_filter_id m n = Ok (g, id, l) /\ nth_error ids i = Some id /\ (good = true -> g = true)) /\
  (good = false -> exists n id l, In n names /\ get_filter_id m n = Ok (false, id, l)).
Proof.
  intros m names. unfold get_filter_ids.
  assert (One : forall n, exists g id l, get_filter_id m n = Ok (g, id, l)).
  { intros n. unfold get_filter_id. destruct (find n m); [eauto|]. destruct (suggest_ok m n) as (b & -> & _). cbn [obind]. eauto. }
  assert (G : forall names good0 ids0, exists good ids, ofold (fun '(good, ids) n => r <- get_filter_id m n ;; let '(g, id, _) := r in Ok ((if g then good else false), ids ++ [id])) names (good0, ids0) = Ok (good, ids0 ++ ids) /\ length ids = length names /\ (good = true -> good0 = true) /\
    (forall i n, nth_error names i = Some n -> exists g id l, get_filter_id m n = Ok (g, id, l) /\ nth_error ids i = Some id /\ (good = true -> g = true)) /\
    (good = false -> good0 = false \/ exists n id l, In n names /\ get_filter_id m n = Ok (false, id, l))).
  { clear names. induction names as [|n names IH]; intros good0 ids0.
    - exists good0, []. rewrite app_nil_r. split; [reflexivity|]. split; [reflexivity|]. split; [auto|]. split; [intros [|i] n H; discriminate|auto].
    - cbn [ofold]. destruct (One n) as (g & id & l & E). rewrite E. cbn [obind]. destruct (IH (if g then good0 else false) (ids0 ++ [id])) as (good & ids & E2 & L & T & Each & Bad). exists good, (id :: ids). split; [rewrite E2, <- app_assoc; reflexivity|]. split; [cbn; lia|].
      split; [intros H; specialize (T H); destruct g; [exact T|discriminate]|]. split.
      + intros [|i] n' H; [|exact (Each i n' H)]. injection H as <-. exists g, id, l. split; [exact E|]. split; [reflexivity|]. intros H. specialize (T H). destruct g; [reflexivity|discriminate].
      + intros H. destruct (Bad H) as [X|(n' & id' & l' & I & E')]; [|right; exists n', id', l'; split; [right; exact I|exact E']]. destruct g; [left; exact X|right; exists n, id, l; split; [left; reflexivity|exact E]]. }
  destruct (G names true []) as (good & ids & E & L & _ & Each & Bad). exists good, ids. split; [exact E|]. split; [exact L|]. split; [exact Each|]. intros H. destruct (Bad H) as [X|X]; [discriminate|exact X].
Qed.
Print Assumptions C106_ids.
Example ex_id : get_filter_id [(lit "f1", 3); (lit "f22", 5); (lit "g1", 7)]%Z (lit "f2") = Ok (false, 2 ^ 64 - 1, [lit "f1"; lit "f22"])%Z /\
  get_filter_ids [(lit "f1", 3); (lit "g1", 7)]%Z [lit "g1"; lit "x"; lit "f1"] = Ok (false, [7; 2 ^ 64 - 1; 3])%Z.
Proof. split; reflexivity. Qed.

Lemma free_cut c : forall w, w <> [] -> Forall (fun x => ~ In c x) w -> cut_at [c] (joined w [c]) w.
Proof.
  induction w as [|x w IH]; intros N F; [congruence|]. inversion F as [|? ? Hx F']; subst. destruct w as [|y w]; [constructor; apply not_occurs; exact Hx|].
  change (joined (x :: y :: w) [c]) with (x ++ [c] ++ joined (y :: w) [c]). constructor; [|apply IH; [discriminate|exact F']]. intros i (a & b & E & <-). destruct (le_lt_dec (length x) (length a)) as [L|L]; [exact L|]. exfalso. apply Hx.
  assert (K : nth_error (a ++ [c] ++ b) (length a) = Some c) by (rewrite nth_error_app2, Nat.sub_diag by lia; reflexivity). rewrite <- E, nth_error_app1 in K by exact L. eapply nth_error_In; exact K.
Qed.
Lemma split_free c w : w <> [] -> Forall (fun x => ~ In c x) w -> split (joined w [c]) [c] = Ok w.
Proof. intros N F. destruct (split_ok (joined w [c]) [c] ltac:(discriminate)) as (w' & E & C). rewrite E, (cut_fun _ _ _ C _ (free_cut c w N F)). reflexivity. Qed.
(* get_filter: a name of the database, "name:range:min:max" or "name:file:path"; anything else is not known *)
Theorem C106_get : forall read number db name, ~ In ":"%char name ->
  ((forall file, In (name, file) db -> ordered db -> get_filter read number db name = from_file read file) /\
   ((forall file, ~ In (name, file) db) -> ordered db -> get_filter read number db name = Ok None)) /\
  (forall a b, ~ In ":"%char a -> ~ In ":"%char b -> get_filter read number db (name ++ lit ":range:" ++ a ++ lit ":" ++ b) =
     match number a, number b with Some x, Some y => omap Some (range_filter x y) | _, _ => Ok None end) /\
  (forall f, ~ In ":"%char f -> get_filter read number db (name ++ lit ":file:" ++ f) = from_file read f).
Proof.
  intros read number db name N. split; [|split].
  - assert (E : split name [colon] = Ok [name]) by (apply (split_free colon [name]); [discriminate|constructor; [exact N|constructor]]). split.
    + intros file I O. unfold get_filter. rewrite E. cbn [obind]. apply (find_in name file db O) in I. rewrite I. reflexivity.
    + intros H O. unfold get_filter. rewrite E. cbn [obind]. destruct (find name db) as [file|] eqn:F; [|reflexivity]. exfalso. apply (H file). apply (find_in name file db O). exact F.
  - intros a b A B. unfold get_filter. replace (name ++ lit ":range:" ++ a ++ lit ":" ++ b) with (joined [name; lit "range"; a; b] [colon]) by (cbn [joined]; reflexivity).
    rewrite split_free; [reflexivity|discriminate|]. repeat (constructor; [first [assumption|cbn; unfold colon; intuition discriminate]|]). constructor.
  - intros f F. unfold get_filter. replace (name ++ lit ":file:" ++ f) with (joined [name; lit "file"; f] [colon]) by (cbn [joined]; reflexivity).
    rewrite split_free; [reflexivity|discriminate|]. repeat (constructor; [first [assumption|cbn; unfold colon; intuition discriminate]|]). constructor.
Qed.
Print Assumptions C106_get.
(* several filters: added in the order of the names, up to the first that is not known *)
Theorem C106_filters : forall read number db names fils good r, get_filters read number db names fils = Ok (good, r) ->
  exists new, r = fils ++ new /\ (forall i f, nth_error new i = Some f -> exists n, nth_error names i = Some n /\ get_filter read number db n = Ok (Some f)) /\
    (good = true -> length new = length names) /\ (good = false -> exists n, nth_error names (length new) = Some n /\ get_filter read number db n = Ok None).
Proof.
  intros read number db. induction names as [|n names IH]; intros fils good r E; cbn [get_filters] in E.
  - injection E as <- <-. exists []. rewrite app_nil_r. split; [reflexivity|]. split; [intros [|i] f H; discriminate|]. split; [reflexivity|discriminate].
  - destruct (get_filter read number db n) as [[f|]| | | |] eqn:G; cbn [obind] in E; try discriminate.
    + destruct (IH _ _ _ E) as (new & -> & Each & T & Bad). exists (f :: new). split; [rewrite <- app_assoc; reflexivity|]. split; [intros [|i] f' H; [injection H as <-; exists n; auto|exact (Each i f' H)]|]. split; [intros H; cbn; rewrite T by exact H; reflexivity|exact Bad].
    + injection E as <- <-. exists []. rewrite app_nil_r. split; [reflexivity|]. split; [intros [|i] f H; discriminate|]. split; [discriminate|]. intros _. exists n. auto.
Qed.
Print Assumptions C106_filters.
(* a filter read from a file: its table as it is, and the integral of lambda times the response as its
   wavelength *)
Theorem C106_file : forall read file lam res, read file = Ok (Some (lam, res)) -> length lam = length res -> lam <> [] ->
  exists r, from_file read file = Ok (Some (mk_filter lam (map Some res) r)) /\ (r == trap_sum lam (map (fun p => fst p * snd p)%Q (combine res lam)))%Q.
Proof.
  intros read file lam res R L N. unfold from_file, product. rewrite R. cbn [obind]. rewrite (proj2 (Nat.eqb_eq _ _) (eq_sym L)). cbn [check obind].
  destruct (integrate_ok lam (map (fun p => fst p * snd p)%Q (combine res lam))) as (r & E & V); [rewrite map_length, combine_length; lia|exact N|]. rewrite E. cbn [obind]. eauto.
Qed.
Print Assumptions C106_file.
(* a range: the response is positive between the bounds, its integral is 1, and the wavelength is the
   middle; the mean wavelength of the response is slightly larger *)
Theorem C106_range : forall lmin lmax, (0 < lmin)%Q -> (lmin <= lmax)%Q ->
  exists f res, range_filter lmin lmax = Ok f /\ f_res f = map Some res /\ (trap_sum (f_lam f) res == 1)%Q /\ (f_rlam f == (lmin + lmax) / 2)%Q /\
    (exists h, (0 < h)%Q /\ Forall2 Qeq res [0; 0; h; h; 0; 0]%Q /\ nth_error (f_lam f) 2 = Some lmin /\ nth_error (f_lam f) 3 = Some lmax /\
       (trap_sum (f_lam f) (map (fun p => fst p * snd p)%Q (combine res (f_lam f))) == f_rlam f + (1 # 400) * (lmax - lmin) * (lmax - lmin) * h)%Q) /\
    StronglySorted (fun a b => (a <= b)%Q) (f_lam f) /\ length (f_lam f) = length res.
Proof.
  intros l L P H. set (a := ((L - l) + (1 # 200) * l + (1 # 200) * L)%Q). assert (A : (0 < a)%Q) by (unfold a; lra). unfold range_filter. cbv zeta. set (lam := [l * (1 # 2); l * (99 # 100); l; L; L * (101 # 100); L * 2]%Q).
  destruct (integrate_ok lam [0; 0; 1; 1; 0; 0]%Q eq_refl ltac:(discriminate)) as (r & E & V). rewrite E. cbn [obind].
  assert (Ra : (r == a)%Q) by (rewrite V; unfold trap_sum, sum_with, segments, lam, trap, a; cbn [combine tl fold_right fst snd]; field). clearbody a.
  destruct (Qeq_bool r 0) eqn:Q0; [apply Qeq_bool_iff in Q0; lra|]. eexists. exists (map (fun x => x / r)%Q [0; 0; 1; 1; 0; 0]%Q). split; [reflexivity|]. cbn [f_res f_lam f_rlam]. split; [rewrite map_map; reflexivity|].
  assert (R0 : ~ (r == 0)%Q) by (intros X; lra). assert (V' : (r == (L - l) + (1 # 200) * l + (1 # 200) * L)%Q) by (rewrite V; unfold trap_sum, sum_with, segments, lam, trap; cbn [combine tl fold_right fst snd]; field). clear V.
  split; [|split; [|split; [|split]]].
  - unfold trap_sum, sum_with, segments, lam, trap. cbn [combine tl fold_right fst snd map]. transitivity (((L - l) + (1 # 200) * l + (1 # 200) * L) / r)%Q; [field; exact R0|rewrite <- V'; field; exact R0].
  - field.
  - exists (/ r)%Q. split; [apply Qinv_lt_0_compat; lra|]. split; [repeat (constructor; [field; exact R0|]); constructor|]. split; [reflexivity|]. split; [reflexivity|].
    unfold trap_sum, sum_with, segments, lam, trap. cbn [combine tl fold_right fst snd map].
    transitivity (((1 # 200) * l * l + (L - l) * (L + l) * (1 # 2) + (1 # 200) * L * L) / r)%Q; [field; exact R0|].
    apply (Qmult_inj_r _ _ r R0). transitivity ((1 # 200) * l * l + (L - l) * (L + l) * (1 # 2) + (1 # 200) * L * L)%Q; [field; exact R0|]. transitivity ((1 # 2) * (l + L) * r + (1 # 400) * (L - l) * (L - l))%Q; [rewrite V'; ring|field; exact R0].
  - unfold lam. repeat (constructor; [|repeat (constructor; [lra|]); constructor]). constructor.
  - reflexivity.
Qed.
Print Assumptions C106_range.
Example ex_range : exists f, get_filter (fun _ => UB) (fun s => if list_eq_dec ascii_dec s (lit "1") then Some 1%Q else Some 2%Q) [] (lit "V:range:1:2") = Ok (Some f) /\ (f_rlam f == 3 # 2)%Q /\
  match nth_error (f_res f) 2 with Some (Some h) => (h == 200 # 203)%Q | _ => False end.
Proof. eexists. split; [reflexivity|]. split; reflexivity. Qed.
Example ex_file : exists f, get_filter (fun _ => Ok (Some ([1; 2; 3], [0; 1; 0]))%Q) (fun _ => None) [(lit "a", lit "x")] (lit "a") = Ok (Some f) /\ (f_rlam f == 2)%Q.
Proof. eexists. split; [reflexivity|]. reflexivity. Qed.

(* Finding: blanks around the sign = are part of the name and of the path, so that the filter is not
   found under its name. *)
Theorem C106_blanks_refuted : exists db, read_filter_db (lit "db") (lit "a = f") = Ok db /\ db = [(lit "a ", lit "./ f")] /\ find (lit "a") db = None.
Proof. eexists. repeat split; reflexivity. Qed.
Print Assumptions C106_blanks_refuted.
(* Finding: a name of the database with a colon cannot be asked for. *)
Theorem C106_colon_refuted : forall read number a b db, ~ In ":"%char a -> ~ In ":"%char b -> b <> lit "range" -> b <> lit "file" -> get_filter read number db (a ++ ":"%char :: b) = Ok None.
Proof.
  intros read number a b db A B N1 N2. unfold get_filter. change (a ++ ":"%char :: b) with (joined [a; b] [colon]). rewrite split_free; [|discriminate|repeat (constructor; [assumption|]); constructor]. cbn [obind].
  destruct (list_eq_dec ascii_dec b _) as [E|_]; [contradiction|]. destruct (list_eq_dec ascii_dec b _) as [E|_]; [contradiction|]. reflexivity.
Qed.
Print Assumptions C106_colon_refuted.
(* Finding: a path with a colon cannot be given. *)
Theorem C106_path_refuted : forall read number db a f g, ~ In ":"%char a -> ~ In ":"%char f -> ~ In ":"%char g -> get_filter read number db (a ++ lit ":file:" ++ f ++ ":"%char :: g) = Ok None.
Proof.
  intros read number db a f g A F G. unfold get_filter. replace (a ++ lit ":file:" ++ f ++ ":"%char :: g) with (joined [a; lit "file"; f; g] [colon]) by (cbn [joined]; reflexivity).
  rewrite split_free; [reflexivity|discriminate|]. repeat (constructor; [first [assumption|cbn; unfold colon; intuition discriminate]|]). constructor.
Qed.
Print Assumptions C106_path_refuted.
(* Finding: a file without any line of data is read out of bounds. *)
Theorem C106_empty_UB : forall read file, read file = Ok (Some ([], [])) -> from_file read file = UB.
Proof. intros read file E. unfold from_file. rewrite E. reflexivity. Qed.
Print Assumptions C106_empty_UB.
(* Finding: the wavelength of a filter from a file assumes that its integral is 1: a response twice
   as large has a wavelength twice as long. *)
Theorem C106_scale_refuted : forall read read' file lam res f f', lam <> [] -> length lam = length res -> read file = Ok (Some (lam, res)) -> read' file = Ok (Some (lam, map (fun x => 2 * x)%Q res)) ->
  from_file read file = Ok (Some f) -> from_file read' file = Ok (Some f') -> (f_rlam f' == 2 * f_rlam f)%Q.
Proof.
  intros read read' file lam res f f' N L R R' E E'. destruct (C106_file read file lam res R L N) as (r & E1 & V). destruct (C106_file read' file lam _ R' ltac:(rewrite map_length; exact L) N) as (r' & E2 & V').
  rewrite E1 in E. injection E as <-. rewrite E2 in E'. injection E' as <-. cbn [f_rlam]. rewrite V, V'. clear. unfold trap_sum, sum_with, segments.
  revert res. induction lam as [|x lam IH]; intros [|y res]; cbn [map combine tl fold_right]; try reflexivity.
  destruct lam as [|x2 lam], res as [|y2 res]; cbn [map combine tl fold_right fst snd]; try reflexivity.
  specialize (IH (y2 :: res)). cbn [map combine tl fst snd] in IH. match goal with |- (trap ?a + ?b == 2 * (trap ?c + ?d))%Q => transitivity (2 * trap c + 2 * d)%Q; [apply Qplus_comp; [unfold trap; cbn [fst snd]; field|exact IH]|ring] end.
Qed.
Print Assumptions C106_scale_refuted.
(* Finding: with the bounds exchanged the response is negative; it is not a number for the bounds 0. *)
Theorem C106_bounds_refuted : (exists f h, range_filter 2 1 = Ok f /\ nth_error (f_res f) 2 = Some (Some h) /\ (h < 0)%Q) /\
  (exists f, range_filter 0 0 = Ok f /\ nth_error (f_res f) 2 = Some None).
Proof. split; [do 2 eexists; split; [reflexivity|]; split; reflexivity|]. eexists. split; reflexivity. Qed.
Print Assumptions C106_bounds_refuted.
