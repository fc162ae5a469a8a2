(* C110: columns of FITS tables. *)
From Coq Require Import Ascii String ZifyBool.
From Verif Require Import Base StrModel TblModel TblSpec TblProofs TblProofs2.
From Verif Require NumModel DsregModel DsregSpec DsregProofs.
Local Open Scope list_scope.
Definition txt (s : string) : str := list_ascii_of_string s.

(* a vector written under a new name is read back with its dimensions and its elements, whatever the
   options and the case of the name *)
Theorem C110_write_read t n ty ds data : sound t -> absent t n -> ds <> [] -> List.length data = nprod ds -> fits_in t ds ->
  ~ forgotten t ty ds -> Forall (holds ty) data ->
  exists t', write_column t n (Vec ty ds data) = Ok t' /\ sound t' /\ tfmt t' = tfmt t /\
    forall o m, to_upper m = to_upper n -> read_column o t' m (IntoVec ty (List.length ds)) = Ok (Read (Vec ty ds data)).
Proof.
  intros S A N L F G H. eexists. split; [now apply write_vec|]. split; [now apply sound_new|]. split; [reflexivity|]. intros o m Em.
  rewrite (read_vec o t n m ty ds data ty) by (auto; try apply check_self; now apply shared_self). now rewrite Nat.sub_diag.
Qed.
Print Assumptions C110_write_read.
(* with another type, with more dimensions (dim_promote), or as a flat list (flatten) *)
Theorem C110_read_as t n ty ds data : sound t -> absent t n -> ds <> [] -> List.length data = nprod ds -> fits_in t ds -> ~ forgotten t ty ds ->
  exists t', write_column t n (Vec ty ds data) = Ok t' /\
    forall o m u, to_upper m = to_upper n -> check_type o u (tform ty) = true -> Forall (shared ty u) data ->
      (forall dim, dim = List.length ds \/ (List.length ds < dim /\ promote o = true) ->
        read_column o t' m (IntoVec u dim) = Ok (Read (Vec u (repeat 1 (dim - List.length ds) ++ ds) data))) /\
      (1 < List.length ds -> flat o = true -> ty <> Strg -> read_column o t' m (IntoVec u 1) = Ok (Read (Vec u [nprod ds] data))).
Proof.
  intros S A N L F G. eexists. split; [now apply write_vec|]. intros o m u Em C H. split.
  - intros dim D. now apply read_vec.
  - intros D P Q. apply read_flat; auto. now destruct ty.
Qed.
Print Assumptions C110_read_as.
(* anything else is refused: the wrong number of dimensions without the option, the wrong type *)
Theorem C110_refused t n ty ds data : sound t -> absent t n -> ds <> [] -> List.length data = nprod ds -> fits_in t ds -> ~ forgotten t ty ds ->
  exists t', write_column t n (Vec ty ds data) = Ok t' /\
    forall o m u dim, to_upper m = to_upper n -> 0 < dim ->
      check_type o u (tform ty) = false \/ (List.length ds < dim /\ promote o = false) \/ (dim < List.length ds /\ (dim <> 1 \/ flat o = false \/ u = Strg)) ->
      read_column o t' m (IntoVec u dim) = Ok Refused /\ read_or_die o t' m (IntoVec u dim) = CheckFail.
Proof.
  intros S A N L F G. eexists. split; [now apply write_vec|]. intros o m u dim Em Dp D.
  assert (R : read_column o (Tab (tfmt t) (rows (tfmt t) ds) (tcols t ++ [new_col n ty (vdims (tfmt t) ty ds data) (map (encode ty) data)])) m (IntoVec u dim) = Ok Refused)
    by now apply read_refused.
  split; [exact R|]. unfold read_or_die. now rewrite R.
Qed.
Print Assumptions C110_refused.
(* the types: a column of numbers can be read in a type that is wide enough; narrow removes the condition
   between numbers; strings only as strings *)
Theorem C110_types t u :
  (t <> Strg -> u <> Strg -> check_type (Opts true false false false) u (tform t) = true <->
     In (u, t) (list_prod [Float; Double] [Bool; Char; Short; Int; Uint; Float; Double] ++ list_prod [Bool; Char; Short; Int; Uint] [Bool; Char; Short; Int; Uint])) /\
  (forall o, check_type o u (tform t) = true -> (u = Strg <-> t = Strg)) /\
  (check_type strict u (tform t) = true <->
     In (u, t) ([(Strg, Strg); (Bool, Bool); (Bool, Char); (Char, Bool); (Char, Char)] ++ list_prod [Short] [Bool; Char; Short] ++
       list_prod [Int; Uint] [Bool; Char; Short; Int; Uint] ++ list_prod [Float] [Bool; Char; Short; Int; Uint; Float] ++
       list_prod [Double] [Bool; Char; Short; Int; Uint; Float; Double])).
Proof.
  split; [|split].
  - intros T U. destruct t; try congruence; destruct u; try congruence; cbn; intuition congruence.
  - intros o H. apply check_type_narrow in H. destruct t, u; try discriminate H; intuition congruence.
  - destruct t, u; cbn; intuition congruence.
Qed.
Print Assumptions C110_types.
(* the other columns are not affected *)
Theorem C110_others t n ty ds data : sound t -> ds <> [] -> List.length data = nprod ds -> fits_in t ds ->
  exists t', write_column t n (Vec ty ds data) = Ok t' /\ map cname (tcols t') = map cname (tcols t) ++ [to_upper n] /\
    forall o m g, to_upper m <> to_upper n -> read_column o t' m g = read_column o t m g.
Proof.
  intros S N L F. eexists. split; [now apply write_vec|]. split; [cbn [tcols]; now rewrite map_app|].
  intros o m g H. now apply others.
Qed.
Print Assumptions C110_others.
(* the rows of a row-oriented table are those of its first column: another number of rows aborts *)
Theorem C110_wrong_rows t n ty ds data : tfmt t = Rows -> tcols t <> [] -> hd 0 ds <> tnrow t ->
  write_column t n (Vec ty ds data) = CheckFail.
Proof.
  intros F C H. unfold write_column, create_column. rewrite write_dims_vec, F. cbn [rows].
  destruct (tcols t); [congruence|]. replace (hd 0 ds =? tnrow t) with false by lia. reflexivity.
Qed.
Print Assumptions C110_wrong_rows.
(* a column which does not exist *)
Theorem C110_missing t m : absent t m -> forall o g,
  read_column o t m g = Ok (if missing o then Unchanged else Refused) /\ (missing o = false -> read_or_die o t m g = CheckFail).
Proof. intros A o g. unfold read_or_die. rewrite read_absent by exact A. split; [reflexivity|]. intros ->. reflexivity. Qed.
Print Assumptions C110_missing.
(* removing a column: it is gone, the others stay; removing a column which is not there does nothing *)
Theorem C110_remove t n : sound t -> single t n ->
  sound (remove_column t n) /\ absent (remove_column t n) n /\
  forall o m g, to_upper m <> to_upper n -> read_column o (remove_column t n) m g = read_column o t m g.
Proof.
  intros S (a & c & b & E & En & H). destruct t as [f k cs]. cbn [tcols] in E. subst cs. rewrite remove_single by assumption.
  split; [now apply sound_less in S|]. split; [exact H|]. intros o m g D. symmetry. apply read_frame. congruence.
Qed.
Print Assumptions C110_remove.
Theorem C110_remove_absent t n : absent t n -> remove_column t n = t.
Proof. apply remove_absent. Qed.
Print Assumptions C110_remove_absent.
(* update_column replaces the column, which becomes the last one *)
Theorem C110_update t n ty ds data : sound t -> absent t n \/ single t n -> ds <> [] -> List.length data = nprod ds ->
  fits_in (remove_column t n) ds -> ~ forgotten t ty ds -> Forall (holds ty) data ->
  exists t', update_column t n (Vec ty ds data) = Ok t' /\ sound t' /\
    (forall o m, to_upper m = to_upper n -> read_column o t' m (IntoVec ty (List.length ds)) = Ok (Read (Vec ty ds data))) /\
    (forall o m g, to_upper m <> to_upper n -> read_column o t' m g = read_column o t m g) /\
    map cname (tcols t') = map cname (tcols (remove_column t n)) ++ [to_upper n].
Proof.
  intros S P N L F G H.
  assert (K : sound (remove_column t n) /\ absent (remove_column t n) n /\ (forall o m g, to_upper m <> to_upper n -> read_column o (remove_column t n) m g = read_column o t m g) /\
    tfmt (remove_column t n) = tfmt t).
  { destruct P as [P|P].
    - rewrite remove_absent by exact P. auto.
    - destruct (C110_remove t n S P) as (K1 & K2 & K3). repeat split; try assumption; try apply K1. unfold remove_column. now destruct (get_colnum t n). }
  destruct K as (K1 & K2 & K3 & K4). unfold update_column.
  destruct (C110_write_read (remove_column t n) n ty ds data K1 K2 N L F) as (t' & E & S' & _ & R); [|exact H|].
  { unfold forgotten in *. rewrite K4. exact G. }
  exists t'. split; [exact E|]. split; [exact S'|]. split; [exact R|].
  destruct (C110_others (remove_column t n) n ty ds data K1 N L F) as (t'' & E' & Nm & O). assert (t'' = t') by congruence. subst t''.
  split; [|exact Nm]. intros o m g D. rewrite (O o m g D). now apply K3.
Qed.
Print Assumptions C110_update.
(* scalars; strings only in column-oriented tables *)
Theorem C110_scalar t n ty x : sound t -> absent t n -> tfmt t = Cols \/ (tcols t = [] /\ tnrow t = 0 /\ ty <> Strg) -> holds ty x ->
  (ty = Strg -> x <> Txt []) ->
  exists t', write_column t n (Scal ty x) = Ok t' /\
    forall o m, to_upper m = to_upper n -> read_column o t' m (IntoScal ty) = Ok (Read (Scal ty x)).
Proof.
  intros S A F H E. assert (Nt : nothing ty x = false).
  { unfold nothing. destruct ty; try reflexivity. destruct x as [z|[|c s]]; try reflexivity; [destruct H|]. now destruct (E eq_refl). }
  eexists. split; [apply write_scal; [exact S| |exact Nt]|].
  - destruct F as [F|(F & F' & _)]; [left; now apply (proj1 S)|right; auto].
  - intros o m Em. apply read_scal; auto; [apply check_self|split; [exact H|split; [exact H|congruence]]|].
    destruct F as [F|(_ & _ & F)]; [now left|right; now destruct ty].
Qed.
Print Assumptions C110_scalar.
(* allocate_column is writing zeros *)
Theorem C110_allocate t n ty ds : sound t -> ds <> [] -> ty <> Strg -> fits_in t ds -> (tcols t = [] -> tnrow t = 0 \/ tfmt t = Cols) ->
  allocate_column t n ty ds = write_column t n (Vec ty ds (repeat (Num 0) (nprod ds))).
Proof. intros S N T F Z. apply allocate_write; auto. now destruct ty. Qed.
Print Assumptions C110_allocate.
(* a new table is sound; opening the file again finds the orientation of a table with columns, unless it
   is row-oriented with a single row *)
Theorem C110_create f n : sound (create_table f) /\ absent (create_table f) n.
Proof. split; [split; [intros E; destruct f; [discriminate|reflexivity]|intros c []]|intros c []]. Qed.
Print Assumptions C110_create.
Theorem C110_reopen t : sound t -> tcols t <> [] -> (tfmt t = Rows -> tnrow t <> 1) -> reopen t = t.
Proof.
  intros (S & _) N H. unfold reopen. rewrite <- (tab_eta t) at 4. f_equal. unfold table_format. destruct (tcols t); [congruence|].
  destruct (tfmt t); [|now rewrite S]. assert (tnrow t <> 1) by now apply H. replace ((1 <? tnrow t) || (tnrow t =? 0)) with true by lia. reflexivity.
Qed.
Print Assumptions C110_reopen.

(* Finding: two columns may be written under the same name; then neither can be read, nor removed, and
   update_column adds a third one *)
Theorem C110_duplicate_refuted : exists t n v w t1 t2 t3, sound t /\ absent t n /\ write_column t n v = Ok t1 /\ write_column t1 n w = Ok t2 /\
  read_column strict t2 n (IntoVec Int 1) = Ok Refused /\ remove_column t2 n = t2 /\
  update_column t2 n v = Ok t3 /\ List.length (tcols t3) = 3 /\ read_column strict t3 n (IntoVec Int 1) = Ok Refused.
Proof.
  exists (create_table Cols), (txt "a"), (Vec Int [2] [Num 1; Num 2]), (Vec Int [1] [Num 5]),
    (Tab Cols 1 [Col (txt "A") FLonglong 1 2 (Some [2]) [Num 1; Num 2]]), (Tab Cols 1 [Col (txt "A") FLonglong 1 2 (Some [2]) [Num 1; Num 2]; Col (txt "A") FLonglong 1 1 (Some [1]) [Num 5]]),
    (Tab Cols 1 [Col (txt "A") FLonglong 1 2 (Some [2]) [Num 1; Num 2]; Col (txt "A") FLonglong 1 1 (Some [1]) [Num 5]; Col (txt "A") FLonglong 1 2 (Some [2]) [Num 1; Num 2]]).
  split; [apply (C110_create Cols [])|]. split; [apply (C110_create Cols)|]. repeat split; reflexivity.
Qed.
Print Assumptions C110_duplicate_refuted.
(* Finding: in a row-oriented table, a vec<2> of n rows of one element is not read back: the file is
   the one of a vec<1>.  With dim_promote it comes back as one row of n elements *)
Theorem C110_one_column_refuted : exists t', write_column (create_table Rows) (txt "a") (Vec Int [2; 1] [Num 5; Num 7]) = Ok t' /\
  read_column strict t' (txt "a") (IntoVec Int 2) = Ok Refused /\
  read_column (Opts false false true false) t' (txt "a") (IntoVec Int 2) = Ok (Read (Vec Int [1; 2] [Num 5; Num 7])).
Proof.
  exists (Tab Rows 2 [Col (txt "A") FLonglong 1 1 (Some [1]) [Num 5; Num 7]]). repeat split; reflexivity.
Qed.
Print Assumptions C110_one_column_refuted.
(* Finding: a row-oriented table of a single row is taken for a column-oriented one when the file is
   opened again, and its vec<2> is refused *)
Theorem C110_one_row_refuted : exists t', write_column (create_table Rows) (txt "a") (Vec Int [1; 2] [Num 5; Num 7]) = Ok t' /\
  read_column strict t' (txt "a") (IntoVec Int 2) = Ok (Read (Vec Int [1; 2] [Num 5; Num 7])) /\
  read_column strict (reopen t') (txt "a") (IntoVec Int 2) = Ok Refused.
Proof.
  exists (Tab Rows 1 [Col (txt "A") FLonglong 1 2 (Some [2]) [Num 5; Num 7]]). repeat split; reflexivity.
Qed.
Print Assumptions C110_one_row_refuted.
(* Finding: nothing is written for an empty vector, so that a row-oriented table forgets how many rows it
   has; a second column with as many rows then aborts *)
Theorem C110_empty_rows_abort : exists t', write_column (create_table Rows) (txt "a") (Vec Int [3; 0] []) = Ok t' /\
  read_column strict t' (txt "a") (IntoVec Int 2) = Ok (Read (Vec Int [0; 0] [])) /\
  write_column t' (txt "b") (Vec Int [3] [Num 1; Num 2; Num 3]) = CheckFail.
Proof.
  exists (Tab Rows 0 [Col (txt "A") FLonglong 1 0 (Some [0]) []]). repeat split; reflexivity.
Qed.
Print Assumptions C110_empty_rows_abort.
(* Finding: updating the only column of a row-oriented table with fewer rows keeps the old number of
   rows: the values read back end with zeros *)
Theorem C110_update_only_refuted : exists t' t'', write_column (create_table Rows) (txt "a") (Vec Int [3] [Num 1; Num 2; Num 3]) = Ok t' /\
  sound t' /\ single t' (txt "a") /\ update_column t' (txt "a") (Vec Int [2] [Num 8; Num 9]) = Ok t'' /\
  read_column strict t'' (txt "a") (IntoVec Int 1) = Ok (Read (Vec Int [3] [Num 8; Num 9; Num 0])).
Proof.
  exists (Tab Rows 3 [Col (txt "A") FLonglong 1 1 None [Num 1; Num 2; Num 3]]), (Tab Rows 3 [Col (txt "A") FLonglong 1 1 None [Num 8; Num 9; Num 0]]).
  split; [reflexivity|]. split; [split; [discriminate|intros c [<-|[]]; reflexivity]|].
  split; [exists [], (Col (txt "A") FLonglong 1 1 None [Num 1; Num 2; Num 3]), []; split; [reflexivity|]; split; [reflexivity|intros d []]|]. split; reflexivity.
Qed.
Print Assumptions C110_update_only_refuted.
(* Finding: a scalar can be read from a row-oriented column of many rows: it is the first one, although a
   scalar is refused from a vector in a column-oriented table *)
Theorem C110_scalar_of_rows_refuted : exists t' t'', write_column (create_table Rows) (txt "a") (Vec Int [3] [Num 1; Num 2; Num 3]) = Ok t' /\
  write_column (create_table Cols) (txt "a") (Vec Int [3] [Num 1; Num 2; Num 3]) = Ok t'' /\
  read_column strict t' (txt "a") (IntoScal Int) = Ok (Read (Scal Int (Num 1))) /\ read_column strict t'' (txt "a") (IntoScal Int) = Ok Refused.
Proof.
  exists (Tab Rows 3 [Col (txt "A") FLonglong 1 1 None [Num 1; Num 2; Num 3]]), (Tab Cols 1 [Col (txt "A") FLonglong 1 3 (Some [3]) [Num 1; Num 2; Num 3]]). repeat split; reflexivity.
Qed.
Print Assumptions C110_scalar_of_rows_refuted.
(* Finding: a string written in a row-oriented table is not read back as a string without flatten *)
Theorem C110_row_string_refuted : exists t', write_column (create_table Rows) (txt "a") (Scal Strg (Txt (txt "hello"))) = Ok t' /\
  read_column strict t' (txt "a") (IntoScal Strg) = Ok Refused /\
  read_column (Opts false false false true) t' (txt "a") (IntoScal Strg) = Ok (Read (Scal Strg (Txt (txt "hello")))).
Proof.
  exists (Tab Rows 1 [Col (txt "A") FString 5 5 (Some [5]) [Txt (txt "hello")]]). repeat split; reflexivity.
Qed.
Print Assumptions C110_row_string_refuted.
(* Finding: strings lose the blanks around them *)
Theorem C110_blanks_refuted : exists t', write_column (create_table Cols) (txt "a") (Vec Strg [2] [Txt (txt " b"); Txt (txt "c ")]) = Ok t' /\
  read_column strict t' (txt "a") (IntoVec Strg 1) = Ok (Read (Vec Strg [2] [Txt (txt "b"); Txt (txt "c")])).
Proof.
  exists (Tab Cols 1 [Col (txt "A") FString 2 4 (Some [2; 2]) [Txt (txt " b"); Txt (txt "c ")]]). split; reflexivity.
Qed.
Print Assumptions C110_blanks_refuted.
(* Finding: without narrow, a negative integer is read as a huge unsigned one, an unsigned integer from 2^63
   on is read as a negative number, and a byte above 127 read as a char aborts instead of being refused *)
Theorem C110_signs_refuted : exists t1 t2 t3, write_column (create_table Cols) (txt "a") (Vec Int [1] [Num (-1)]) = Ok t1 /\
  read_column strict t1 (txt "a") (IntoVec Uint 1) = Ok (Read (Vec Uint [1] [Num (2 ^ 64 - 1)])) /\
  write_column (create_table Cols) (txt "a") (Vec Uint [1] [Num (2 ^ 63)]) = Ok t2 /\
  read_column strict t2 (txt "a") (IntoVec Double 1) = Ok (Read (Vec Double [1] [Num (- 2 ^ 63)])) /\
  t3 = Tab Cols 1 [Col (txt "A") FByte 1 1 (Some [1]) [Num 200]] /\ read_column strict t3 (txt "a") (IntoVec Char 1) = CheckFail /\
  read_column strict t3 (txt "a") (IntoVec Short 1) = Ok (Read (Vec Short [1] [Num 200])).
Proof.
  exists (Tab Cols 1 [Col (txt "A") FLonglong 1 1 (Some [1]) [Num (-1)]]), (Tab Cols 1 [Col (txt "A") FLonglong 1 1 (Some [1]) [Num (- 2 ^ 63)]]), (Tab Cols 1 [Col (txt "A") FByte 1 1 (Some [1]) [Num 200]]).
  repeat split; reflexivity.
Qed.
Print Assumptions C110_signs_refuted.

Example two_columns : exists t1 t2,
  write_column (create_table Rows) (txt "id") (Vec Uint [2] [Num 4; Num (2 ^ 63)]) = Ok t1 /\
  write_column t1 (txt "pos") (Vec Short [2; 3] (map Num [1; 2; 3; 4; 5; 6]%Z)) = Ok t2 /\ sound t2 /\
  read_column strict t2 (txt "ID") (IntoVec Uint 1) = Ok (Read (Vec Uint [2] [Num 4; Num (2 ^ 63)])) /\
  read_column strict t2 (txt "Pos") (IntoVec Double 2) = Ok (Read (Vec Double [2; 3] (map Num [1; 2; 3; 4; 5; 6]%Z))) /\
  read_column (Opts false false false true) t2 (txt "Pos") (IntoVec Int 1) = Ok (Read (Vec Int [6] (map Num [1; 2; 3; 4; 5; 6]%Z))) /\
  read_column strict (reopen t2) (txt "POS") (IntoVec Short 3) = Ok Refused.
Proof.
  exists (Tab Rows 2 [Col (txt "ID") FLonglong 1 1 None [Num 4; Num (- 2 ^ 63)]]), (Tab Rows 2 [Col (txt "ID") FLonglong 1 1 None [Num 4; Num (- 2 ^ 63)]; Col (txt "POS") FShort 1 3 (Some [3]) (map Num [1; 2; 3; 4; 5; 6]%Z)]).
  split; [reflexivity|]. split; [reflexivity|]. split; [split; [discriminate|intros c [<-|[<-|[]]]; reflexivity]|]. repeat split; reflexivity.
Qed.
Example strings : exists t1,
  write_column (create_table Cols) (txt "names") (Vec Strg [2; 1] [Txt (txt "ab"); Txt []]) = Ok t1 /\
  read_column strict t1 (txt "names") (IntoVec Strg 2) = Ok (Read (Vec Strg [2; 1] [Txt (txt "ab"); Txt []])) /\
  read_column (Opts false false true false) t1 (txt "names") (IntoVec Strg 3) = Ok (Read (Vec Strg [1; 2; 1] [Txt (txt "ab"); Txt []])) /\
  read_column strict t1 (txt "names") (IntoVec Strg 1) = Ok Refused.
Proof.
  exists (Tab Cols 1 [Col (txt "NAMES") FString 2 4 (Some [2; 1; 2]) [Txt (txt "ab"); Txt []]]). repeat split; reflexivity.
Qed.
Example updating : exists t1 t2 t3,
  write_column (create_table Cols) (txt "a") (Vec Int [2] [Num 1; Num 2]) = Ok t1 /\ write_column t1 (txt "b") (Scal Double (Num 3)) = Ok t2 /\
  update_column t2 (txt "a") (Vec Int [3] [Num 7; Num 8; Num 9]) = Ok t3 /\ map cname (tcols t3) = [txt "B"; txt "A"] /\
  read_column strict t3 (txt "a") (IntoVec Int 1) = Ok (Read (Vec Int [3] [Num 7; Num 8; Num 9])) /\
  read_column strict t3 (txt "b") (IntoScal Double) = Ok (Read (Scal Double (Num 3))) /\
  read_column strict (remove_column t3 (txt "b")) (txt "b") (IntoScal Double) = Ok Refused.
Proof.
  exists (Tab Cols 1 [Col (txt "A") FLonglong 1 2 (Some [2]) [Num 1; Num 2]]), (Tab Cols 1 [Col (txt "A") FLonglong 1 2 (Some [2]) [Num 1; Num 2]; Col (txt "B") FDouble 1 1 None [Num 3]]),
    (Tab Cols 1 [Col (txt "B") FDouble 1 1 None [Num 3]; Col (txt "A") FLonglong 1 3 (Some [3]) [Num 7; Num 8; Num 9]]). repeat split; reflexivity.
Qed.
