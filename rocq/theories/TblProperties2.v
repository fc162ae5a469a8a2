(* C111: elements of columns of FITS tables. *)
From Coq Require Import Ascii String ZifyBool.
From Verif Require Import Base StrModel TblModel TblSpec TblProofs TblProofs2 TblProofs3.
Local Open Scope list_scope.
Definition txt (s : string) : str := list_ascii_of_string s.

(* writing a vector of numbers puts it in the table; what is in the table is what read_column gives *)
Theorem C111_write t n ty ds data : sound t -> absent t n -> ds <> [] -> List.length data = nprod ds -> fits_in t ds -> ty <> Strg ->
  (tfmt t = Rows -> 2 <= List.length ds) -> exists t', write_column t n (Vec ty ds data) = Ok t' /\ holding t' n ty ds data.
Proof. apply holding_write. Qed.
Print Assumptions C111_write.
Theorem C111_read o t n ty ds data : holding t n ty ds data -> ~ forgotten t ty ds -> Forall (holds ty) data ->
  read_column o t n (IntoVec ty (List.length ds)) = Ok (Read (Vec ty ds data)).
Proof. apply holding_read. Qed.
Print Assumptions C111_read.
(* the dimensions are reported in the order of the vector, with the type *)
Theorem C111_info t n ty ds data : holding t n ty ds data -> Forall (holds ty) data -> (ty = Bool \/ ty = Char -> nprod ds <> 0) ->
  exists i k, column_info t n = Ok (Some (i, k, ds)) /\ In k (reported ty).
Proof.
  intros H F Z. destruct (info_ok _ _ _ _ _ H F Z) as (a & b & k & _ & C & I). eauto.
Qed.
Print Assumptions C111_info.
(* indices of the first dimensions followed by ranges select a block of the array *)
Theorem C111_read_block o t n ty ds data u ids nr : holding t n ty ds data -> Forall (holds ty) data -> Forall (shared ty u) data ->
  (forall k, In k (reported ty) -> check_type o u k = true) -> (ty = Bool \/ ty = Char -> nprod ds <> 0) ->
  valid ds ids -> List.length ids + nr = List.length ds -> 0 < nr ->
  read_elements o t n (IntoVec u nr) ids nr = Ok (Vec u (skipn (List.length ids) ds) (firstn (nprod (skipn (List.length ids) ds)) (skipn (place ds ids) data))).
Proof.
  intros H F S C Z V L P. apply (read_elements_ok o t n ty ds data u ids nr); auto. apply C. destruct ty; cbn; auto.
Qed.
Print Assumptions C111_read_block.
(* all the indices select an element *)
Theorem C111_read_element o t n ty ds data u ids : holding t n ty ds data -> Forall (holds ty) data -> Forall (shared ty u) data ->
  (forall k, In k (reported ty) -> check_type o u k = true) -> (ty = Bool \/ ty = Char -> nprod ds <> 0) ->
  valid ds ids -> List.length ids = List.length ds ->
  exists x, nth_error data (place ds ids) = Some x /\ read_elements o t n (IntoScal u) ids 0 = Ok (Scal u x).
Proof.
  intros H F S C Z V L. apply (read_elements_ok o t n ty ds data u ids 0); auto; [apply C; destruct ty; cbn; auto|lia].
Qed.
Print Assumptions C111_read_element.
(* places are row-major: two sets of indices select the same element only if they are equal *)
Theorem C111_places ds ids ids' : valid ds ids -> valid ds ids' -> List.length ids = List.length ds -> List.length ids' = List.length ds ->
  place ds ids < nprod ds /\ (place ds ids = place ds ids' -> ids = ids').
Proof.
  revert ids ids'. induction ds as [|d ds IH]; intros [|i ids] [|i' ids'] V V' L L'; try discriminate; [split; [cbv; lia|reflexivity]|].
  destruct V as (V & W), V' as (V' & W'). injection L as L. injection L' as L'. cbn [place]. rewrite nprod_cons.
  destruct (IH ids ids' W W' L L') as (B & U). destruct (IH ids' ids W' W L' L) as (B' & _). split; [clear - V B; nia|]. intros E.
  assert (Ei : i = i') by (clear - E B B'; nia). subst i'. f_equal. apply U. lia.
Qed.
Print Assumptions C111_places.
(* updating a block or an element replaces it, and nothing else in the table *)
Theorem C111_update_block t n ty ds data ids nr new : holding t n ty ds data -> Forall (holds ty) data -> ty <> Char -> (ty = Bool -> nprod ds <> 0) ->
  valid ds ids -> List.length ids + nr = List.length ds -> List.length new = nprod (skipn (List.length ids) ds) -> 0 < nr ->
  exists t', update_elements t n (Vec ty (skipn (List.length ids) ds) new) ids nr = Ok t' /\ holding t' n ty ds (replaced data new (place ds ids)) /\
    forall o m g, to_upper m <> to_upper n -> read_column o t' m g = read_column o t m g.
Proof. intros H F T Z V L Ln P. apply (update_elements_ok t n ty ds data ids nr new); auto. Qed.
Print Assumptions C111_update_block.
Theorem C111_update_element t n ty ds data ids x : holding t n ty ds data -> Forall (holds ty) data -> ty <> Char -> (ty = Bool -> nprod ds <> 0) ->
  valid ds ids -> List.length ids = List.length ds ->
  exists t', update_elements t n (Scal ty x) ids 0 = Ok t' /\ holding t' n ty ds (replaced data [x] (place ds ids)) /\
    forall o m g, to_upper m <> to_upper n -> read_column o t' m g = read_column o t m g.
Proof.
  intros H F T Z V L. apply (update_elements_ok t n ty ds data ids 0 [x]); auto; [lia| |right; eauto].
  rewrite L, skipn_all. reflexivity.
Qed.
Print Assumptions C111_update_element.
(* the wrong number of indices, an index out of bounds, a block of other dimensions, an unknown column: aborts *)
Theorem C111_wrong_count o t n ty ds data g v ids nr : holding t n ty ds data -> Forall (holds ty) data -> (ty = Bool \/ ty = Char -> nprod ds <> 0) ->
  List.length ids + nr <> List.length ds -> read_elements o t n g ids nr = CheckFail /\ update_elements t n v ids nr = CheckFail.
Proof.
  intros H F Z L. destruct (info_ok _ _ _ _ _ H F Z) as (a & b & k & _ & C & I). unfold read_elements, update_elements. rewrite C. cbn [obind].
  replace (List.length ids + nr =? List.length ds) with false by lia. split; reflexivity.
Qed.
Print Assumptions C111_wrong_count.
Theorem C111_bounds o t n ty ds data g v ids nr : holding t n ty ds data -> Forall (holds ty) data -> (ty = Bool \/ ty = Char -> nprod ds <> 0) ->
  ~ valid ds ids -> read_elements o t n g ids nr = CheckFail /\ update_elements t n v ids nr = CheckFail.
Proof.
  intros H F Z V. destruct (info_ok _ _ _ _ _ H F Z) as (a & b & k & E & C & I). assert (B := first_bad (tfmt t) ds ids [] 0 0 V). cbn [app List.length] in B.
  unfold read_elements, update_elements. rewrite C. cbn [obind]. destruct (_ =? _); [|split; reflexivity]. cbn [check obind]. split.
  - destruct (check_type _ _ _); [|reflexivity]. cbn [check obind]. rewrite E. rewrite nth_app_mid.
    destruct g as [u d|u]; [unfold last_dims; destruct (d <=? List.length ds); [|reflexivity]|]; cbn [obind]; rewrite B; reflexivity.
  - destruct v as [u dv x|u x].
    + unfold last_dims. destruct (List.length dv <=? List.length ds); [|reflexivity]. cbn [obind]. destruct (sameb _ _); [|reflexivity]. cbn [check obind].
      destruct (is_convertible_narrow _ _); [|reflexivity]. cbn [check obind]. rewrite B. reflexivity.
    + destruct (is_convertible_narrow _ _); [|reflexivity]. cbn [check obind]. rewrite B. reflexivity.
Qed.
Print Assumptions C111_bounds.

(* Finding: in a row-oriented table a vec<1> is reported with the dimensions n, 1: the natural at(i) aborts, at(i,0) works *)
Theorem C111_rows_abort : exists t, write_column (create_table Rows) (txt "a") (Vec Int [3] [Num 5; Num 6; Num 7]) = Ok t /\
  column_info t (txt "a") = Ok (Some (0, FLonglong, [3; 1])) /\
  read_elements strict t (txt "a") (IntoScal Int) [1] 0 = CheckFail /\ update_elements t (txt "a") (Scal Int (Num 0)) [1] 0 = CheckFail /\
  read_elements strict t (txt "a") (IntoScal Int) [1; 0] 0 = Ok (Scal Int (Num 6)).
Proof. exists (Tab Rows 3 [Col (txt "A") FLonglong 1 1 None [Num 5; Num 6; Num 7]]). repeat split; reflexivity. Qed.
Print Assumptions C111_rows_abort.
(* Finding: the type reported for bools depends on their values (all true: byte; with one false: boolean), so that elements
   of a bool column can be read as integers, as read_column allows, or abort *)
Theorem C111_bool_abort : exists t u,
  write_column (create_table Cols) (txt "a") (Vec Bool [2] [Num 1; Num 1]) = Ok t /\ write_column (create_table Cols) (txt "a") (Vec Bool [2] [Num 1; Num 0]) = Ok u /\
  column_info t (txt "a") = Ok (Some (0, FByte, [2])) /\ column_info u (txt "a") = Ok (Some (0, FLogical, [2])) /\
  read_elements strict t (txt "a") (IntoScal Int) [0] 0 = Ok (Scal Int (Num 1)) /\ read_elements strict u (txt "a") (IntoScal Int) [0] 0 = CheckFail /\
  read_column strict u (txt "a") (IntoVec Int 1) = Ok (Read (Vec Int [2] [Num 1; Num 0])).
Proof.
  exists (Tab Cols 1 [Col (txt "A") FByte 1 2 (Some [2]) [Num 1; Num 1]]), (Tab Cols 1 [Col (txt "A") FByte 1 2 (Some [2]) [Num 1; Num 0]]). repeat split; reflexivity.
Qed.
Print Assumptions C111_bool_abort.
(* Finding: a column of chars which are all 0 or 1, with a 0, cannot be updated *)
Theorem C111_char_abort : exists t, write_column (create_table Cols) (txt "a") (Vec Char [2] [Num 1; Num 0]) = Ok t /\
  update_elements t (txt "a") (Scal Char (Num 5)) [0] 0 = CheckFail /\ read_elements strict t (txt "a") (IntoScal Char) [0] 0 = CheckFail.
Proof. exists (Tab Cols 1 [Col (txt "A") FByte 1 2 (Some [2]) [Num 1; Num 0]]). repeat split; reflexivity. Qed.
Print Assumptions C111_char_abort.
(* Finding: the information on a column of bools without elements aborts *)
Theorem C111_empty_abort : exists t, write_column (create_table Cols) (txt "a") (Vec Bool [0] []) = Ok t /\ column_info t (txt "a") = CheckFail.
Proof. exists (Tab Cols 1 [Col (txt "A") FByte 1 0 (Some [0]) []]). split; reflexivity. Qed.
Print Assumptions C111_empty_abort.
(* Finding: the number of dimensions of the value is not compared with the number of ranges: a larger block runs over the end of
   the column and adds a row to a column-oriented table, which will be opened as row-oriented; a smaller one is cut *)
Theorem C111_overrun_refuted : exists t t', write_column (create_table Cols) (txt "a") (Vec Int [2; 2] [Num 1; Num 2; Num 3; Num 4]) = Ok t /\
  update_elements t (txt "a") (Vec Int [2; 2] [Num 5; Num 6; Num 7; Num 8]) [1] 1 = Ok t' /\ tnrow t' = 2 /\ tfmt (reopen t) = Cols /\ tfmt (reopen t') = Rows /\
  read_elements strict t (txt "a") (IntoVec Int 2) [0] 1 = Ok (Vec Int [2; 2] [Num 1; Num 2; Num 3; Num 4]) /\
  read_elements strict t (txt "a") (IntoScal Int) [0] 1 = Ok (Scal Int (Num 1)).
Proof.
  exists (Tab Cols 1 [Col (txt "A") FLonglong 1 4 (Some [2; 2]) [Num 1; Num 2; Num 3; Num 4]]),
    (Tab Cols 2 [Col (txt "A") FLonglong 1 4 (Some [2; 2]) [Num 1; Num 2; Num 5; Num 6; Num 7; Num 8; Num 0; Num 0]]).
  repeat split; reflexivity.
Qed.
Print Assumptions C111_overrun_refuted.

Example held : holding (Tab Rows 2 [Col (txt "POS") FShort 1 3 (Some [3]) (map Num [1; 2; 3; 4; 5; 6]%Z)]) (txt "pos") Short [2; 3] (map Num [1; 2; 3; 4; 5; 6]%Z).
Proof.
  split; [split; [discriminate|intros c [<-|[]]; reflexivity]|]. split; [reflexivity|]. split; [discriminate|].
  exists [], (Col (txt "POS") FShort 1 3 (Some [3]) (map Num [1; 2; 3; 4; 5; 6]%Z)), []. repeat split; try reflexivity. intros d [].
Qed.
Example elements :
  let t := Tab Rows 2 [Col (txt "POS") FShort 1 3 (Some [3]) (map Num [1; 2; 3; 4; 5; 6]%Z)] in
  valid [2; 3] [1; 2] /\ place [2; 3] [1; 2] = 5 /\
  read_elements strict t (txt "pos") (IntoScal Int) [1; 2] 0 = Ok (Scal Int (Num 6)) /\
  read_elements strict t (txt "pos") (IntoVec Int 1) [1] 1 = Ok (Vec Int [3] (map Num [4; 5; 6]%Z)) /\
  update_elements t (txt "pos") (Vec Short [3] (map Num [7; 8; 9]%Z)) [0] 1 =
    Ok (Tab Rows 2 [Col (txt "POS") FShort 1 3 (Some [3]) (map Num [7; 8; 9; 4; 5; 6]%Z)]) /\
  read_elements strict t (txt "pos") (IntoScal Int) [2; 0] 0 = CheckFail.
Proof. cbn zeta. split; [cbn; repeat split; lia|]. repeat split; reflexivity. Qed.
(* a block whose dimensions are not the last ones of the column aborts *)
Theorem C111_wrong_dims t n ty ds data u dv x ids nr : holding t n ty ds data -> Forall (holds ty) data -> (ty = Bool \/ ty = Char -> nprod ds <> 0) ->
  (forall a, ds <> a ++ dv) -> update_elements t n (Vec u dv x) ids nr = CheckFail.
Proof.
  intros H F Z N. destruct (info_ok _ _ _ _ _ H F Z) as (a & b & k & _ & C & _). unfold update_elements. rewrite C. cbn [obind].
  destruct (_ =? _); [|reflexivity]. cbn [check obind]. unfold last_dims. destruct (List.length dv <=? List.length ds); [|reflexivity]. cbn [obind].
  destruct (sameb dv (skipn (List.length ds - List.length dv) ds)) eqn:S; [|reflexivity]. exfalso.
  apply sameb_eq in S. apply (N (firstn (List.length ds - List.length dv) ds)). rewrite S at 2. now rewrite firstn_skipn.
Qed.
Print Assumptions C111_wrong_dims.
(* a column of bytes is called boolean exactly when its first row has a 0 and nothing but 0 and 1 above *)
Theorem C111_boolean t n ty ds data : holding t n ty ds data -> Forall (holds ty) data -> ty = Bool \/ ty = Char -> nprod ds <> 0 ->
  exists i k, column_info t n = Ok (Some (i, k, ds)) /\
    let row := firstn (match tfmt t with Rows => nprod (tl ds) | Cols => nprod ds end) data in
    (k = FLogical <-> In (Num 0) row /\ forall z, In (Num z) row -> (0 <= z <= 1)%Z).
Proof. apply boolean_ok. Qed.
Print Assumptions C111_boolean.
