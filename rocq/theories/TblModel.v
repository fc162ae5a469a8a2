(* Columns of FITS tables.  Source: include/vif/io/fits/table.hpp (line numbers below) and
   io/fits/base.hpp.  The library goes through cfitsio, which is modelled here as a store: a table
   has a number of rows (NAXIS2) and columns, and a column has a name, a type, a repeat count, an
   optional TDIM and its cells, row after row.  The following is assumed of cfitsio, not proved:
   fits_get_colnum compares names without case and fails when no column or two columns have the name
   (wildcards are not modelled: names are plain); fits_insert_col makes a column of blank cells;
   fits_write_tdim needs the product of the dimensions to be the repeat count; fits_read_tdim gives
   the repeat count when there is no TDIM; fits_write_col writes cells in sequence and adds rows, of
   all the columns, when it goes past the last one; fits_read_col fails past the last row and when a
   value does not fit in the type asked for; fits_delete_col keeps the number of rows.
   Numbers are integers exact in all the types involved (rounding to float is not modelled, nor are
   null values); a string contains no NUL.  The 64-bit products of dimensions do not wrap: the data is
   in memory.  CheckFail is both a failed vif_check, which exits, and a fits::exception, which is thrown.
   ASCII tables and the reflected structures are not modelled. *)
From Coq Require Import Ascii.
From Verif Require Import Base StrModel.
From Verif Require NumModel DsregModel.

Notation str := (list ascii) (only parsing).
(* the C++ element types; the types of columns of files *)
Inductive vtype := Bool | Char | Short | Int | Uint | Float | Double | Strg.
Inductive ftype := FString | FLogical | FBit | FByte | FShort | FLong | FLonglong | FFloat | FDouble.
Inductive cell := Num (z : Z) | Txt (s : str).
(* a value of the program: vec<Dim,T> (Dim is the length of the dimensions) or a scalar *)
Inductive value := Vec (t : vtype) (dims : list nat) (data : list cell) | Scal (t : vtype) (x : cell).
Inductive format := Rows | Cols.
Record col := Col { cname : str; ctype : ftype; cwidth : nat; crepeat : nat; ctdim : option (list nat); ccells : list cell }.
Record tab := Tab { tfmt : format; tnrow : nat; tcols : list col }.
Record opts := Opts { narrow : bool; missing : bool; promote : bool; flat : bool }.   (* 13-27 *)

Definition is_string (t : vtype) : bool := match t with Strg => true | _ => false end.
Definition fis_string (t : ftype) : bool := match t with FString => true | _ => false end.

(* --- base.hpp 65-317: traits ------------------------------------------------- *)
(* the type of the column made from the letter tform; S is stored as bytes with an offset *)
Definition tform (t : vtype) : ftype :=
  match t with
  | Strg => FString | Bool => FByte | Char => FByte | Uint => FLonglong | Int => FLonglong
  | Short => FShort | Float => FFloat | Double => FDouble
  end.
Definition is_convertible (t : vtype) (f : ftype) : bool :=
  match t, f with
  | Strg, FString => true
  | Bool, (FLogical | FBit | FByte) => true
  | Char, FByte => true
  | (Uint | Int), (FShort | FLong | FLonglong | FBit | FByte) => true
  | Short, (FShort | FBit | FByte) => true
  | Float, (FShort | FLong | FLonglong | FFloat | FBit | FByte) => true
  | Double, (FShort | FLong | FLonglong | FFloat | FDouble | FBit | FByte) => true
  | _, _ => false
  end.
Definition is_convertible_narrow (t : vtype) (f : ftype) : bool :=
  match t, f with
  | Strg, FString => true
  | Bool, (FLogical | FBit | FByte | FShort | FLong | FLonglong) => true
  | Char, (FByte | FShort | FLong | FLonglong) => true
  | (Uint | Int), (FShort | FLong | FLonglong | FBit | FByte) => true
  | Short, (FShort | FLong | FLonglong | FBit | FByte) => true
  | (Float | Double), (FShort | FLong | FLonglong | FFloat | FDouble | FBit | FByte) => true
  | _, _ => false
  end.
(* ttype: an unsigned integer is handed to cfitsio as the signed integer of the same bits *)
Definition encode (t : vtype) (x : cell) : cell :=
  match t, x with Uint, Num z => Num (to_signed64 z) | _, _ => x end.
Definition inside (lo hi z : Z) : outcome cell := if ((lo <=? z) && (z <=? hi))%Z then Ok (Num z) else CheckFail.
(* a cell of the file as an element of the program; strings are trimmed (line 424, 455) *)
Definition decode (t : vtype) (x : cell) : outcome cell :=
  match t, x with
  | Strg, Txt s => omap Txt (trim s DsregModel.white)
  | Bool, Num z => inside 0 255 z
  | Char, Num z => inside (-128) 127 z
  | Short, Num z => inside (-32768) 32767 z
  | Int, Num z => inside (- two63) (two63 - 1) z
  | Uint, Num z => z <- inside (- two63) (two63 - 1) z ;; match z with Num z => Ok (Num (wrap64 z)) | _ => UB end
  | (Float | Double), Num z => Ok (Num z)
  | _, _ => UB
  end.

(* --- cfitsio ------------------------------------------------------------------ *)
Definition blank (f : ftype) : cell := if fis_string f then Txt [] else Num 0.
(* the number of elements in one row of a column *)
Definition per_row (c : col) : nat := crepeat c / cwidth c.
Definition to_upper (s : str) : str := map NumModel.upper s.
Definition named (n : str) (c : col) : bool := if list_eq_dec ascii_dec (to_upper (cname c)) n then true else false.
Fixpoint find_from (n : str) (cs : list col) (i : nat) : list nat :=
  match cs with [] => [] | c :: cs => (if named n c then [i] else []) ++ find_from n cs (S i) end.
(* fits_get_colnum with the name in upper case; the index starts at 0 here *)
Definition get_colnum (t : tab) (n : str) : option nat :=
  match find_from (to_upper n) (tcols t) 0 with [i] => Some i | _ => None end.
Definition col_rows (n : nat) (c : col) : col :=
  Col (cname c) (ctype c) (cwidth c) (crepeat c) (ctdim c)
    (ccells c ++ repeat (blank (ctype c)) (n * per_row c - length (ccells c))).
Definition ceil_div (a b : nat) : nat := (a + (b - 1)) / b.
(* fits_write_col(cid, row, elem, n): the row and the element start at 1 *)
Definition write_cells (t : tab) (cid row elem : nat) (xs : list cell) : outcome tab :=
  match nth_error (tcols t) cid with
  | None => CheckFail
  | Some c =>
      if (row =? 0) || (elem =? 0) || (per_row c <? elem) then CheckFail
      else
        let pos := (row - 1) * per_row c + (elem - 1) in
        let n := max (tnrow t) (ceil_div (pos + length xs) (per_row c)) in
        let cs := map (col_rows n) (tcols t) in
        match nth_error cs cid with
        | None => CheckFail
        | Some c =>
            let d := firstn pos (ccells c) ++ xs ++ skipn (pos + length xs) (ccells c) in
            Ok (Tab (tfmt t) n (upd cs cid (Col (cname c) (ctype c) (cwidth c) (crepeat c) (ctdim c) d)))
        end
  end.
(* fits_read_col *)
Definition read_cells (t : tab) (c : col) (row elem n : nat) : outcome (list cell) :=
  if (row =? 0) || (elem =? 0) || (per_row c <? elem) then CheckFail
  else
    let pos := (row - 1) * per_row c + (elem - 1) in
    if pos + n <=? tnrow t * per_row c then Ok (firstn n (skipn pos (ccells c))) else CheckFail.

(* --- opening (base.hpp 462-485) and creating a table (1047-1084) ----------------- *)
Definition table_format (t : tab) : format :=
  match tcols t with
  | [] => Cols
  | _ => if (1 <? tnrow t) || (tnrow t =? 0) then Rows else Cols
  end.
Definition reopen (t : tab) : tab := Tab (table_format t) (tnrow t) (tcols t).
Definition create_table (f : format) : tab := Tab f (match f with Cols => 1 | Rows => 0 end) [].

(* --- writing ---------------------------------------------------------------------- *)
Definition text (x : cell) : str := match x with Txt s => s | Num _ => [] end.
Definition longest (l : list cell) : nat := fold_left (fun m x => if m <? length (text x) then length (text x) else m) l 1.
(* 1166-1235: the dimensions written in TDIM, and the number of rows *)
Definition write_dims (f : format) (v : value) : list nat * nat :=
  match v with
  | Vec t dims data =>
      let '(ds, n) := match f with Cols => (rev dims, 1) | Rows => (rev (tl dims), hd 0 dims) end in
      (if is_string t then longest data :: ds else ds, n)
  | Scal t x => (if is_string t then [length (text x)] else [], 1)
  end.
Definition vtype_of (v : value) : vtype := match v with Vec t _ _ | Scal t _ => t end.
(* 1283-1309 *)
Definition create_column (t : tab) (n : str) (v : value) : outcome tab :=
  let '(dims, ndrow) := write_dims (tfmt t) v in
  _ <- check (match tfmt t, tcols t with Rows, _ :: _ => ndrow =? tnrow t | _, _ => true end) ;;
  let ty := vtype_of v in
  let c := Col (to_upper n) (tform ty) (if is_string ty then hd 0 dims else 1) (nprod dims)
             (match dims with [] => None | _ => Some dims end) [] in
  Ok (Tab (tfmt t) (tnrow t) (tcols t ++ [col_rows (tnrow t) c])).
(* 1086-1161, 1312-1328: the new column is the last one; nothing is written for an empty value *)
Definition write_column (t : tab) (n : str) (v : value) : outcome tab :=
  let cid := length (tcols t) in
  t <- create_column t n v ;;
  match v with
  | Vec ty dims [] => Ok t
  | Vec ty dims data => write_cells t cid 1 1 (map (encode ty) data)
  | Scal ty x => if is_string ty && (length (text x) =? 0) then Ok t else write_cells t cid 1 1 [encode ty x]
  end.
(* 1503-1513 *)
Definition remove_column (t : tab) (n : str) : tab :=
  match get_colnum t n with
  | Some i => Tab (tfmt t) (tnrow t) (firstn i (tcols t) ++ skipn (S i) (tcols t))
  | None => t
  end.
(* 1530-1536 *)
Definition update_column (t : tab) (n : str) (v : value) : outcome tab := write_column (remove_column t n) n v.
(* 1453-1483: a column of blank cells; fits_insert_rows gives the first column its rows *)
Definition allocate_column (t : tab) (n : str) (ty : vtype) (dims : list nat) : outcome tab :=
  t' <- create_column t n (Vec ty dims []) ;;
  match tfmt t, tcols t with
  | Rows, [] => let m := tnrow t + hd 0 dims in Ok (Tab Rows m (map (col_rows m) (tcols t')))
  | _, _ => Ok t'
  end.

(* --- reading ---------------------------------------------------------------------- *)
(* what to read into: vec<Dim,T> or a scalar of type T *)
Inductive target := IntoVec (t : vtype) (dim : nat) | IntoScal (t : vtype).
(* Unchanged: allow_missing and no such column; Refused: the sentry is not good *)
Inductive reading := Read (v : value) | Unchanged | Refused.
Definition ttype (g : target) : vtype := match g with IntoVec t _ | IntoScal t => t end.
(* data_dim, 86-101 *)
Definition tdim (g : target) : nat := match g with IntoVec t d => if is_string t then d + 1 else d | IntoScal _ => 1 end.
(* 519-525 *)
Definition check_type (o : opts) (t : vtype) (f : ftype) : bool :=
  if narrow o then is_convertible_narrow t f else is_convertible t f.
(* 527-570 *)
Definition check_dim (o : opts) (g : target) (naxis rep : nat) : bool :=
  let plain := if naxis <? tdim g then promote o
               else if tdim g <? naxis then (tdim g =? 1) && flat o else true in
  match g with
  | IntoVec Strg dim => if (dim =? 1) && (naxis =? 1) then true else plain
  | IntoVec _ _ => plain
  | IntoScal Strg => plain
  | IntoScal _ => if (naxis =? 1) && (1 <? rep) then false else plain
  end.
(* fits_read_tdim, then 627-637 *)
Definition axes_of (t : tab) (c : col) : list nat :=
  let a := match ctdim c with Some d => d | None => [crepeat c] end in
  match tfmt t with
  | Cols => a
  | Rows => match a with
            | [d] => if (d =? 1) && negb (fis_string (ctype c)) then [tnrow t] else [d; tnrow t]
            | _ => a ++ [tnrow t]
            end
  end.
(* 474-512; nth is inside the array of 256 axes, whose unset entries are not read (TblProofs) *)
Definition resize (t : vtype) (dim : nat) (axes : list nat) : list nat :=
  let naxis := length axes in
  if is_string t then map (fun i => if i <? dim + 1 - naxis then 1 else nth (dim - i) axes 0) (seq 0 dim)
  else if (dim =? 1) && (1 <? naxis) then [nprod axes]
  else map (fun i => if i <? dim - naxis then 1 else nth (dim - 1 - i) axes 0) (seq 0 dim).
(* 586-664, with 375-462; a vector read without data is as resize made it: blank (it was empty) *)
Definition read_column (o : opts) (t : tab) (n : str) (g : target) : outcome reading :=
  match get_colnum t n with
  | None => Ok (if missing o then Unchanged else Refused)
  | Some cid =>
      match nth_error (tcols t) cid with
      | None => UB
      | Some c =>
          if negb (check_type o (ttype g) (ctype c)) then Ok Refused
          else
            let axes := axes_of t c in
            let nrow := match tfmt t with Rows => tnrow t | Cols => 1 end in
            if negb (check_dim o g (length axes) (crepeat c)) then Ok Refused
            else
              match g with
              | IntoVec ty dim =>
                  let dims := resize ty dim axes in
                  if (nrow =? 0) || (nprod dims =? 0) || (is_string ty && (hd 0 axes =? 0))
                  then Ok (Read (Vec ty dims (repeat (blank (tform ty)) (nprod dims))))
                  else
                    l <- read_cells t c 1 1 (nprod dims) ;; l <- omapl (decode ty) l ;; Ok (Read (Vec ty dims l))
              | IntoScal ty =>
                  if nrow =? 0 then Ok Unchanged
                  else if is_string ty && (crepeat c =? 0) then Ok (Read (Scal ty (Txt [])))
                  else
                    l <- read_cells t c 1 1 1 ;;
                    match l with [x] => omap (fun y => Read (Scal ty y)) (decode ty x) | _ => UB end
              end
      end
  end.
(* 337-341: a sentry which nobody asks aborts the program *)
Definition read_or_die (o : opts) (t : tab) (n : str) (g : target) : outcome reading :=
  r <- read_column o t n g ;; match r with Refused => CheckFail | _ => Ok r end.

(* --- information on a column (153-270) ------------------------------------------------ *)
(* the type is the one reported, with the dimensions (the slowest first) *)
Definition column_info (t : tab) (n : str) : outcome (option (nat * ftype * list nat)) :=
  match get_colnum t n with
  | None => Ok None
  | Some cid =>
      match nth_error (tcols t) cid with
      | None => UB
      | Some c =>
          let axes := match ctdim c with Some d => d | None => [crepeat c] end in
          ty <- (match ctype c with
                 | FByte =>
                     l <- read_cells t c 1 1 (crepeat c) ;; l <- omapl (decode Char) l ;;
                     let zs := map (fun x => match x with Num z => z | Txt _ => 0%Z end) l in
                     match zs with
                     | [] => CheckFail                       (* min of an empty vec *)
                     | z :: zs => Ok (if (fold_left Z.min zs z =? 0)%Z && (fold_left Z.max zs z <=? 1)%Z
                                      then FLogical else FByte)
                     end
                 | f => Ok f
                 end) ;;
          let ds := if fis_string ty then match axes with [_] => [1] | _ :: r => r | [] => [] end else axes in
          Ok (Some (cid, ty, rev (match tfmt t with Rows => ds ++ [tnrow t] | Cols => ds end)))
      end
  end.

(* --- elements (844-985, 1661-1712); ids are followed by nr ranges in fits::at (63-73) ---- *)
Fixpoint pitches (dims : list nat) : list nat := match dims with [] => [] | _ :: r => nprod r :: pitches r end.
Fixpoint first_element (f : format) (dims pitch : list nat) (i : nat) (row elem : nat) (ids : list nat) : outcome (nat * nat) :=
  match ids with
  | [] => Ok (row + 1, elem + 1)
  | id :: ids =>
      match nth_error dims i, nth_error pitch i with
      | Some d, Some p =>
          _ <- check (id <? d) ;;
          match f with
          | Cols => first_element f dims pitch (S i) row (elem + id * p) ids
          | Rows => if i =? 0 then first_element f dims pitch (S i) id elem ids
                    else first_element f dims pitch (S i) row (elem + id * p) ids
          end
      | _, _ => CheckFail
      end
  end.
(* the last dimensions, where dims[dims.size()-Dim+i] is a checked access *)
Definition last_dims (dims : list nat) (dim : nat) : outcome (list nat) :=
  if dim <=? length dims then Ok (skipn (length dims - dim) dims) else CheckFail.
Definition read_elements (o : opts) (t : tab) (n : str) (g : target) (ids : list nat) (nr : nat) : outcome value :=
  ci <- column_info t n ;;
  match ci with
  | None => CheckFail
  | Some (cid, ty, dims) =>
      _ <- check (length ids + nr =? length dims) ;;
      _ <- check (check_type o (ttype g) ty) ;;
      match nth_error (tcols t) cid with
      | None => UB
      | Some c =>
          ds <- (match g with IntoVec _ d => last_dims dims d | IntoScal _ => Ok [] end) ;;
          '(row, elem) <- first_element (tfmt t) dims (pitches dims) 0 0 0 ids ;;
          match g with
          | IntoVec ty _ =>
              if nprod ds =? 0 then Ok (Vec ty ds [])
              else l <- read_cells t c row elem (nprod ds) ;; l <- omapl (decode ty) l ;; Ok (Vec ty ds l)
          | IntoScal ty =>
              l <- read_cells t c row elem 1 ;;
              match l with [x] => omap (fun y => Scal ty y) (decode ty x) | _ => UB end
          end
      end
  end.
Fixpoint sameb (a b : list nat) : bool :=
  match a, b with [], [] => true | x :: a, y :: b => (x =? y) && sameb a b | _, _ => false end.
Definition update_elements (t : tab) (n : str) (v : value) (ids : list nat) (nr : nat) : outcome tab :=
  ci <- column_info t n ;;
  match ci with
  | None => CheckFail
  | Some (cid, ty, dims) =>
      _ <- check (length ids + nr =? length dims) ;;
      _ <- (match v with
            | Vec _ ds _ => l <- last_dims dims (length ds) ;; check (sameb ds l)
            | Scal _ _ => Ok tt
            end) ;;
      _ <- check (is_convertible_narrow (vtype_of v) ty) ;;
      '(row, elem) <- first_element (tfmt t) dims (pitches dims) 0 0 0 ids ;;
      match v with
      | Vec ty _ [] => Ok t
      | Vec ty _ data => write_cells t cid row elem (map (encode ty) data)
      | Scal ty x => write_cells t cid row elem [encode ty x]
      end
  end.
