(* What a table of columns is for its user. *)
From Coq Require Import Ascii.
From Verif Require Import Base TblModel.
From Verif Require DsregSpec.

(* a value that the C++ type can hold; a string which starts or ends with a blank is not kept *)
Definition holds (t : vtype) (x : cell) : Prop :=
  match x with
  | Num z =>
      match t with
      | Bool => 0 <= z <= 1
      | Char => -128 <= z <= 127
      | Short => -32768 <= z <= 32767
      | Int => - 2 ^ 63 <= z < 2 ^ 63
      | Uint => 0 <= z < 2 ^ 64
      | Float | Double => True
      | Strg => False
      end%Z
  | Txt s => t = Strg /\ DsregSpec.trimmed s s
  end.
(* x written as a t is the same x read as a u *)
Definition shared (t u : vtype) (x : cell) : Prop :=
  holds t x /\ holds u x /\ (t = Uint -> u <> Uint -> match x with Num z => (z < 2 ^ 63)%Z | Txt _ => True end).
Definition upcase (a b : str) : Prop := to_upper a = to_upper b.
(* no column, or only one column, has the name, whatever the case *)
Definition absent (t : tab) (n : str) : Prop := forall c, In c (tcols t) -> to_upper (cname c) <> to_upper n.
Definition single (t : tab) (n : str) : Prop :=
  exists a c b, tcols t = a ++ c :: b /\ to_upper (cname c) = to_upper n /\
    (forall d, In d (a ++ b) -> to_upper (cname d) <> to_upper n).
(* a table as the library makes it: every column has all its rows; a column-oriented table has one row *)
Definition sound (t : tab) : Prop :=
  (tfmt t = Cols -> tnrow t = 1) /\ (forall c, In c (tcols t) -> length (ccells c) = tnrow t * per_row c).
(* a vector fits in the table: its rows are those of the table, or it makes them *)
Definition fits_in (t : tab) (dims : list nat) : Prop :=
  match tfmt t with
  | Cols => True
  | Rows => tnrow t = hd 0 dims \/ (tcols t = [] /\ tnrow t = 0 /\ nprod dims <> 0)
  end.
(* the one shape that a row-oriented table does not remember *)
Definition forgotten (t : tab) (ty : vtype) (dims : list nat) : Prop := tfmt t = Rows /\ ty <> Strg /\ exists n, dims = [n; 1].
Definition strict : opts := Opts false false false false.

(* the numeric vector ty ds data is in the table under the name n: the FITS column of upper-case name has as
   many elements per row as needed, its TDIM lists the dimensions in the order of FITS *)
Definition holding (t : tab) (n : str) (ty : vtype) (ds : list nat) (data : list cell) : Prop :=
  sound t /\ length data = nprod ds /\ ty <> Strg /\
  exists a c b, tcols t = a ++ c :: b /\ (forall d, In d (a ++ b) -> to_upper (cname d) <> to_upper n) /\
    cname c = to_upper n /\ ctype c = tform ty /\ cwidth c = 1 /\ ccells c = map (encode ty) data /\
    match tfmt t with
    | Cols => 1 <= length ds /\ crepeat c = nprod ds /\ ctdim c = Some (rev ds)
    | Rows => 2 <= length ds /\ crepeat c = nprod (tl ds) /\ ctdim c = Some (rev (tl ds)) /\ tnrow t = hd 0 ds
    end.
(* indices of the first dimensions, and the place of the first element they select, in row-major order *)
Fixpoint valid (ds ids : list nat) : Prop :=
  match ids, ds with [], _ => True | i :: ids, d :: ds => i < d /\ valid ds ids | _ :: _, [] => False end.
Fixpoint place (ds ids : list nat) : nat :=
  match ids, ds with i :: ids, _ :: ds => i * nprod ds + place ds ids | _, _ => 0 end.
(* new in the place of as many elements from p on *)
Definition replaced (data new : list cell) (p : nat) : list cell := firstn p data ++ new ++ skipn (p + length new) data.
(* the types that can be reported for a column: bytes which are all 0 or 1 may be called boolean *)
Definition reported (ty : vtype) : list ftype := match ty with Bool | Char => [FLogical; FByte] | _ => [tform ty] end.
