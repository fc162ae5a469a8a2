(* FITS images.  Source: include/vif/io/fits/image.hpp (line numbers below) and io/fits/base.hpp.
   cfitsio is modelled as a store: an image has a kind (BITPIX, and the offset that makes signed bytes),
   the lengths of its axes in the order of FITS, and its pixels, the first axis varying fastest.  Assumed
   of cfitsio, not proved: fits_insert_img and fits_resize_img make an image of zeros; fits_write_img and
   fits_read_img copy pixels in sequence, and fail when a value does not fit in the kind of the file or in
   the type asked for; fits_read_subset copies the pixels from fpixel to lpixel, the first axis varying
   fastest, and goes backwards along an axis for which fpixel is above lpixel.
   Throws is a fits::exception (a failed vif_check_fits or vif_check_cfitsio) or a failed allocation;
   CheckFail is a failed vif_check.  Numbers are integers exact in all the types involved (rounding and
   null values are not modelled).  The file is open, and one HDU of it is considered. *)
From Verif Require Import Base.

Inductive etype := Bool | Char | Short | Int | Uint | Float | Double.        (* element types of vec *)
Inductive kind := KByte | KSbyte | KShort | KLong | KLonglong | KFloat | KDouble.   (* image types *)
Record image := Image { ikind : kind; naxes : list Z; pixels : list Z }.
(* the current HDU: none yet, no axes, an image, a table *)
Inductive hdu := NoHdu | Empty | Holds (i : image) | Table.
Record arr := Arr { dims : list Z; data : list Z }.

(* --- base.hpp 89-317: traits ------------------------------------------------- *)
Definition image_type (t : etype) : kind :=
  match t with
  | Bool => KByte | Char => KSbyte | Uint => KLonglong | Int => KLonglong
  | Short => KShort | Float => KFloat | Double => KDouble
  end.
(* bitpix_to_type (319-329) followed by is_convertible: signed bytes have the BITPIX of bytes *)
Definition is_convertible (t : etype) (k : kind) : bool :=
  match t, k with
  | (Bool | Char), (KByte | KSbyte) => true
  | (Uint | Int), (KByte | KSbyte | KShort | KLong | KLonglong) => true
  | Short, (KByte | KSbyte | KShort) => true
  | Float, (KByte | KSbyte | KShort | KLong | KLonglong | KFloat) => true
  | Double, _ => true
  | _, _ => false
  end.
Definition within (lo hi z : Z) : outcome Z := if ((lo <=? z) && (z <=? hi))%Z then Ok z else Throws.
(* a value handed to cfitsio (ttype: an unsigned integer as the signed one of the same bits), stored in the file *)
Definition store (k : kind) (t : etype) (z : Z) : outcome Z :=
  let z := match t with Uint => to_signed64 z | _ => z end in
  match k with
  | KByte => within 0 255 z
  | KSbyte => within (-128) 127 z
  | KShort => within (-32768) 32767 z
  | KLong => within (-2147483648) 2147483647 z
  | KLonglong => within (- two63) (two63 - 1) z
  | KFloat | KDouble => Ok z
  end.
(* a value of the file as an element *)
Definition load (t : etype) (z : Z) : outcome Z :=
  match t with
  | Bool => within 0 255 z
  | Char => within (-128) 127 z
  | Short => within (-32768) 32767 z
  | Int => within (- two63) (two63 - 1) z
  | Uint => omap wrap64 (within (- two63) (two63 - 1) z)
  | Float | Double => Ok z
  end.

(* --- reading ------------------------------------------------------------------ *)
Definition ensure (b : bool) : outcome unit := if b then Ok tt else Throws.
(* 25-42: the number of axes and the type are those expected; a table is not an image, and fits_get_img_dim fails *)
Definition read_prep (h : hdu) (t : etype) (rdims : nat) : outcome image :=
  match h with
  | NoHdu | Table => Throws
  | Empty => Throws
  | Holds im =>
      _ <- ensure (length (naxes im) =? rdims) ;;
      _ <- ensure (is_convertible t (ikind im)) ;;
      Ok im
  end.
Definition zprod (l : list Z) : Z := fold_right Z.mul 1%Z l.
(* vec::resize(): the product of the dimensions is a size_t; an allocation that cannot be made throws *)
Definition huge : Z := 2 ^ 60.
Definition allocate (ds : list Z) : outcome Z :=
  let n := fold_left (fun a d => wrap64 (a * d)) ds 1%Z in if (n <? huge)%Z then Ok n else Throws.
(* 115-136 *)
Definition read (h : hdu) (t : etype) (dim : nat) : outcome arr :=
  im <- read_prep h t dim ;;
  let n := length (naxes im) in
  ds <- omapl (fun i => oget (naxes im) (n - 1 - i)) (seq 0 n) ;;
  n <- allocate ds ;;
  _ <- ensure (n <=? Z.of_nat (length (pixels im)))%Z ;;
  d <- omapl (load t) (firstn (Z.to_nat n) (pixels im)) ;;
  Ok (Arr ds d).

(* the arguments of read_subset: _, _-l, f-_, f-_-l, i (uint_t) *)
Inductive rng := All | To (l : Z) | From (f : Z) | FromTo (f l : Z) | At (i : Z).
Definition to_long (z : Z) : Z := to_signed64 (wrap64 z).
(* 44-113 *)
Definition bounds (n : Z) (r : rng) : outcome (Z * Z) :=
  match r with
  | All => Ok (1, n)
  | To l => _ <- ensure (l <? n) ;; Ok (1, to_long (l + 1))
  | From f => Ok (to_long (f + 1), n)
  | FromTo f l => _ <- ensure (l <? n) ;; Ok (to_long (f + 1), to_long (l + 1))
  | At i => _ <- ensure (i <? n) ;; Ok (to_long (i + 1), to_long (i + 1))
  end%Z.
Fixpoint make_indices (idim : nat) (naxes fp lp : list Z) (args : list rng) : outcome (list Z * list Z) :=
  match args with
  | [] => Ok (fp, lp)
  | r :: args =>
      let k := length naxes - 1 - idim in
      n <- oget naxes k ;;
      ' fl <- bounds n r ;;
      fp <- oset fp k (fst fl) ;;
      lp <- oset lp k (snd fl) ;;
      make_indices (idim + 1) naxes fp lp args
  end.
(* fits_read_subset: the offsets of the pixels; each axis is its length and the two ends, from 1 *)
Definition steps (f l : Z) : list Z :=
  let n := Z.to_nat (Z.abs (l - f) + 1) in
  map (fun i => if (f <=? l)%Z then (f - 1 + Z.of_nat i)%Z else (f - 1 - Z.of_nat i)%Z) (seq 0 n).
Fixpoint offsets (axes : list (Z * (Z * Z))) : list Z :=
  match axes with
  | [] => [0%Z]
  | (n, (f, l)) :: axes => flat_map (fun q => map (fun x => (x + n * q)%Z) (steps f l)) (offsets axes)
  end.
(* it knows nothing of the size of the buffer: writing past its end, or leaving a part of it, is UB here, and
   so is a pixel outside of the axes *)
Definition cfits_subset (im : image) (fp lp : list Z) (size : Z) : outcome (list Z) :=
  let axes := combine (naxes im) (combine fp lp) in
  let ins (a : Z * (Z * Z)) := let '(n, (f, l)) := a in ((1 <=? f) && (f <=? n) && (1 <=? l) && (l <=? n))%Z in
  let offs := offsets axes in
  if forallb ins axes && (Z.of_nat (length offs) =? size)%Z
  then omapl (fun o => match nth_error (pixels im) (Z.to_nat o) with Some z => Ok z | None => UB end) offs
  else UB.
(* 138-165; dims is a size_t, the difference of the bounds is a long *)
Definition read_subset (h : hdu) (t : etype) (args : list rng) : outcome arr :=
  let dim := length args in
  im <- read_prep h t dim ;;
  ' fl <- make_indices 0 (naxes im) (repeat 0%Z dim) (repeat 0%Z dim) args ;;
  let '(fp, lp) := fl in
  ds <- omapl (fun i => f <- oget fp (dim - 1 - i) ;; l <- oget lp (dim - 1 - i) ;; Ok (wrap64 ((l - f) + 1))) (seq 0 dim) ;;
  n <- allocate ds ;;
  px <- cfits_subset im fp lp n ;;
  d <- omapl (load t) px ;;
  Ok (Arr ds d).
(* 167-202 *)
Definition pixel_step (naxes p : list Z) (st : bool * (Z * Z)) (i : nat) : outcome (bool * (Z * Z)) :=
  let '(ok, (ppos, pitch)) := st in
  x <- oget p (length p - 1 - i) ;;
  n <- oget naxes i ;;
  Ok (ok && (x <? n)%Z, (wrap64 (ppos + wrap64 (x * pitch)), wrap64 (pitch * n))).
Definition read_pixel (h : hdu) (t : etype) (p : list Z) : outcome Z :=
  im <- read_prep h t (length p) ;;
  ' st <- ofold (pixel_step (naxes im) p) (seq 0 (length p)) (true, (1, 1))%Z ;;
  let '(ok, (ppos, _)) := st in
  _ <- ensure ok ;;
  match nth_error (pixels im) (Z.to_nat (ppos - 1)) with Some z => load t z | None => Throws end.

(* --- writing ------------------------------------------------------------------ *)
(* 224-259: only an HDU without data can be written *)
Definition write (h : hdu) (t : etype) (v : arr) : outcome hdu :=
  let n := length (dims v) in
  ax <- omapl (fun i => oget (dims v) (n - 1 - i)) (seq 0 n) ;;
  _ <- check (match h with NoHdu | Empty => true | _ => false end) ;;
  px <- omapl (store (image_type t) t) (data v) ;;
  Ok (Holds (Image (image_type t) ax px)).
(* 261-285 *)
Definition write_empty (h : hdu) : outcome hdu :=
  _ <- check (match h with NoHdu | Empty => true | _ => false end) ;; Ok Empty.
(* 305-330 *)
Definition same (a b : list Z) : bool := if list_eq_dec Z.eq_dec a b then true else false.
Definition update (h : hdu) (t : etype) (v : arr) : outcome hdu :=
  im <- read_prep h t (length (dims v)) ;;
  let n := length (dims v) in
  ds <- omapl (fun i => oget (naxes im) (n - 1 - i)) (seq 0 n) ;;
  _ <- ensure (same (dims v) ds) ;;
  px <- omapl (store (ikind im) t) (data v) ;;
  Ok (Holds (Image (ikind im) (naxes im) px)).
