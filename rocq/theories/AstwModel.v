(* The class wcs and the conversions between pixels and the sky or an axis.  Source: astro/wcs.hpp (line
   numbers below), with WCSLIB as a parameter: the structure wcsprm is the number of its axes, the texts
   CTYPE and CUNIT (as WCSLIB leaves them), CRPIX, CRVAL, and the functions wcsp2s and wcss2p, which
   convert one point at a time.  Numbers are rationals in canonical form; rounding is not modelled.
   Positions in arrays are computed modulo 2^64; .safe(i,j) outside of the array is UB (an
   access to another row of the array is not).  What is printed is not modelled. *)
From Coq Require Import Ascii String QArith Qcanon.
From Verif Require Import Base StrModel.
From Verif Require TblModel.
Local Open Scope list_scope.
Local Open Scope nat_scope.
Notation length := List.length.
Notation str := (list ascii) (only parsing).
Definition lit (s : string) : str := list_ascii_of_string s.
Definition same_text (a b : str) : bool := if list_eq_dec ascii_dec a b then true else false.

(* 300-325 *)
Inductive axis_unit :=
| native | wcslib_default
| wave_m | wave_cm | wave_mm | wave_um | wave_nm | wave_Angstrom
| freq_Hz | freq_kHz | freq_MHz | freq_GHz | freq_THz
| sky_deg | sky_rad.
Inductive axis_type := spatial | wave | freq | unknown.
Definition type_eqb (a b : axis_type) : bool :=
  match a, b with spatial, spatial | wave, wave | freq, freq | unknown, unknown => true | _, _ => false end.

Record prm := Prm { ctype : list str; cunit : list str; crpix : list Qc; crval : list Qc;
                    p2s : list Qc -> list Qc; s2p : list Qc -> list Qc }.
Definition naxis (p : prm) : nat := length (ctype p).
(* 352-361; w is None when it is a null pointer *)
Record wcs := Wcs { w : option prm; dims : list Z; has_unit : list bool; type : list axis_type;
                    ra_axis : Z; dec_axis : Z; x_axis : Z; y_axis : Z; isset : bool }.
Definition npos : Z := (two64 - 1)%Z.
Definition is_valid (a : wcs) : bool := match w a with Some _ => true | None => false end.   (* 573-575 *)
Definition axis_count (a : wcs) : nat := match w a with Some p => naxis p | None => 0 end.   (* 468-470 *)

(* 472-481: split(ctype, "-")[0] *)
Definition first_word (s : str) : outcome str := l <- split s (lit "-") ;; oget l 0.
Fixpoint find_loop (p : prm) (name : str) (l : list nat) : outcome Z :=
  match l with
  | [] => Ok npos
  | i :: l =>
      c <- oget (ctype p) i ;;
      t <- first_word c ;;
      if same_text t (TblModel.to_upper name) then Ok (Z.of_nat (naxis p - 1 - i)) else find_loop p name l
  end.
Definition find_axis (p : prm) (name : str) : outcome Z := find_loop p name (seq 0 (naxis p)).

(* 411-417: getkey(hdr, "NAXIS"+to_string(i+1)) is the parameter key *)
Definition read_dims (p : prm) (key : nat -> option Z) : outcome (list Z) :=
  ofold (fun ds i => match key (i + 1) with Some d => oset ds (naxis p - 1 - i) d | None => Ok ds end)
    (seq 0 (naxis p)) (repeat 0%Z (naxis p)).
(* 419-423 *)
Definition read_units (p : prm) : outcome (list bool) :=
  ofold (fun us i => c <- oget (cunit p) i ;; t <- trim c blanks ;; oset us (naxis p - 1 - i) (negb (same_text t [])))
    (seq 0 (naxis p)) (repeat false (naxis p)).
(* 425-438 *)
Definition read_types (p : prm) : outcome (list axis_type) :=
  ofold (fun ts i =>
      c <- oget (ctype p) i ;;
      t <- first_word c ;;
      if same_text t (lit "RA") then oset ts (naxis p - 1 - i) spatial
      else if same_text t (lit "DEC") then oset ts (naxis p - 1 - i) spatial
      else if same_text t (lit "WAVE") then oset ts (naxis p - 1 - i) wave
      else if same_text t (lit "FREQ") then oset ts (naxis p - 1 - i) freq
      else Ok ts)
    (seq 0 (naxis p)) (repeat unknown (naxis p)).
(* 440-450: the condition compares tx twice; the result is ra, dec, x, y *)
Definition read_axes (p : prm) : outcome (Z * Z * (Z * Z)) :=
  tx <- find_axis p (lit "RA") ;;
  ty <- find_axis p (lit "DEC") ;;
  if (negb (tx =? npos) && negb (tx =? npos))%Z
  then Ok (tx, ty, if (tx <? ty)%Z then (ty, tx) else (tx, ty))
  else Ok (1, 0, (1, 0))%Z.
(* 372-466, when WCSLIB can read the header (None: it cannot) *)
Definition make (o : option prm) (key : nat -> option Z) : outcome wcs :=
  match o with
  | None => Ok (Wcs None [] [] [] 1 0 1 0 false)
  | Some p =>
      ds <- read_dims p key ;;
      us <- read_units p ;;
      ts <- read_types p ;;
      ' ax <- read_axes p ;;
      let '(ra, dec, (x, y)) := ax in
      Ok (Wcs (Some p) ds us ts ra dec x y true)
  end.

(* 483-532 *)
Definition unit_type (u : axis_unit) : axis_type :=
  match u with
  | native | wcslib_default => unknown
  | wave_m | wave_cm | wave_mm | wave_um | wave_nm | wave_Angstrom => wave
  | freq_Hz | freq_kHz | freq_MHz | freq_GHz | freq_THz => freq
  | sky_deg | sky_rad => spatial
  end.
Definition is_native (u : axis_unit) : bool := match u with native => true | _ => false end.
Definition valid_unit (a : wcs) (axis : nat) (u : axis_unit) : outcome bool :=
  if axis_count a <=? axis then Ok false
  else
    h <- oget (has_unit a) axis ;;
    if (if h : bool then is_native u else negb (is_native u)) then Ok false
    else
      t <- oget (type a) axis ;;
      Ok (negb (negb (type_eqb t unknown) && negb (type_eqb (unit_type u) unknown) && negb (type_eqb t (unit_type u)))).

(* 537-571: the new object of the move constructor, and the target a of the move assignment from b, with what is left of b *)
Definition fresh : wcs := Wcs None [] [] [] 1 0 1 0 false.
Definition move_construct (b : wcs) : wcs * wcs :=
  (Wcs (w b) (dims b) (has_unit b) (type b) (ra_axis b) (dec_axis b) (x_axis b) (y_axis b) false,
   Wcs None [] [] [] 1 0 1 0 (isset b)).
Definition move_assign (a b : wcs) : wcs * wcs :=
  (Wcs (w b) (dims b) (has_unit b) (type b) (ra_axis b) (dec_axis b) (x_axis b) (y_axis b) (isset a),
   Wcs None [] [] [] (ra_axis b) (dec_axis b) (x_axis b) (y_axis b) (isset b)).
(* 577-588: what update() calls wcsset for *)
Definition flag_dirty (a : wcs) : wcs :=
  Wcs (w a) (dims a) (has_unit a) (type a) (ra_axis a) (dec_axis a) (x_axis a) (y_axis a) false.
Definition update_sets (a : wcs) : bool := negb (isset a).

(* --- conversions ------------------------------------------------------------------ *)
(* a vec<2,double> of rows of n numbers as one list *)
Definition zput (l : list Qc) (z : Z) (x : Qc) : outcome (list Qc) := if (z <? Z.of_nat (length l))%Z then Ok (upd l (Z.to_nat z) x) else UB.
Definition zget (l : list Qc) (z : Z) : outcome Qc := if (z <? Z.of_nat (length l))%Z then oget l (Z.to_nat z) else UB.
Definition at2 (n i : nat) (j : Z) : Z := wrap64 (Z.of_nat i * Z.of_nat n + j).
Definition column (n : nat) (axis : Z) : Z := wrap64 (Z.of_nat n - 1 - axis).
Fixpoint rows (n k : nat) (l : list Qc) : list (list Qc) := match k with O => [] | S k => firstn n l :: rows n k (skipn n l) end.
(* 652-708 *)
Definition convert (f : list Qc -> list Qc) (n k : nat) (l : list Qc) : list Qc := concat (map f (rows n k l)).
Record pts := Pts { pdims : list nat; pdata : list Qc }.
Definition same_dims (a b : list nat) : bool := if list_eq_dec Nat.eq_dec a b then true else false.
(* 712-780: from two coordinates (a, b) at the axes (ia, ib) to those at (ja, jb) *)
Definition through (a : wcs) (f : prm -> list Qc -> list Qc) (ia ib ja jb : Z) (u v : pts) : outcome (pts * pts) :=
  match w a with
  | None => CheckFail
  | Some p =>
      _ <- check (same_dims (pdims u) (pdims v)) ;;
      let npt := length (pdata u) in
      if npt =? 0 then Ok (Pts (map (fun _ => 0) (pdims u)) [], Pts (map (fun _ => 0) (pdims u)) [])
      else
        let n := naxis p in
        l <- ofold (fun l i =>
               x <- oget (pdata u) i ;;
               l <- zput l (at2 n i (column n ia)) x ;;
               y <- oget (pdata v) i ;;
               zput l (at2 n i (column n ib)) y) (seq 0 npt) (repeat (Q2Qc 0) (npt * n)) ;;
        let r := convert (f p) n npt l in
        xs <- omapl (fun i => zget r (at2 n i (column n ja))) (seq 0 npt) ;;
        ys <- omapl (fun i => zget r (at2 n i (column n jb))) (seq 0 npt) ;;
        Ok (Pts (pdims u) xs, Pts (pdims u) ys)
  end.
Definition ad2xy (a : wcs) (ra dec : pts) : outcome (pts * pts) := through a s2p (ra_axis a) (dec_axis a) (x_axis a) (y_axis a) ra dec.
Definition xy2ad (a : wcs) (x y : pts) : outcome (pts * pts) := through a p2s (x_axis a) (y_axis a) (ra_axis a) (dec_axis a) x y.

(* 826-850 and 885-910: one arcsecond to the north of the reference; the square root and the arc tangent are parameters *)
Definition north (a : wcs) : outcome (option (Qc * Qc)) :=
  match w a with
  | None => Ok None
  | Some p =>
      let n := naxis p in
      r <- zget (crval p) (column n (ra_axis a)) ;;
      d <- zget (crval p) (column n (dec_axis a)) ;;
      ' xy <- ad2xy a (Pts [2] [r; r]) (Pts [2] [d; (d + Q2Qc (1 # 3600))%Qc]) ;;
      x0 <- oget (pdata (fst xy)) 0 ;; x1 <- oget (pdata (fst xy)) 1 ;;
      y0 <- oget (pdata (snd xy)) 0 ;; y1 <- oget (pdata (snd xy)) 1 ;;
      Ok (Some ((x1 - x0)%Qc, (y1 - y0)%Qc))
  end.
Definition get_pixel_size (sqrt : Qc -> Qc) (a : wcs) : outcome (option Qc) :=
  omap (option_map (fun '(dx, dy) => (Q2Qc 1 / sqrt (dx * dx + dy * dy))%Qc)) (north a).
Definition get_image_rotation (degrees_atan2 : Qc -> Qc -> Qc) (a : wcs) : outcome (option Qc) :=
  omap (option_map (fun '(dx, dy) => (- degrees_atan2 dx dy)%Qc)) (north a).

(* 948-994; dpi is a parameter *)
Definition conv_si2unit (dpi : Qc) (u : axis_unit) : Qc :=
  match u with
  | native | wcslib_default | wave_m | freq_Hz | sky_deg => Q2Qc 1
  | wave_cm => Q2Qc 100
  | wave_mm => Q2Qc 1000
  | wave_um => Q2Qc (inject_Z (10 ^ 6))
  | wave_nm => Q2Qc (inject_Z (10 ^ 9))
  | wave_Angstrom => Q2Qc (inject_Z (10 ^ 10))
  | freq_kHz => Q2Qc (1 # 1000)
  | freq_MHz => Q2Qc (1 # 1000000)
  | freq_GHz => Q2Qc (1 # 1000000000)
  | freq_THz => Q2Qc (1 # 1000000000000)
  | sky_rad => (dpi / Q2Qc 180)%Qc
  end.
(* 998-1030 and 1097-1130; the columns other than that of the axis hold CRPIX or CRVAL *)
Definition prepare (a : wcs) (axis : nat) (u : axis_unit) : outcome prm :=
  match w a with
  | None => CheckFail
  | Some p => _ <- check (axis <? naxis p) ;; v <- valid_unit a axis u ;; _ <- check v ;; Ok p
  end.
Definition row_with (ref : list Qc) (n axis : nat) (x : Qc) : outcome (list Qc) :=
  omapl (fun f => if f =? n - 1 - axis then Ok x else oget ref f) (seq 0 n).
Definition x2w (dpi : Qc) (a : wcs) (axis : nat) (x : list Qc) (u : axis_unit) : outcome (list Qc) :=
  p <- prepare a axis u ;;
  let n := naxis p in
  pix <- omapl (row_with (crpix p) n axis) x ;;
  l <- omapl (fun r => oget (p2s p r) (n - 1 - axis)) pix ;;
  Ok (map (fun z => (z * conv_si2unit dpi u)%Qc) l).
(* 1032-1067 *)
Definition w2x (dpi : Qc) (a : wcs) (axis : nat) (ww : list Qc) (u : axis_unit) : outcome (list Qc) :=
  p <- prepare a axis u ;;
  let n := naxis p in
  let tw := map (fun z => (z / conv_si2unit dpi u)%Qc) ww in
  world <- omapl (row_with (crval p) n axis) tw ;;
  omapl (fun r => oget (s2p p r) (n - 1 - axis)) world.
(* 1097-1130: indgen<double>(npix)+1 *)
Definition build_axis (dpi : Qc) (a : wcs) (axis : nat) (u : axis_unit) : outcome (list Qc) :=
  p <- prepare a axis u ;;
  let n := naxis p in
  d <- oget (dims a) axis ;;
  let npix := Z.to_nat d in
  pix <- omapl (row_with (crpix p) n axis) (map (fun i => Q2Qc (inject_Z (Z.of_nat i + 1))) (seq 0 npix)) ;;
  l <- omapl (fun r => oget (p2s p r) (n - 1 - axis)) pix ;;
  Ok (map (fun z => (z * conv_si2unit dpi u)%Qc) l).
