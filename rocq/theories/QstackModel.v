(* Cutouts of sources and their combination.  Source: include/vif/astro/qstack.hpp.
   A pixel is None when it is not finite (is_finite is false).  The positions of the sources on every
   image, which ad2xy computes with wcslib, are data of the model, as exact numbers; so are the pixels of
   the files, which cfitsio reads.  Pixels of a FITS file are numbered from 1.  The number of pixels of a
   cutout is assumed to fit in the memory. *)
From Coq Require Import QArith Qround.
From Verif Require Import Base GenModel.
Local Open Scope Z_scope.

Section Qstack.
Context {A : Type}.
Local Notation pixel := (option A).

(* 12-56, after the file is opened *)
Record image := Image { width : Z; height : Z; pix : Z -> Z -> pixel; px : list Q; py : list Q }.

(* a, a+1, ..., b *)
Definition zrange (a b : Z) : list Z := map (fun k => a + Z.of_nat k) (seq 0 (Z.to_nat (b - a + 1))).
(* long(round(x)) *)
Definition to_long (x : Q) : outcome Z :=
  let n := qround x in if (- 2 ^ 63 <=? n) && (n <? 2 ^ 63) then Ok n else UB.
(* fits_read_subset: the rows from y0 to y1, in each the columns from x0 to x1; nothing is known of the
   buffer when the bounds are wrong, as the status is not looked at *)
Definition read_subset (im : image) (x0 y0 x1 y1 : Z) : outcome (list pixel) :=
  if (1 <=? x0) && (x0 <=? x1) && (x1 <=? width im) && (1 <=? y0) && (y0 <=? y1) && (y1 <=? height im)
  then Ok (flat_map (fun Y => map (fun X => pix im X Y) (zrange x0 x1)) (zrange y0 y1))
  else UB.
(* fits_read_subset into cut.raw_data() *)
Definition into (buf data : list pixel) : outcome (list pixel) :=
  if (length data <=? length buf)%nat then Ok (data ++ skipn (length data) buf) else UB.
(* cut(y0-_-y1, x0-_-x1) = subcut for cut of n x n; the sizes are compared, not the dimensions.
   The bounds are never negative here: p0b >= p0. *)
Definition paste (n : nat) (cut : list pixel) (y0 y1 x0 x1 : Z) (sub : list pixel) : outcome (list pixel) :=
  _ <- check ((y1 <? Z.of_nat n) && (y0 <? Z.of_nat n) && (x1 <? Z.of_nat n) && (x0 <? Z.of_nat n)) ;;
  let pos := flat_map (fun r => map (fun c => (Z.to_nat r * n + Z.to_nat c)%nat) (zrange x0 x1)) (zrange y0 y1) in
  _ <- check (length pos =? length sub)%nat ;;
  ofold (fun cut '(p, v) => oset cut p v) (combine pos sub) cut.

(* 137-171: the cutout around source i; None when the source is discarded *)
Definition cutout (h : nat) (im : image) (i : nat) : outcome (option (list pixel)) :=
  x <- oget (px im) i ;; y <- oget (py im) i ;;
  let hq := inject_Z (Z.of_nat h) in
  p0x <- to_long (x - hq) ;; p0y <- to_long (y - hq) ;;
  p1x <- to_long (x + hq) ;; p1y <- to_long (y + hq) ;;
  if (p1x <? 1) || (width im <=? p0x) || (p1y <? 1) || (height im <=? p0y) then Ok None
  else
    let n := (2 * h + 1)%nat in
    let cut := repeat None (n * n) in
    if (p0x <? 1) || (width im <=? p1x) || (p0y <? 1) || (height im <=? p1y) then
      let bx0 := Z.max 1 p0x in let by0 := Z.max 1 p0y in
      let bx1 := Z.min (width im) p1x in let by1 := Z.min (height im) p1y in
      sub <- read_subset im bx0 by0 bx1 by1 ;;
      cut <- paste n cut (by0 - p0y) (by1 - p0y) (bx0 - p0x) (bx1 - p0x) sub ;;
      Ok (Some cut)
    else
      data <- read_subset im p0x p0y p1x p1y ;;
      cut <- into cut data ;;
      Ok (Some cut).

Definition bad (p : pixel) : bool := match p with Some _ => false | None => true end.
(* the cube of cutouts: dims[1], dims[2] and the planes; the vectors of the output *)
Record stack := Stack {
  dims1 : nat; dims2 : nat; planes : list (list pixel); ids : list nat;
  found : list bool; odx : list Q; ody : list Q; osect : list nat }.
(* vec<3>::push_back (vec.hpp 261-282) of a plane of n x n *)
Definition push (s : stack) (n : nat) (cut : list pixel) : outcome (nat * nat * list (list pixel)) :=
  match planes s with
  | [] => Ok (n, n, [cut])
  | _ => _ <- check ((dims1 s =? n) && (dims2 s =? n))%nat ;; Ok (dims1 s, dims2 s, planes s ++ [cut])
  end.
(* where_last(ids == i) *)
Fixpoint where_last (l : list nat) (i : nat) : option nat :=
  match l with
  | [] => None
  | j :: l => match where_last l i with Some p => Some (S p) | None => if (j =? i)%nat then Some 0%nat else None end
  end.
(* 198-199: where the pixel kept is not finite, it is replaced by that of cut *)
Definition fill_bad (plane cut : list pixel) : list pixel :=
  map (fun '(p, c) => if bad p then c else p) (combine plane cut).
(* 194-195, 343-344 *)
Definition offset (x : Q) : Q := (x - inject_Z (qround x))%Q.
(* 134-201: one source on one image *)
Definition stack_one (h : nat) (keep_nan offsets sections : bool) (iimg : nat) (im : image) (s : stack) (i : nat)
  : outcome stack :=
  c <- cutout h im i ;;
  match c with
  | None => Ok s
  | Some cut =>
      if negb keep_nan && existsb bad cut then Ok s
      else
        f <- oget (found s) i ;;
        if negb f then
          fs <- oset (found s) i true ;;
          ' (d1, d2, ps) <- push s (2 * h + 1) cut ;;
          x <- oget (px im) i ;; y <- oget (py im) i ;;
          Ok (Stack d1 d2 ps (ids s ++ [i]) fs
                (if offsets then odx s ++ [offset x] else odx s) (if offsets then ody s ++ [offset y] else ody s)
                (if sections then osect s ++ [iimg] else osect s))
        else
          match where_last (ids s) i with
          | None => CheckFail   (* cube(npos,_,_) *)
          | Some id =>
              _ <- check (id <? length (planes s))%nat ;;
              p <- oget (planes s) id ;;
              ps <- oset (planes s) id (fill_bad p cut) ;;
              Ok (Stack (dims1 s) (dims2 s) ps (ids s) (found s) (odx s) (ody s) (osect s))
          end
  end.
(* 89-205: cube0 and ids0 are the vectors given, nsrc the number of sources *)
Definition qstack (h : nat) (keep_nan offsets sections : bool) (imgs : list image) (nsrc : nat)
    (d1 d2 : nat) (cube0 : list (list pixel)) (ids0 : list nat) : outcome stack :=
  let n := (2 * h + 1)%nat in
  let '(d1, d2) := match cube0 with [] => (n, n) | _ => (d1, d2) end in
  ofold (fun s iimg =>
      im <- oget imgs iimg ;;
      ofold (stack_one h keep_nan offsets sections iimg im) (seq 0 nsrc) s)
    (seq 0 (length imgs)) (Stack d1 d2 cube0 ids0 (repeat false nsrc) [] [] []).

(* 307-349: the version with a weight image, both files being plain images; wpix are the pixels of the
   weight map.  The state is (cube, wcube, ids, dx, dy, sect), for cubes of cutouts of this size. *)
Definition wstate := (list (list pixel) * list (list pixel) * list nat * list Q * list Q * list nat)%type.
Definition wstack_one (h : nat) (keep_nan offsets sections : bool) (im : image) (wpix : Z -> Z -> pixel) (s : wstate) (i : nat)
  : outcome wstate :=
  let '(cube, wcube, ids, dx, dy, sect) := s in
  x <- oget (px im) i ;; y <- oget (py im) i ;;
  let hq := inject_Z (Z.of_nat h) in
  p0x <- to_long (x - hq) ;; p0y <- to_long (y - hq) ;;
  p1x <- to_long (x + hq) ;; p1y <- to_long (y + hq) ;;
  if (p0x <? 1) || (width im <=? p1x) || (p0y <? 1) || (height im <=? p1y) then Ok s
  else
    let n := (2 * h + 1)%nat in
    data <- read_subset im p0x p0y p1x p1y ;;
    cut <- into (repeat None (n * n)) data ;;
    wdata <- read_subset (Image (width im) (height im) wpix (px im) (py im)) p0x p0y p1x p1y ;;
    wcut <- into (repeat None (n * n)) wdata ;;
    if negb keep_nan && existsb (fun '(a, b) => bad a || bad b) (combine cut wcut) then Ok s
    else Ok (cube ++ [cut], wcube ++ [wcut], ids ++ [i],
             (if offsets then dx ++ [offset x] else dx), (if offsets then dy ++ [offset y] else dy),
             (if sections then sect ++ [0%nat] else sect)).
Definition qstack_weights (h : nat) (keep_nan offsets sections : bool) (im : image) (wpix : Z -> Z -> pixel) (nsrc : nat)
    (cube wcube : list (list pixel)) (ids : list nat) : outcome wstate :=
  ofold (wstack_one h keep_nan offsets sections im wpix) (seq 0 nsrc) (cube, wcube, ids, [], [], []).
(* 225-241: the version with sections: two independent stacks, of which only the numbers of sources are
   compared; the offsets and sections of the first one are lost *)
Definition qstack_weights_sections (h : nat) (keep_nan offsets sections : bool) (imgs wimgs : list image) (nsrc : nat)
    (cube wcube : list (list pixel)) (ids0 : list nat) : outcome wstate :=
  let n := (2 * h + 1)%nat in
  s <- qstack h keep_nan offsets sections imgs nsrc n n cube ids0 ;;
  w <- qstack h keep_nan offsets sections wimgs nsrc n n wcube [] ;;
  _ <- check (length (ids s) - length ids0 =? length (ids w))%nat ;;
  Ok (planes s, planes w, ids s, [], [], []).
End Qstack.
Arguments image A : clear implicits.
Arguments stack A : clear implicits.
