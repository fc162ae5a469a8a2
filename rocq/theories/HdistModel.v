(* Distances to convex hulls.  Source: include/vif/math/convex_hull.hpp.
   The arithmetic is that of an arbitrary type F of numbers, given by its operations.  A value that
   is not a number is None (it compares false with everything).  `store` is the conversion made when
   a number is put into a vec<1,T> of the hull: nothing for floating point types, a truncation for
   integer types. *)
From Verif Require Import Base.

(* one face of the hull: unit vector, normal vector and length (94-96) *)
Record face (F : Type) := Face { ux : option F; uy : option F; nx : option F; ny : option F; len : option F }.
Arguments Face {F} ux uy nx ny len.
Arguments ux {F} f.
Arguments uy {F} f.
Arguments nx {F} f.
Arguments ny {F} f.
Arguments len {F} f.
(* 12-97; `vectors` is None when vectors_built is false *)
Record fhull (F : Type) := Fhull {
  hx : list F; hy : list F; validated : bool; closed : bool; orient : Z; vectors : option (list (face F)) }.
Arguments Fhull {F} hx hy validated closed orient vectors.
Arguments hx {F} f.
Arguments hy {F} f.
Arguments validated {F} f.
Arguments closed {F} f.
Arguments orient {F} f.
Arguments vectors {F} f.

Section Hull.
Context {F : Type} (zero : F) (fadd fsub fmul fdiv : F -> F -> F).
Context (fabs fopp fsqrt : F -> F) (flt : F -> F -> bool) (feqb : F -> F -> bool).
Context (store : option F -> outcome (option F)) (eps : F).

(* 24-27 without validate, and 32-35 *)
Definition raw_hull (x y : list F) : fhull F := Fhull x y false false 0 None.
Definition no_check_hull (x y : list F) : fhull F := Fhull x y true false 0 None.
(* 108-150: the flags left by build_convex_hull *)
Definition built_hull (x y : list F) : fhull F := Fhull x y true true 1 None.
(* 42-59 *)
Definition validate (h : fhull F) : outcome (fhull F) :=
  if validated h then Ok h
  else
    let x := hx h in let y := hy h in
    _ <- check (length x =? length y)%nat ;;
    _ <- check (3 <=? length x)%nat ;;
    x0 <- oget x 0 ;; x1 <- oget x 1 ;; x2 <- oget x 2 ;;
    y0 <- oget y 0 ;; y1 <- oget y 1 ;; y2 <- oget y 2 ;;
    xe <- oget x (length x - 1) ;; ye <- oget y (length x - 1) ;;
    Ok (Fhull x y true
         (flt (fabs (fsub x0 xe)) eps && flt (fabs (fsub y0 ye)) eps)
         (if flt zero (fsub (fmul (fsub x1 x0) (fsub y2 y1)) (fmul (fsub y1 y0) (fsub x2 x1))) then 1%Z else (-1)%Z)
         (vectors h)).
(* 82-86 *)
Definition mark_as_dirty (h : fhull F) : fhull F := Fhull (hx h) (hy h) false (closed h) (orient h) None.

(* x / y; not a number for 0/0 *)
Definition quot (a l : option F) : option F :=
  match a, l with Some x, Some y => if feqb y zero then None else Some (fdiv x y) | _, _ => None end.
(* 68-77, one face.  x /= l stores the quotient in the vec; l itself is not truncated.
   The coordinates are differences of stored ones. *)
Definition build_face (h : fhull F) (i : nat) : outcome (face F) :=
  xi <- oget (hx h) i ;; xj <- oget (hx h) (i + 1) ;;
  yi <- oget (hy h) i ;; yj <- oget (hy h) (i + 1) ;;
  let vx := fsub xj xi in let vy := fsub yj yi in
  let mx := if (orient h =? 1)%Z then fsub yj yi else fsub yi yj in
  let my := if (orient h =? 1)%Z then fsub xi xj else fsub xj xi in
  let l := Some (fsqrt (fadd (fmul mx mx) (fmul my my))) in
  ln <- store l ;;
  u <- store (quot (Some vx) l) ;; v <- store (quot (Some vy) l) ;;
  m <- store (quot (Some mx) l) ;; n <- store (quot (Some my) l) ;;
  Ok (Face u v m n ln).
(* 61-79; size()-1 is 2^64-1 for an empty hull and resize throws *)
Definition build_vectors (h : fhull F) : outcome (fhull F) :=
  match vectors h with
  | Some _ => Ok h
  | None =>
      match length (hx h) with
      | O => Throws
      | S n =>
          fs <- omapl (build_face h) (seq 0 n) ;;
          Ok (Fhull (hx h) (hy h) (validated h) (closed h) (orient h) (Some fs))
      end
  end.

(* a*x + b*y *)
Definition dot (a b : F) (x y : option F) : option F :=
  match x, y with Some x, Some y => Some (fadd (fmul a x) (fmul b y)) | _, _ => None end.
(* a < b; false as soon as one is not a number *)
Definition olt (a b : option F) : bool :=
  match a, b with Some x, Some y => flt x y | _, _ => false end.
(* res > d, for res infinite (None) or finite *)
Definition above (res : option F) (d : option F) : bool :=
  match d with None => false | Some y => match res with None => true | Some x => flt y x end end.
(* 210-236 and 263-289: the body of the loop for face i of h and point (px, py) *)
Definition face_step (h : fhull F) (fs : list (face F)) (px py : F) (i : nat) (s : option F * bool)
  : outcome (option F * bool) :=
  let '(res, inhull) := s in
  xi <- oget (hx h) i ;; yi <- oget (hy h) i ;; f <- oget fs i ;;
  let dx := fsub px xi in let dy := fsub py yi in
  let d := dot dx dy (nx f) (ny f) in
  let inhull := if olt (Some zero) d then false else inhull in
  let d := option_map fabs d in
  if above res d then
    let proj := dot dx dy (ux f) (uy f) in
    d <- (if olt proj (Some zero) then Ok (Some (fsqrt (fadd (fmul dx dx) (fmul dy dy))))
          else if olt (len f) proj then
            xj <- oget (hx h) (i + 1) ;; yj <- oget (hy h) (i + 1) ;;
            let ex := fsub px xj in let ey := fsub py yj in
            Ok (Some (fsqrt (fadd (fmul ex ex) (fmul ey ey))))
          else Ok d) ;;
    Ok (if above res d then d else res, inhull)
  else Ok (res, inhull).
(* the faces visited by range(hull.size()-1) *)
Definition faces_of (h : fhull F) : list nat := seq 0 (length (hx h) - 1).
Definition get_vectors (h : fhull F) : outcome (list (face F)) :=
  match vectors h with Some fs => Ok fs | None => UB end.
(* 194-242; the distance (None: infinite) and the hull with its caches *)
Definition convex_hull_distance (px py : F) (h : fhull F) : outcome (option F * fhull F) :=
  h <- validate h ;;
  _ <- check (closed h) ;;
  h <- build_vectors h ;;
  fs <- get_vectors h ;;
  s <- ofold (fun s i => face_step h fs px py i s) (faces_of h) (None, true) ;;
  Ok (if snd s then fst s else option_map fopp (fst s), h).
(* 246-300 *)
Definition convex_hull_distance_vec (dims : list nat) (px : list F) (dims' : list nat) (py : list F) (h : fhull F)
  : outcome (list (option F) * fhull F) :=
  _ <- check (if list_eq_dec Nat.eq_dec dims dims' then true else false) ;;
  h <- validate h ;;
  _ <- check (closed h) ;;
  h <- build_vectors h ;;
  fs <- get_vectors h ;;
  s <- ofold (fun s i =>
          ofold (fun (s : list (option F) * list bool) p =>
              r <- oget (fst s) p ;; b <- oget (snd s) p ;;
              qx <- oget px p ;; qy <- oget py p ;;
              ' (r, b) <- face_step h fs qx qy i (r, b) ;;
              rs <- oset (fst s) p r ;; bs <- oset (snd s) p b ;; Ok (rs, bs))
            (seq 0 (length px)) s)
        (faces_of h) (repeat None (length px), repeat true (length px)) ;;
  res <- ofold (fun rs p =>
            b <- oget (snd s) p ;;
            if b : bool then Ok rs else r <- oget rs p ;; oset rs p (option_map fopp r))
          (seq 0 (length px)) (fst s) ;;
  Ok (res, h).

(* 158-166: is the point on the inner side of every edge of the list *)
Fixpoint inner_side (h : fhull F) (px py : F) (is_ : list nat) : outcome bool :=
  match is_ with
  | [] => Ok true
  | i :: is_ =>
      xi <- oget (hx h) i ;; xj <- oget (hx h) (i + 1) ;;
      yi <- oget (hy h) i ;; yj <- oget (hy h) (i + 1) ;;
      let cross := fsub (fmul (fsub xj xi) (fsub py yi)) (fmul (fsub yj yi) (fsub px xi)) in
      let c := if (orient h =? 1)%Z then cross else if (orient h =? -1)%Z then fopp cross else zero in
      if flt c zero then Ok false else inner_side h px py is_
  end.
(* 152-167; the integer orient is 1, -1 or 0 *)
Definition in_hull (px py : F) (h : fhull F) : outcome bool :=
  h <- validate h ;;
  _ <- check (closed h) ;;
  match length (hx h) with O => UB | S n => inner_side h px py (seq 0 n) end.
End Hull.
(* floating point types *)
Definition keep {F : Type} (x : option F) : outcome (option F) := Ok x.
