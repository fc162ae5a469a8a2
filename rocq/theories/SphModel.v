(* Angles on the sky.  Source: include/vif/astro/astro.hpp 23-133, 167-221, 518-552 (angdistr, angdist,
   angdist_less, move_ra_dec, vernal_angle, angrot_vernal, field_area_hull) and astro/qxmatch.hpp 680-717 (qdist).
   Numbers are the real numbers of the standard library, with its sin, cos, asin and sqrt: rounding is
   not modelled.  atan2 is defined below.  In field_area_hull the hull is the list of its points. *)
From Coq Require Import Reals.
From Verif Require Import Base.
Local Open Scope R_scope.
Notation length := List.length.

Definition d2r : R := PI / 180.
Definition sqr (x : R) : R := x * x.
(* std::atan2 *)
Definition atan2 (y x : R) : R :=
  let r := sqrt (sqr x + sqr y) in
  if Req_EM_T r 0 then 0 else if Rlt_dec y 0 then - acos (x / r) else acos (x / r).

(* 25-29 *)
Definition angdistr (ra1 dec1 ra2 dec2 : R) : R :=
  let sra := sin (/ 2 * (ra2 - ra1)) in
  let sde := sin (/ 2 * (dec2 - dec1)) in
  2 * asin (sqrt (sde * sde + sra * sra * cos dec2 * cos dec1)).
(* 33-39 *)
Definition angdist (tra1 tdec1 tra2 tdec2 : R) : R :=
  let ra1 := d2r * tra1 in let ra2 := d2r * tra2 in let dec1 := d2r * tdec1 in let dec2 := d2r * tdec2 in
  let sra := sin (/ 2 * (ra2 - ra1)) in
  let sde := sin (/ 2 * (dec2 - dec1)) in
  3600 * 2 * asin (sqrt (sde * sde + sra * sra * cos dec2 * cos dec1)) / d2r.

(* arrays: dimensions and elements *)
Record arr (A : Type) := Arr { dims : list nat; data : list A }.
Arguments Arr {A}. Arguments dims {A}. Arguments data {A}.
Definition same_dims {A B} (a : arr A) (b : arr B) : bool := if list_eq_dec Nat.eq_dec (dims a) (dims b) then true else false.
Definition each {A} (d : list nat) (n : nat) (f : nat -> outcome A) : outcome (arr A) := l <- omapl f (seq 0 n) ;; Ok (Arr d l).
(* 43-60 *)
Definition angdist_vec (r1 d1 r2 d2 : arr R) : outcome (arr R) :=
  _ <- check (same_dims r1 d1) ;; _ <- check (same_dims r2 d2) ;; _ <- check (same_dims r1 r2) ;;
  each (dims r1) (length (data r1)) (fun i =>
    a <- oget (data r1) i ;; b <- oget (data d1) i ;; c <- oget (data r2) i ;; d <- oget (data d2) i ;; Ok (angdist a b c d)).
(* 64-76 *)
Definition angdist_point (r1 d1 : arr R) (ra2 dec2 : R) : outcome (arr R) :=
  _ <- check (same_dims r1 d1) ;;
  each (dims r1) (length (data r1)) (fun i => a <- oget (data r1) i ;; b <- oget (data d1) i ;; Ok (angdist a b ra2 dec2)).
(* 80-101 *)
Definition angdist_less (r1 d1 : arr R) (tra2 tdec2 radius : R) : outcome (arr bool) :=
  _ <- check (same_dims r1 d1) ;;
  let rrad := d2r * radius / 3600 in
  let crad := sqr (sin (rrad / 2)) in
  each (dims r1) (length (data r1)) (fun i =>
    a <- oget (data r1) i ;; b <- oget (data d1) i ;;
    let ra1 := d2r * a in let ra2 := d2r * tra2 in let dec1 := d2r * b in let dec2 := d2r * tdec2 in
    let sra := sin (/ 2 * (ra2 - ra1)) in let sde := sin (/ 2 * (dec2 - dec1)) in
    Ok (if Rlt_dec (sqr sde + sqr sra * cos dec2 * cos dec1) crad then true else false)).

(* 105-116; a division by cos = 0 is not a number *)
Definition move_ra_dec (ra dec dra ddec : R) : option R * R :=
  (if Req_EM_T (cos (dec * PI / 180)) 0 then None else Some (ra + dra / cos (dec * PI / 180) / 3600), dec + ddec / 3600).
(* 118-132 *)
Definition move_vec (ra dec : arr R) (dra ddec : R) : outcome (arr (option R * R)) :=
  _ <- check (same_dims ra dec) ;;
  let dra := dra / 3600 in let ddec := ddec / 3600 in
  each (dims ra) (length (data ra)) (fun i =>
    a <- oget (data ra) i ;; b <- oget (data dec) i ;;
    Ok (if Req_EM_T (cos (d2r * b)) 0 then None else Some (a + dra / cos (d2r * b)), b + ddec)).

(* 169-180 *)
Definition vernal_angle (ra dec : R) : R :=
  let ra := ra * (PI / 180) in let dec := dec * (PI / 180) in
  let p := sqr (sin (dec / 2)) + cos dec * sqr (sin (ra / 2)) in
  let e := 180 / PI * asin (sin dec / (2 * sqrt (p - p * p))) in
  if Rlt_dec 180 ra then - e else e.

(* 186-221 *)
Definition rot_point (e r1 d1 : R) : R * R :=
  let e := e * (PI / 180) in
  let ce := cos e in let se := sin e in
  let r1 := r1 * PI / 180 in let d1 := d1 * PI / 180 in
  let x1 := cos d1 * cos r1 in let y1 := cos d1 * sin r1 in let z1 := sin d1 in
  let y2 := ce * y1 - se * z1 in
  let z2 := ce * z1 + se * y1 in
  let d2 := asin z2 * (180 / PI) in
  let r2 := atan2 y2 x1 * (180 / PI) in
  (if Rlt_dec r2 0 then r2 + 360 else r2, d2).
Definition angrot_vernal (r1 d1 : arr R) (e : R) : outcome (arr (R * R)) :=
  _ <- check (same_dims r1 d1) ;;
  each (dims r1) (length (data r1)) (fun i => a <- oget (data r1) i ;; b <- oget (data d1) i ;; Ok (rot_point e a b)).

(* qxmatch.hpp 684-717: the matrix by rows, at first 0 *)
Definition qdist (ra dec : list R) : outcome (list (list R)) :=
  _ <- check (length ra =? length dec)%nat ;;
  let n := length ra in
  let dra := map (fun x => x * d2r) ra in let ddec := map (fun x => x * d2r) dec in
  let dcdec := map cos ddec in
  let distance i j :=
    rj <- oget dra j ;; ri <- oget dra i ;; dj <- oget ddec j ;; di <- oget ddec i ;; cj <- oget dcdec j ;; ci <- oget dcdec i ;;
    let sra := sin (/ 2 * (rj - ri)) in
    let sde := sin (/ 2 * (dj - di)) in
    let d := sde * sde + sra * sra * cj * ci in
    Ok (3600 * (180 / PI) * 2 * asin (sqrt d)) in
  ofold (fun m i => ofold (fun m j => x <- distance i j ;; row <- oget m j ;; row <- oset row i x ;; oset m j row) (seq (i + 1) (n - (i + 1))) m)
    (seq 0 n) (repeat (repeat 0 n) n).

(* 524-545; a hull that validate (convex_hull.hpp 42-59) has not seen yet, whose test of closure gave closed *)
Definition heron (e1 e2 e3 : R) : R := let p := / 2 * (e1 + e2 + e3) in p * (p - e1) * (p - e2) * (p - e3).
Definition field_area_hull (closed : bool) (hull : list (R * R)) : outcome R :=
  _ <- check (3 <=? length hull)%nat ;;
  _ <- check closed ;;
  let h := map (fun '(x, y) => (x * d2r, y * d2r)) hull in
  area <- ofold (fun area i =>
      ' (x0, y0) <- oget h 0 ;; ' (x1, y1) <- oget h (i - 1) ;; ' (x2, y2) <- oget h i ;;
      let e1 := angdistr x0 y0 x1 y1 in
      let e2 := angdistr x1 y1 x2 y2 in
      let e3 := angdistr x2 y2 x0 y0 in
      Ok (area + sqrt (heron e1 e2 e3))) (seq 2 (length h - 2)) 0 ;;
  Ok (area / sqr d2r).
