(* Cross matching of catalogues with buckets.  Source: include/vif/astro/qxmatch.hpp, depth_cache
   (44-128) and the bucket algorithm of qxmatch (227-489), linear mode, one thread.
   All finite doubles are multiples of a common unit; coordinates, the size of the buckets and
   the results of sqrt are counted in this unit, and the operations on them are exact.  sqrtf is
   the square root of the C library.  Distances are stored as by distance_proxy: squared. *)
From Verif Require Import Base IndexModel VecModel ImageModel MatModel XmatchModel.
Open Scope Z_scope.

(* min and max of a non empty vector *)
Definition lmin (l : list Z) : Z := fold_right Z.min (hd 0 l) l.
Definition lmax (l : list Z) : Z := fold_right Z.max (hd 0 l) l.

(* rra[0], rdec[0], cell_size = dra = ddec, nra, ndec *)
Record field := Field { f_r0 : Z; f_d0 : Z; f_c : Z; f_nx : nat; f_ny : nat }.
(* 235-276.  A bucket of size 0 divides by zero: the numbers of buckets are computed from an
   infinity or NaN, which is undefined. *)
Definition mk_field (sqrtf : Z -> Z) (ra1 de1 ra2 de2 : list Z) : outcome field :=
  let r0 := Z.min (lmin ra1) (lmin ra2) in let r1 := Z.max (lmax ra1) (lmax ra2) in
  let d0 := Z.min (lmin de1) (lmin de2) in let d1 := Z.max (lmax de1) (lmax de2) in
  let c := sqrtf ((lmax ra2 - lmin ra2) * (lmax de2 - lmin de2)) in
  if c <=? 0 then UB else
  let r0 := r0 - c in let r1 := r1 + c in
  let d0 := d0 - c in let d1 := d1 + c in
  Ok (Field r0 d0 c (Z.to_nat ((r1 - r0) / c)) (Z.to_nat ((d1 - d0) / c))).

(* 287-288: the bucket of source i *)
Definition bucket_of (f : field) (ra de : list Z) (i : nat) : nat * nat :=
  (Z.to_nat ((nth i ra 0 - f_r0 f) / f_c f), Z.to_nat ((nth i de 0 - f_d0 f) / f_c f)).
(* 289-297: every source has to fall in a bucket of the field *)
Definition fill (f : field) (ra de : list Z) : outcome unit :=
  ofold (fun _ i => let '(x, y) := bucket_of f ra de i in check ((x <? f_nx f)%nat && (y <? f_ny f)%nat))
    (seq 0 (length ra)) tt.
(* the sources of bucket (x, y), in the order of the catalogue *)
Definition bucket (f : field) (ra de : list Z) (x y : nat) : list nat :=
  filter (fun i => let '(x', y') := bucket_of f ra de i in (x' =? x)%nat && (y' =? y)%nat) (seq 0 (length ra)).

(* 103-107: 4 times the squared distance (in units of the bucket size) of the nearest corner *)
Definition corner (x y : Z) : Z :=
  Z.min (Z.min ((2*x-1)*(2*x-1) + (2*y-1)*(2*y-1)) ((2*x+1)*(2*x+1) + (2*y-1)*(2*y-1)))
        (Z.min ((2*x+1)*(2*x+1) + (2*y+1)*(2*y+1)) ((2*x-1)*(2*x-1) + (2*y+1)*(2*y+1))).
Definition memp (p : nat * nat) (l : list (nat * nat)) : bool :=
  existsb (fun q => (fst p =? fst q)%nat && (snd p =? snd q)%nat) l.
(* 94-114: the buckets of one quadrant reached for the first time; d = depths.size() after the
   new depth is added; twice max_dist is c*(2d+1) *)
Definition grow (c : Z) (nx ny : nat) (visited : list (nat * nat)) (d : nat) : list (nat * nat) :=
  filter (fun p =>
      (c * c * corner (Z.of_nat (fst p)) (Z.of_nat (snd p)) <=? (c * (2 * Z.of_nat d + 1)) * (c * (2 * Z.of_nat d + 1))) &&
      negb (memp p visited))
    (list_prod (seq 0 (Nat.min (d + 1) nx)) (seq 0 (Nat.min (d + 1) ny))).
(* 57-66 and repeated calls of grow: the new buckets of depth k, and visited after them *)
Fixpoint depth (c : Z) (nx ny k : nat) : list (nat * nat) * list (nat * nat) :=
  match k with
  | O => ([(0, 0)], [(0, 0)])%nat
  | S k' =>
      let visited := snd (depth c nx ny k') in
      let new := grow c nx ny visited (k + 1) in
      (new, visited ++ new)
  end.
(* 116-125 *)
Definition mirror4 (l : list (nat * nat)) : list (Z * Z) :=
  let q (sx sy : Z) := map (fun p => (sx * Z.of_nat (fst p), sy * Z.of_nat (snd p))) l in
  q 1 1 ++ q (-1) 1 ++ q (-1) (-1) ++ q 1 (-1).
(* 74-82, 90-92: depths[k]; the first depth has a single bucket *)
Definition offsets (f : field) (k : nat) : outcome (list (Z * Z)) :=
  match k with
  | O => Ok [(0, 0)]
  | _ => _ <- check ((k <? f_nx f)%nat || (k <? f_ny f)%nat) ;;
         Ok (mirror4 (fst (depth (f_c f) (f_nx f) (f_ny f) k)))
  end.
(* twice max_dist *)
Definition max_dist (f : field) (k : nat) : Z :=
  match k with O => f_c f | _ => f_c f * (2 * Z.of_nat (k + 1) + 1) end.
(* 305-307: twice cell_dist for a source (x, y) of bucket (x0, y0); sqrt(4*x) is 2*sqrt(x) also
   after rounding *)
Definition cell_dist (sqrtf : Z -> Z) (f : field) (x y : Z) (x0 y0 : nat) : Z :=
  let a := 2 * (x - f_r0 f) - (2 * Z.of_nat x0 + 1) * f_c f in
  let b := 2 * (y - f_d0 f) - (2 * Z.of_nat y0 + 1) * f_c f in
  sqrtf (a * a + b * b).
(* 344-345: 20 times the distance before true_to_proxy *)
Definition reached (f : field) (cd : Z) (k : nat) : Z := Z.max 0 (10 * max_dist f k - 11 * cd - 2 * f_c f).
(* d > reached_distance *)
Definition beyond (d : option Z) (r : Z) : bool := match d with Some d => r * r <? 400 * d | None => true end.

(* 302-349 (work1), and 351-389 (work2) with the catalogues exchanged: dist i j is the proxy
   distance, i the source, (x0, y0) its bucket, ids x y the content of a bucket.  The result of a
   source is updated by work of XmatchModel, which is the same code (492-508). *)
Section Search.
Variables (f : field) (dist : nat -> nat -> option Z) (nth_ n : nat) (self : bool).
Variables (ids : nat -> nat -> list nat).
Definition scan_bucket (i : nat) (x y : Z) (r : xres) : outcome xres :=
  if (x <? 0) || (Z.of_nat (f_nx f) <=? x) || (y <? 0) || (Z.of_nat (f_ny f) <=? y) then Ok r
  else
    ofold (fun r j => if self && (i =? j)%nat then Ok r else work dist nth_ n true r i j)
      (ids (Z.to_nat x) (Z.to_nat y)) r.
Fixpoint search (fuel d i x0 y0 : nat) (cd : Z) (r : xres) : outcome xres :=
  match fuel with
  | O => Diverge
  | S fuel =>
      offs <- offsets f d ;;
      r <- ofold (fun r o => scan_bucket i (Z.of_nat x0 + fst o) (Z.of_nat y0 + snd o) r) offs r ;;
      last <- at2 n (x_d r) (nth_ - 1) i ;;
      if beyond last (reached f cd d) && (d + 1 <? Nat.max (f_nx f) (f_ny f))%nat
      then search fuel (d + 1) i x0 y0 cd r
      else Ok r
  end.
End Search.

(* 198-200 *)
Definition proxy (ra1 de1 ra2 de2 : list Z) (i j : nat) : option Z :=
  let a := nth j ra2 0 - nth i ra1 0 in let b := nth j de2 0 - nth i de1 0 in
  Some (a * a + b * b).

(* all sources of the first catalogue *)
Definition search_all (sqrtf : Z -> Z) (f : field) (ra1 de1 ra2 de2 : list Z) (rows nth_ : nat) (self : bool) : outcome xres :=
  let n1 := length ra1 in
  ofold (fun r i =>
      let '(x0, y0) := bucket_of f ra1 de1 i in
      let cd := cell_dist sqrtf f (nth i ra1 0) (nth i de1 0) x0 y0 in
      search f (proxy ra1 de1 ra2 de2) nth_ n1 self (bucket f ra2 de2) (Nat.max (f_nx f) (f_ny f)) 0 i x0 y0 cd r)
    (seq 0 n1) (empty_res rows n1 0 true).
(* 140-165, 227-408 without brute_force, linear, thread <= 1.  The flag set for small catalogues
   at 231 is already false. *)
Definition qxmatch_bucket (sqrtf : Z -> Z) (ra1 de1 ra2 de2 : list Z) (nth0 : nat) (self no_mirror : bool) : outcome xres :=
  let n1 := length ra1 in let n2 := length ra2 in
  _ <- check (n1 =? length de1)%nat ;; _ <- check (n2 =? length de2)%nat ;;
  let nth0 := Nat.max nth0 1 in
  let m := if no_mirror then 0%nat else n2 in
  if (n1 =? 0)%nat || (n2 =? 0)%nat then Ok (empty_res nth0 n1 n2 no_mirror) else
  f <- mk_field sqrtf ra1 de1 ra2 de2 ;;
  _ <- fill f ra1 de1 ;; _ <- fill f ra2 de2 ;;
  let nth_ := if (n2 <? nth0)%nat then n2 else nth0 in
  r <- search_all sqrtf f ra1 de1 ra2 de2 nth0 nth_ self ;;
  if self || no_mirror then Ok (XRes (x_id r) (x_d r) (repeat None m) (repeat None m))
  else
    r2 <- search_all sqrtf f ra2 de2 ra1 de1 1 1 false ;;
    Ok (XRes (x_id r) (x_d r) (x_id r2) (x_d r2)).
