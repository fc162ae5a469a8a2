(* Random positions in a region.  Source: include/vif/astro/astro.hpp 713-1026 (rejection_sampling,
   randpos_uniform_box, randpos_uniform_circle, randpos_power_base, randpos_power_circle) and
   include/vif/math/random.hpp 28-45.  The generator is any state with a function that gives a number and the
   next state; numbers are exact rationals.  The point of a circle for two random numbers (cosine,
   sine and square root) is a parameter.  Vectors stay below 2^63 elements.  A status is its success
   only. *)
From Coq Require Import QArith Qround.
From Verif Require Import Base IndexModel.
Local Open Scope nat_scope.

Section Random.
Context {T : Type}.
Variable randomu : T -> Q * T.

Definition resize (v : list Q) (n : nat) : list Q := firstn n v ++ repeat 0%Q (n - length v).
(* iter counts from 0 in 64 bits until it equals max_iter *)
Definition draws (max_iter : Z) : nat := Z.to_nat (if (max_iter =? 0)%Z then two64 else max_iter).

(* 727-734: the loop on one position, with n calls of genpos left before iter equals max_iter *)
Fixpoint attempt (genpos : T -> outcome ((Q * Q) * T)) (in_region : Q -> Q -> bool) (n : nat) (p : Q * Q) (s : T)
  : outcome (option (Q * Q) * T) :=
  if in_region (fst p) (snd p) then Ok (Some p, s) else
  match n with
  | O => Diverge
  | S n =>
      ' (p', s') <- genpos s ;;
      match n with O => Ok (None, s') | _ => attempt genpos in_region n p' s' end
  end.
(* 723-738: i is the next position to fill *)
Fixpoint sample (genpos : T -> outcome ((Q * Q) * T)) (in_region : Q -> Q -> bool) (max_iter : Z) (todo : nat) (i : nat)
  (x y : list Q) (s : T) : outcome (bool * (list Q * list Q) * T) :=
  match todo with
  | O => Ok (true, (x, y), s)
  | S todo =>
      ' (p, s1) <- genpos s ;;
      ' (r, s2) <- attempt genpos in_region (draws max_iter) p s1 ;;
      match r with
      | None => Ok (false, (x, y), s2)
      | Some q =>
          x <- oset x i (fst q) ;; y <- oset y i (snd q) ;;
          sample genpos in_region max_iter todo (i + 1) x y s2
      end
  end.
(* 713-741 *)
Definition rejection_sampling (x y : list Q) (nsrc : nat) (max_iter : Z) genpos in_region (s : T)
  : outcome (bool * (list Q * list Q) * T) :=
  sample genpos in_region max_iter nsrc 0 (resize x nsrc) (resize y nsrc) s.

(* v[i] with the check of the bounds *)
Definition at_ (v : list Q) (i : nat) : outcome Q := match nth_error v i with Some x => Ok x | None => CheckFail end.
(* 772-775 *)
Definition box_pos (rx ry : list Q) (s : T) : outcome ((Q * Q) * T) :=
  let '(u, s1) := randomu s in
  x1 <- at_ rx 1 ;; x0 <- at_ rx 0 ;;
  let '(v, s2) := randomu s1 in
  y1 <- at_ ry 1 ;; y0 <- at_ ry 0 ;;
  Ok ((u * (x1 - x0) + x0, v * (y1 - y0) + y0)%Q, s2).
(* 758-792 *)
Definition uniform_box (nsrc : nat) (rx ry : list Q) (x y : list Q) (in_region : Q -> Q -> bool) (max_iter : Z) (s : T)
  : outcome (bool * (list Q * list Q) * T) :=
  if nsrc =? 0 then Ok (true, ([], []), s) else rejection_sampling x y nsrc max_iter (box_pos rx ry) in_region s.

(* x0 + r0 sqrt(v) cos(2 pi u), y0 + r0 sqrt(v) sin(2 pi u) *)
Variable polar : Q -> Q -> Q -> Q -> Q -> Q * Q.
Fixpoint randomu_n (n : nat) (s : T) : list Q * T :=
  match n with
  | O => ([], s)
  | S n => let '(u, s1) := randomu s in let '(l, s2) := randomu_n n s1 in (u :: l, s2)
  end.
(* 794-803: the angles first, then the radii *)
Definition free_circle (nsrc : nat) (x0 y0 r0 : Q) (s : T) : list (Q * Q) * T :=
  let '(theta, s1) := randomu_n nsrc s in
  let '(r, s2) := randomu_n nsrc s1 in
  (map (fun p => polar x0 y0 r0 (fst p) (snd p)) (combine theta r), s2).
(* 820-826 *)
Definition circle_pos (x0 y0 r0 : Q) (s : T) : outcome ((Q * Q) * T) :=
  let '(u, s1) := randomu s in let '(v, s2) := randomu s1 in Ok (polar x0 y0 r0 u v, s2).
(* 805-843 *)
Definition uniform_circle (nsrc : nat) (x0 y0 r0 : Q) (x y : list Q) (in_region : Q -> Q -> bool) (max_iter : Z) (s : T)
  : outcome (bool * (list Q * list Q) * T) :=
  if nsrc =? 0 then Ok (true, ([], []), s) else rejection_sampling x y nsrc max_iter (circle_pos x0 y0 r0) in_region s.

(* 869-880: the positions of the next level *)
Fixpoint base_level (eta : nat) (r : Q) (cells : list (Q * Q)) (s : T) : list (Q * Q) * T :=
  match cells with
  | [] => ([], s)
  | c :: cells =>
      let '(new, s1) := free_circle eta (fst c) (snd c) r s in
      let '(rest, s2) := base_level eta r cells s1 in (new ++ rest, s2)
  end.
Fixpoint base_levels (levels : nat) (eta : nat) (lambda r : Q) (cells : list (Q * Q)) (s : T) : list (Q * Q) * T :=
  match levels with
  | O => (cells, s)
  | S levels => let '(cells, s) := base_level eta r cells s in base_levels levels eta lambda (r / lambda)%Q cells s
  end.
(* 856-888 *)
Definition power_base (x0 y0 r0 : Q) (levels eta : nat) (lambda : Q) (s : T) : list (Q * Q) * T :=
  base_levels levels eta lambda r0 [(x0, y0)] s.

Variable in_region : Q -> Q -> Q -> bool. (* position and threshold *)
Definition qcount (l : list bool) : nat := length (filter (fun b => b) l).
(* 902-913: nfil = 200 *)
Definition get_fill (x1 y1 r1 threshold : Q) (s : T) : Q * T :=
  let '(p, s) := free_circle 200 x1 y1 r1 s in
  (inject_Z (Z.of_nat (qcount (map (fun p => in_region (fst p) (snd p) threshold) p))) / 200, s)%Q.
Fixpoint fills (r1 threshold : Q) (cells : list (Q * Q)) (s : T) : list Q * T :=
  match cells with
  | [] => ([], s)
  | c :: cells => let '(f, s1) := get_fill (fst c) (snd c) r1 threshold s in let '(l, s2) := fills r1 threshold cells s1 in (f :: l, s2)
  end.
(* 921-929: the options of randpos_uniform_circle are its default ones *)
Definition genpos (x1 y1 r1 : Q) (num : nat) (threshold : Q) (s : T) : outcome (bool * (list Q * list Q) * T) :=
  uniform_circle num x1 y1 r1 [] [] (fun x y => in_region x y threshold) 1000 s.

(* 979-988: one pass over the positions; ngal and dngal *)
Fixpoint assign (miss : nat) (cells : list (nat * Q)) (s : T) : list (nat * Q) * nat * T :=
  match cells with
  | [] => ([], miss, s)
  | (n, d) :: rest =>
      if Qeq_bool d 0 then let '(l, m, s) := assign miss rest s in ((n, d) :: l, m, s)
      else
        let '(u, s) := randomu s in
        if Qle_bool d u then let '(l, m, s) := assign miss rest s in ((n, d) :: l, m, s)
        else
          match miss - 1 with
          | O => ((n + 1, 0%Q) :: rest, 0, s)
          | m => let '(l, m, s) := assign m rest s in ((n + 1, 0%Q) :: l, m, s)
          end
  end.
(* 977-991 *)
Fixpoint reassign (iters : nat) (miss : nat) (cells : list (nat * Q)) (s : T) : list (nat * Q) * nat * T :=
  if miss =? 0 then (cells, 0, s) else
  match iters with
  | O => (cells, miss, s)
  | S iters => let '(cells, miss, s) := assign miss cells s in reassign iters miss cells s
  end.
(* 1001-1018 *)
Fixpoint populate (r1 rth : Q) (cells : list ((Q * Q) * nat)) (s : T) : outcome (bool * list (Q * Q) * T) :=
  match cells with
  | [] => Ok (true, [], s)
  | ((cx, cy), n) :: rest =>
      if n =? 0 then populate r1 rth rest s else
      ' (r, s) <- genpos cx cy r1 n rth s ;;
      let '(good, (tx, ty)) := r in
      if good : bool then
        ' (r, s) <- populate r1 rth rest s ;;
        let '(good, l) := r in Ok (good, combine tx ty ++ l, s)
      else Ok (false, [], s)
  end.
Definition qsum (l : list Q) : Q := fold_left Qplus l 0%Q.
(* 952-1018: one level; false is a failure.  mean(fill) is NaN without positions, which is not
   equal to 0 *)
Definition level (eta : nat) (max_iter : nat) (r1 rth : Q) (cells : list (Q * Q)) (s : T) : outcome (bool * list (Q * Q) * T) :=
  let '(fill, s) := fills r1 rth cells s in
  let mfill := (qsum fill / inject_Z (Z.of_nat (length fill)))%Q in
  _ <- check (match fill with [] => true | _ => negb (Qeq_bool mfill 0) end) ;;
  let want := map (fun f => (inject_Z (Z.of_nat eta) * (f / mfill))%Q) fill in
  let ngal := map (fun w => Z.to_nat (Qfloor w)) want in
  let dngal := map (fun w => (w - inject_Z (Z.of_nat (Z.to_nat (Qfloor w))))%Q) want in
  let miss0 := (Z.of_nat (eta * length cells) - Z.of_nat (fold_left Nat.add ngal 0%nat))%Z in
  if (miss0 <? 0)%Z then UB (* wraps around; see the proofs: never *) else
  let '(ng, miss, s) := reassign max_iter (Z.to_nat miss0) (combine ngal dngal) s in
  if miss =? 0 then populate r1 rth (combine cells (map fst ng)) s else Ok (false, [], s).
Fixpoint levels_loop (eta eta_end : nat) (levels : Z) (max_iter : nat) (lambda : Q) (ls : list Z) (r1 : Q) (cells : list (Q * Q)) (s : T)
  : outcome (bool * list (Q * Q) * T) :=
  match ls with
  | [] => Ok (true, cells, s)
  | l :: ls =>
      let last := (wrap64 (l + 2) =? levels)%Z in
      let r1 := (r1 / lambda)%Q in
      let rth := if last then 0%Q else ((4 # 5) * r1 / lambda)%Q in
      ' (r, s) <- level (if last then eta_end else eta) max_iter r1 rth cells s ;;
      let '(good, new) := r in
      if good : bool then levels_loop eta eta_end levels max_iter lambda ls r1 new s else Ok (false, cells, s)
  end.
(* 893-1026; eta_end is given (931: npos stands for eta) *)
Definition power_circle (x0 y0 r0 : Q) (eta eta_end : nat) (levels : Z) (max_iter : nat) (lambda : Q) (s : T)
  : outcome (bool * list (Q * Q) * T) :=
  let one := (levels <=? 1)%Z in
  let rth := if one then 0%Q else ((4 # 5) * r0 / lambda)%Q in
  ' (r, s) <- genpos x0 y0 r0 (if one then eta_end else eta) rth s ;;
  let '(good, (x, y)) := r in
  if good : bool then
    ls <- for_range_n (wrap64 (levels - 1)) ;;
    levels_loop eta eta_end levels max_iter lambda ls r0 (combine x y) s
  else Ok (false, combine x y, s).
End Random.
