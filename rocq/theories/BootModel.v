(* Stacks of images and their bootstrap: include/vif/astro/qstack.hpp 358-461.
   The random numbers are a given sequence u, read from position pos on; the values of the images are exact
   rationals (a median also takes NaN, and an average is None when it is not a number or infinite). *)
From Coq Require Import QArith.
From Verif Require Import Base.
From Verif Require RandintModel OrderModel ReduceModel.
Local Open Scope nat_scope.

(* vec<3,T>: the images follow one another *)
Record cube (A : Type) := mk_cube { n0 : nat; n1 : nat; n2 : nat; dat : list A }.
Arguments mk_cube {A}. Arguments n0 {A}. Arguments n1 {A}. Arguments n2 {A}. Arguments dat {A}.
(* vec<2,T> *)
Record img (A : Type) := mk_img { m1 : nat; m2 : nat; pix : list A }.
Arguments mk_img {A}. Arguments m1 {A}. Arguments m2 {A}. Arguments pix {A}.

(* cube(ids,_,_): every index is checked *)
Definition take_image {A} (c : cube A) (id : Z) : outcome (list A) :=
  _ <- check ((0 <=? id) && (id <? Z.of_nat (n0 c)))%Z ;;
  omapl (fun p => oget (dat c) (Z.to_nat id * (n1 c * n2 c) + p)) (seq 0 (n1 c * n2 c)).
Definition choose {A} (c : cube A) (ids : list Z) : outcome (cube A) :=
  l <- omapl (take_image c) ids ;; Ok (mk_cube (length ids) (n1 c) (n2 c) (concat l)).

(* partial_f(0, cube) *)
Definition along {A B} (f : list A -> outcome B) (c : cube A) : outcome (img B) :=
  l <- omapl (fun p => s <- omapl (fun i => oget (dat c) (i * (n1 c * n2 c) + p)) (seq 0 (n0 c)) ;; f s) (seq 0 (n1 c * n2 c)) ;;
  Ok (mk_img (n1 c) (n2 c) l).
Definition quot (a b : Q) : option Q := if Qeq_bool b 0 then None else Some (a / b)%Q.
Definition sum (l : list Q) : Q := fold_left Qplus l 0%Q.
(* 358-361 *)
Definition qstack_mean (c : cube Q) : outcome (img (option Q)) := along (fun s => Ok (quot (sum s) (inject_Z (Z.of_nat (length s))))) c.
(* 363-366; fcube*wcube checks the dimensions *)
Definition qstack_wmean (f w : cube Q) : outcome (img (option Q)) :=
  _ <- check ((n0 f =? n0 w) && (n1 f =? n1 w) && (n2 f =? n2 w))%bool ;;
  a <- along (fun s => Ok (sum s)) (mk_cube (n0 f) (n1 f) (n2 f) (map (fun xy => fst xy * snd xy)%Q (combine (dat f) (dat w)))) ;;
  b <- along (fun s => Ok (sum s)) w ;;
  Ok (mk_img (m1 a) (m2 a) (map (fun xy => quot (fst xy) (snd xy)) (combine (pix a) (pix b)))).
(* 368-371 *)
Definition qstack_median (c : cube OrderModel.fnum) : outcome (img OrderModel.fnum) := along ReduceModel.median c.

(* vec.hpp 262-283: push_back of an image; the result is empty at first *)
Definition no_images {A} : cube A := mk_cube 0 0 0 [].
Definition push_back {A} (b : cube A) (t : img A) : outcome (cube A) :=
  if length (dat b) =? 0 then Ok (mk_cube 1 (m1 t) (m2 t) (pix t))
  else _ <- check ((n1 b =? m1 t) && (n2 b =? m2 t))%bool ;; Ok (mk_cube (n0 b + 1) (n1 b) (n2 b) (dat b ++ pix t)).

Section Rounding.
Variable rnd : Q -> Q.
Variable u : nat -> Q.
(* randomi(seed, 0, nsrc-1, nsel): 64-bit unsigned *)
Definition draw (nsrc nsel pos : nat) : outcome (list Z) :=
  RandintModel.randomi rnd RandintModel.uint64 0 (wrap64 (Z.of_nat nsrc - 1)) (map u (seq pos nsel)).

(* 373-395 and 400-419: the arguments of the calls of func, and the position afterwards; the number of sources is
   that of the first cube *)
Fixpoint bootstrap {A} (nb nsel nsrc : nat) (cubes : list (cube A)) (pos : nat) : outcome (list (list (cube A)) * nat) :=
  match nb with
  | 0 => Ok ([], pos)
  | S nb =>
      ids <- draw nsrc nsel pos ;; cs <- omapl (fun c => choose c ids) cubes ;;
      ' (r, e) <- bootstrap nb nsel nsrc cubes (pos + nsel) ;; Ok (cs :: r, e)
  end.
Definition first_size {A} (cubes : list (cube A)) : nat := match cubes with c :: _ => n0 c | [] => 0 end.
Definition qstack_bootstrap {A} (nb nsel : nat) (cubes : list (cube A)) (pos : nat) := bootstrap nb nsel (first_size cubes) cubes pos.

(* 421-433, 449-461 with stack the mean or the median *)
Fixpoint stack_loop {A B} (stack : cube A -> outcome (img B)) (nb nsel : nat) (c : cube A) (pos : nat) (bs : cube B) : outcome (cube B * nat) :=
  match nb with
  | 0 => Ok (bs, pos)
  | S nb =>
      ids <- draw (n0 c) nsel pos ;; t <- choose c ids ;; m <- stack t ;; bs <- push_back bs m ;;
      stack_loop stack nb nsel c (pos + nsel) bs
  end.
Definition qstack_mean_bootstrap (c : cube Q) (nb nsel pos : nat) := stack_loop qstack_mean nb nsel c pos no_images.
Definition qstack_median_bootstrap (c : cube OrderModel.fnum) (nb nsel pos : nat) := stack_loop qstack_median nb nsel c pos no_images.
(* 435-447 *)
Fixpoint wstack_loop (nb nsel : nat) (f w : cube Q) (pos : nat) (bs : cube (option Q)) : outcome (cube (option Q) * nat) :=
  match nb with
  | 0 => Ok (bs, pos)
  | S nb =>
      ids <- draw (n0 f) nsel pos ;; tf <- choose f ids ;; tw <- choose w ids ;; m <- qstack_wmean tf tw ;; bs <- push_back bs m ;;
      wstack_loop nb nsel f w (pos + nsel) bs
  end.
Definition qstack_wmean_bootstrap (f w : cube Q) (nb nsel pos : nat) := wstack_loop nb nsel f w pos no_images.
End Rounding.
