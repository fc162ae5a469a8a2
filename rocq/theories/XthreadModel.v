(* Cross matching with buckets on several threads.  Source: include/vif/astro/qxmatch.hpp 408-489.
   Each thread works on its own result (vres[t], 418-424) and on its own copy of the depths; the
   buckets are only read, and the results are merged after all threads are joined (472-488): the
   interleaving does not matter.  The numbers of sources per thread,
   floor(n/float(thread)), are parameters because of the rounding of the float. *)
From Verif Require Import Base IndexModel VecModel ImageModel MatModel XmatchModel XbuckModel.
Local Open Scope nat_scope.

(* the body of the loops over sources: work1 (302-349), and work2 (351-389) with the catalogues
   exchanged *)
Definition search_one (sqrtf : Z -> Z) (f : field) (ra1 de1 ra2 de2 : list Z) (nth_ : nat) (self : bool) (r : xres) (i : nat) : outcome xres :=
  let '(x0, y0) := bucket_of f ra1 de1 i in
  let cd := cell_dist sqrtf f (nth i ra1 0%Z) (nth i de1 0%Z) x0 y0 in
  search f (proxy ra1 de1 ra2 de2) nth_ (length ra1) self (bucket f ra2 de2) (Nat.max (f_nx f) (f_ny f)) 0 i x0 y0 cd r.
(* 449-452 and 454-459: the sources tbeg <= i < tend *)
Definition search_range (sqrtf : Z -> Z) (f : field) (ra1 de1 ra2 de2 : list Z) (rows nth_ : nat) (self : bool) (tbeg tend : nat) : outcome xres :=
  ofold (search_one sqrtf f ra1 de1 ra2 de2 nth_ self) (seq tbeg (tend - tbeg)) (empty_res rows (length ra1) 0 true).

(* 438-445: the first source of thread t, and the one after its last; assigned is replaced for
   the last thread by what is left *)
Definition first_of (assigned t : nat) : nat := t * assigned.
Definition last_of (n thread assigned t : nat) : nat := if t =? thread - 1 then n else t * assigned + assigned.

(* 140-165, 227-300, 408-489: bucket algorithm, linear, thread > 1.  assigned1 and assigned2 are
   the numbers of sources per thread of the two catalogues.  The matches of work2 are kept as
   the result of a search with one row. *)
Definition qxmatch_threads (sqrtf : Z -> Z) (ra1 de1 ra2 de2 : list Z) (nth0 : nat) (self no_mirror : bool)
    (thread assigned1 assigned2 : nat) : outcome xres :=
  let n1 := length ra1 in let n2 := length ra2 in
  _ <- check (n1 =? length de1) ;; _ <- check (n2 =? length de2) ;;
  let nth0 := Nat.max nth0 1 in
  let m := if no_mirror then 0 else n2 in
  if (n1 =? 0) || (n2 =? 0) then Ok (empty_res nth0 n1 n2 no_mirror) else
  f <- mk_field sqrtf ra1 de1 ra2 de2 ;;
  _ <- fill f ra1 de1 ;; _ <- fill f ra2 de2 ;;
  let nth_ := if n2 <? nth0 then n2 else nth0 in
  (* 449-459 *)
  vres <- omapl (fun t =>
      v <- search_range sqrtf f ra1 de1 ra2 de2 nth0 nth_ self (first_of assigned1 t) (last_of n1 thread assigned1 t) ;;
      w <- (if self || no_mirror then Ok (empty_res 1 n2 0 true)
            else search_range sqrtf f ra2 de2 ra1 de1 1 1 false (first_of assigned2 t) (last_of n2 thread assigned2 t)) ;;
      Ok (v, w)) (seq 0 thread) ;;
  (* 477-488 *)
  ofold (fun r '(t, (v, w)) =>
      let b1 := first_of assigned1 t in let e1 := last_of n1 thread assigned1 t in
      id <- copy_cols nth0 n1 b1 e1 (x_id v) (x_id r) ;;
      d <- copy_cols nth0 n1 b1 e1 (x_d v) (x_d r) ;;
      if no_mirror then Ok (XRes id d (x_rid r) (x_rd r))
      else
        let b2 := first_of assigned2 t in let e2 := last_of n2 thread assigned2 t in
        rid <- copy_cols 1 n2 b2 e2 (x_id w) (x_rid r) ;;
        rd <- copy_cols 1 n2 b2 e2 (x_d w) (x_rd r) ;;
        Ok (XRes id d rid rd))
    (combine (seq 0 thread) vres) (XRes (repeat None (nth0 * n1)) (repeat None (nth0 * n1)) (repeat None m) (repeat None m)).
