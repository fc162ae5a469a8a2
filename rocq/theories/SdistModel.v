(* Expansion of segments over the whole map.  Source: include/vif/astro/image.hpp 1281-1391.
   Labels are uint_t; squared distances are doubles holding integers (exact); infinity and npos are
   None.  A vector used as a stack has its back at the head of the list; the pairs of vectors (oy, ox)
   and (toy, tox) are lists of points. *)
From Coq Require Import NArith.
From Verif Require Import Base IndexModel VecModel ImageModel SegModel.

Notation point := (nat * nat)%type.

(* ---- 1296-1345: the segments and their neighbours ---- *)
Record flood := Flood { f_map : list nat; f_omap : list nat; f_d : list (option Z); f_i : list (option nat);
                        f_stack : list point; f_seeds : list point }.
(* 1316-1329: check_add, around the point p *)
Definition flood_add (m id : nat) (p : point) (s : flood) (q : point) : outcome flood :=
  let '(ty, tx) := p in let '(tty, ttx) := q in
  a <- oget (f_omap s) (tty * m + ttx) ;;
  if a =? id then Ok (Flood (f_map s) (f_omap s) (f_d s) (f_i s) (q :: f_stack s) (f_seeds s))
  else
    b <- oget (f_map s) (tty * m + ttx) ;;
    if b =? 0 then
      mp <- pset m (f_map s) tty ttx id ;;
      d <- pset m (f_d s) tty ttx (Some 1%Z) ;;
      i <- pset m (f_i s) tty ttx (Some (ty * m + tx)) ;;
      Ok (Flood mp (f_omap s) d i (f_stack s) (q :: f_seeds s))
    else Ok s.
(* 1308-1336: process_point *)
Definition flood_point (n m id : nat) (s : flood) (p : point) : outcome flood :=
  let '(ty, tx) := p in
  om <- pset m (f_omap s) ty tx 0 ;;
  d <- pset m (f_d s) ty tx (Some 0%Z) ;;
  i <- pset m (f_i s) ty tx (Some (ty * m + tx)) ;;
  ofold (flood_add m id p) (nbrs n m p) (Flood (f_map s) om d i (f_stack s) (f_seeds s)).
(* 1340-1344 *)
Fixpoint flood_loop (n m id fuel : nat) (s : flood) : outcome flood :=
  match f_stack s with
  | [] => Ok s
  | p :: st =>
      match fuel with
      | 0 => Diverge
      | S fuel =>
          s <- flood_point n m id (Flood (f_map s) (f_omap s) (f_d s) (f_i s) st (f_seeds s)) p ;;
          flood_loop n m id fuel s
      end
  end.
(* states holds (id, points) *)
Record setup := Setup { u_map : list nat; u_omap : list nat; u_d : list (option Z); u_i : list (option nat);
                        u_states : list (nat * list point) }.
(* 1300-1345, the body of the loop over the pixels *)
Definition visit (n m : nat) (s : setup) (p : point) : outcome setup :=
  let '(y, x) := p in
  a <- oget (u_omap s) (y * m + x) ;;
  if a =? 0 then Ok s
  else
    id <- oget (u_map s) (y * m + x) ;;
    f <- flood_point n m id (Flood (u_map s) (u_omap s) (u_d s) (u_i s) [] []) p ;;
    f <- flood_loop n m id (4 * (n * m) + 4) f ;;
    Ok (Setup (f_map f) (f_omap f) (f_d f) (f_i f) (u_states s ++ [(id, f_seeds f)])).

(* ---- 1347-1385: growth ---- *)
Record grow := Grow { g_map : list nat; g_d : list (option Z); g_i : list (option nat); g_new : list point }.
Definition farther (d : option Z) (nd : Z) : bool := match d with None => true | Some d => (nd <? d)%Z end.
(* 1359-1371: check_add; o is imap.safe(ty,tx) *)
Definition sqdist (m o tty ttx : nat) : Z :=
  let ox := Z.of_nat (o mod m) in let oy := Z.of_nat (o / m) in
  ((Z.of_nat tty - oy) * (Z.of_nat tty - oy) + (Z.of_nat ttx - ox) * (Z.of_nat ttx - ox))%Z.
Definition grow_add (m id : nat) (p : point) (s : grow) (q : point) : outcome grow :=
  let '(ty, tx) := p in let '(tty, ttx) := q in
  o <- oget (g_i s) (ty * m + tx) ;;
  match o with
  | None => UB                                     (* npos: never happens, C93_total *)
  | Some o =>
      let nd := sqdist m o tty ttx in
      d <- oget (g_d s) (tty * m + ttx) ;;
      if farther d nd then
        mp <- pset m (g_map s) tty ttx id ;;
        i <- pset m (g_i s) tty ttx (Some o) ;;
        d <- pset m (g_d s) tty ttx (Some nd) ;;
        Ok (Grow mp d i (q :: g_new s))
      else Ok s
  end.
(* 1356-1377 *)
Definition grow_point (n m id : nat) (s : grow) (p : point) : outcome grow :=
  ofold (grow_add m id p) (nbrs n m p) s.
(* 1350-1384: one turn of all states *)
Fixpoint turn (n m : nat) (sts : list (nat * list point)) (s : grow) : outcome (list (nat * list point) * grow) :=
  match sts with
  | [] => Ok ([], s)
  | (id, pts) :: sts =>
      s <- ofold (grow_point n m id) pts (Grow (g_map s) (g_d s) (g_i s) []) ;;
      ' (rest, s') <- turn n m sts s ;;
      Ok ((id, g_new s) :: rest, s')
  end.
Definition starved (sts : list (nat * list point)) : bool :=
  forallb (fun st => match snd st with [] => true | _ => false end) sts.
(* 1348-1385 *)
Fixpoint grow_loop (n m fuel : nat) (sts : list (nat * list point)) (s : grow) : outcome grow :=
  if starved sts then Ok s
  else match fuel with
       | 0 => Diverge
       | S fuel => ' (sts, s) <- turn n m sts s ;; grow_loop n m fuel sts s
       end.

(* 1281-1391: the final map, dmap and imap *)
Definition segment_distance (map_ : img nat) : outcome (img nat * img (option Z) * img (option nat)) :=
  let n := nr map_ in let m := nc map_ in
  d <- filled (@None Z) n m ;;
  i <- filled (@None nat) n m ;;
  u <- ofold (visit n m) (grid n m) (Setup (pix map_) (pix map_) (pix d) (pix i) []) ;;
  s <- grow_loop n m ((n * m) * (n * n + m * m) + 1) (u_states u) (Grow (u_map u) (u_d u) (u_i u) []) ;;
  Ok (Img n m (g_map s), Img n m (g_d s), Img n m (g_i s)).
