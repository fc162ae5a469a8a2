(* Segmentation of a map into connected components.
   Source: include/vif/astro/image.hpp 833-996.
   The pixel type of the input map only matters through (value == 0): a pixel is [true] when its
   value is not 0.  Labels are uint_t.  The output vectors (id, area, px, py, origin) have one entry
   per segment each and are modelled as one list of records; px and py are doubles holding sums of
   coordinates, here exact, and are kept before the division by the area (964-965). *)
From Coq Require Import NArith.
From Verif Require Import Base IndexModel VecModel ImageModel.

Record seg := Seg { s_id : nat; s_area : nat; s_sx : nat; s_sy : nat; s_origin : nat }.

(* the neighbours of a point that are inspected, in order (933-936 and 849-852), as (y,x);
   dims[0]-1 wraps around for an empty map, for which there is no point to inspect *)
Definition nbrs (n m : nat) (p : nat * nat) : list (nat * nat) :=
  let '(y, x) := p in
  (if y =? 0 then [] else [(y - 1, x)]) ++ (if y =? nsub64 n 1 then [] else [(y + 1, x)]) ++
  (if x =? 0 then [] else [(y, x - 1)]) ++ (if x =? nsub64 m 1 then [] else [(y, x + 1)]).

(* ---- 909-996: segment ---- *)
Record dfs := Dfs { d_map : list bool; d_smap : list nat; d_stack : list (nat * nat);
                    d_area : nat; d_sx : nat; d_sy : nat }.
(* 935-957; the back of ox, oy is the head of d_stack *)
Definition process_point (n m id : nat) (s : dfs) (p : nat * nat) : outcome dfs :=
  let '(ty, tx) := p in
  mp <- pset m (d_map s) ty tx false ;;
  sm <- pset m (d_smap s) ty tx id ;;
  ofold (fun s q =>
      let '(tty, ttx) := q in
      b <- oget (d_map s) (tty * m + ttx) ;;
      Ok (if b : bool
          then Dfs (d_map s) (d_smap s) (q :: d_stack s) (nwrap (d_area s + 1)) (d_sx s + ttx) (d_sy s + tty)
          else s))
    (nbrs n m p) (Dfs mp sm (d_stack s) (d_area s) (d_sx s) (d_sy s)).
(* 963-967 *)
Fixpoint dfs_loop (n m id fuel : nat) (s : dfs) : outcome dfs :=
  match d_stack s with
  | [] => Ok s
  | p :: st =>
      match fuel with
      | 0 => Diverge
      | S fuel =>
          s <- process_point n m id (Dfs (d_map s) (d_smap s) st (d_area s) (d_sx s) (d_sy s)) p ;;
          dfs_loop n m id fuel s
      end
  end.
Record scan := Scan { c_map : list bool; c_smap : list nat; c_id : nat; c_out : list seg }.
(* 919-974, the body of the loop over the pixels *)
Definition visit_pixel (n m : nat) (s : scan) (p : nat * nat) : outcome scan :=
  let '(y, x) := p in
  b <- oget (c_map s) (y * m + x) ;;
  if b : bool then
    d <- process_point n m (c_id s) (Dfs (c_map s) (c_smap s) [] 1 x y) p ;;
    d <- dfs_loop n m (c_id s) (4 * (n * m) + 4) d ;;
    Ok (Scan (d_map d) (d_smap d) (nwrap (c_id s + 1))
          (c_out s ++ [Seg (c_id s) (d_area d) (d_sx d) (d_sy d) (y * m + x)]))
  else Ok s.

(* ---- 833-879: foreach_segment ---- *)
Record bfs := Bfs { b_vis : list nat; b_ids : list nat; b_next : list (nat * nat) }.
(* 841-853 *)
Definition fetch_neighbors (n m cur : nat) (s : bfs) (p : nat * nat) : outcome bfs :=
  ofold (fun s q =>
      let '(tty, ttx) := q in
      v <- oget (b_vis s) (tty * m + ttx) ;;
      if v =? cur then Ok s
      else vis <- oset (b_vis s) (tty * m + ttx) cur ;; Ok (Bfs vis (b_ids s) (b_next s ++ [q])))
    (nbrs n m p) s.
(* 868-873 *)
Definition wave (n m : nat) (sm : list nat) (cur : nat) (s : bfs) (p : nat * nat) : outcome bfs :=
  let '(y, x) := p in
  v <- oget sm (y * m + x) ;;
  if v =? cur then fetch_neighbors n m cur (Bfs (b_vis s) (b_ids s ++ [y * m + x]) (b_next s)) p
  else Ok s.
(* 865-874 *)
Fixpoint waves (n m : nat) (sm : list nat) (cur fuel : nat) (s : bfs) : outcome bfs :=
  match b_next s with
  | [] => Ok s
  | now =>
      match fuel with
      | 0 => Diverge
      | S fuel =>
          s <- ofold (wave n m sm cur) now (Bfs (b_vis s) (b_ids s) []) ;;
          waves n m sm cur fuel s
      end
  end.
(* 855-874, for one segment: the list sids given to the function, and the array visited *)
Definition one_segment (n m : nat) (sm vis : list nat) (mid : nat) : outcome (list nat * list nat) :=
  cur <- (_ <- check (mid <? length sm) ;; oget sm mid) ;;
  t <- mult_ids [n; m] mid ;;
  y <- oget t 0 ;; x <- oget t 1 ;;
  s <- waves n m sm cur (n * m + 2) (Bfs vis [] [(y, x)]) ;;
  Ok (b_ids s, b_vis s).
(* the whole loop, with the list of segments as result *)
Definition segments (n m : nat) (sm : list nat) (mids : list nat) : outcome (list (list nat)) :=
  '(l, _) <- ofold (fun '(l, vis) mid =>
      '(ids, vis) <- one_segment n m sm vis mid ;; Ok (l ++ [ids], vis)) mids ([], repeat 0 (n * m)) ;;
  Ok l.

(* smap[ids] = 0 *)
Definition erase (sm ids : list nat) : outcome (list nat) :=
  ofold (fun d i => _ <- check (i <? length d) ;; oset d i 0) ids sm.
(* 978-985: the function given to foreach_segment changes the map that is being explored *)
Definition erase_small (n m min_area : nat) (sm : list nat) (out : list seg) : outcome (list nat * list nat) :=
  '(sm, _, eids, _) <- ofold (fun '(sm, vis, eids, i) o =>
      '(ids, vis) <- one_segment n m sm vis (s_origin o) ;;
      if length ids <? min_area
      then sm <- erase sm ids ;; Ok (sm, vis, eids ++ [i], i + 1)
      else Ok (sm, vis, eids, i + 1)) out (sm, repeat 0 (n * m), [], 0) ;;
  Ok (sm, eids).
(* inplace_remove of each output vector (C20: keeps the entries whose index is not listed) *)
Definition remove_segs (out : list seg) (eids : list nat) : list seg :=
  map snd (filter (fun p => negb (existsb (Nat.eqb (fst p)) eids)) (combine (seq 0 (length out)) out)).

Definition segment (map_ : img bool) (min_area first_id : nat) : outcome (img nat * list seg) :=
  let n := nr map_ in let m := nc map_ in
  _ <- check (0 <? first_id) ;;
  s <- ofold (visit_pixel n m) (grid n m) (Scan (pix map_) (repeat 0 (n * m)) first_id []) ;;
  if existsb (fun o => s_area o <? min_area) (c_out s)
  then '(sm, eids) <- erase_small n m min_area (c_smap s) (c_out s) ;;
       Ok (Img n m sm, remove_segs (c_out s) eids)
  else Ok (Img n m (c_smap s), c_out s).
