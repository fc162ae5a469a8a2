(* Segmentation with deblending.  Source: include/vif/astro/image.hpp 992-1279 (segment_deblend).
   Values of pixels are doubles: exact rationals, infinities and NaN; all sums are exact.  Labels and
   areas are nat: first_id and the number of pixels together stay below 2^64.  A pixel is a pair
   (y, x), and the pairs of vectors (oy, ox), (toy, tox) are lists of pixels.  The capacities reserved
   in lines 1055-1063 have no effect. *)
From Coq Require Import QArith.
From Verif Require Import Base IndexModel VecModel ImageModel SegModel OrderModel.
Local Open Scope nat_scope.

Notation point := (nat * nat)%type.
Inductive dbl := Fin (q : Q) | Pinf | Ninf | Nan.
(* the order of sort(): NaN last *)
Definition dlt (x y : dbl) : bool :=
  match x, y with
  | Nan, _ => false | _, Nan => true
  | Pinf, _ => false | _, Pinf => true
  | _, Ninf => false | Ninf, _ => true
  | Fin a, Fin b => negb (Qle_bool b a)
  end.
Definition finite (x : dbl) : bool := match x with Fin _ => true | _ => false end.
(* img[mid] >= threshold *)
Definition above (x : dbl) (t : Q) : bool :=
  match x with Fin q => Qle_bool t q | Pinf => true | Ninf | Nan => false end.

(* 992-1004 *)
Record params := Params { p_detect : Q; p_deblend : Q; p_min : nat; p_first : nat; p_flim : Q }.

(* mult_ids(img, k) *)
Definition coords (n m k : nat) : outcome point :=
  t <- mult_ids [n; m] k ;; y <- oget t 0 ;; x <- oget t 1 ;; Ok (y, x).
Definition sq_dist (p q : point) : Z :=
  let dy := (Z.of_nat (fst p) - Z.of_nat (fst q))%Z in let dx := (Z.of_nat (snd p) - Z.of_nat (snd q))%Z in
  (dy * dy + dx * dx)%Z.
(* d < closest, with infinity as None *)
Definition closer (d : Z) (c : option Z) : bool := match c with None => true | Some c => (d <? c)%Z end.
(* tseg - first_id as an index: a smaller tseg would wrap around *)
Definition slot {A} (first : nat) (l : list A) (tseg : nat) : outcome A :=
  if tseg <? first then UB else oget l (tseg - first).

(* 1039-1051, 1137-1150 and 1186-1199: the neighbours that are not marked with c *)
Definition mark (m c : nat) (s : list nat * list point) (q : point) : outcome (list nat * list point) :=
  let '(vis, next) := s in
  v <- oget vis (fst q * m + snd q) ;;
  if v =? c then Ok s else vis <- oset vis (fst q * m + snd q) c ;; Ok (vis, next ++ [q]).
Definition explore (n m c : nat) (s : list nat * list point) (p : point) : outcome (list nat * list point) :=
  ofold (mark m c) (nbrs n m p) s.

(* ---- 1070-1122: each bright pixel, from the brightest on, joins a segment or begins one ---- *)
Record search := Search { s_vis : list nat; s_next : list point; s_neib : nat; s_closest : option Z }.
(* 1087-1102 *)
Definition look (n m c first : nat) (seg orig : list nat) (s : search) (p : point) : outcome search :=
  tseg <- oget seg (fst p * m + snd p) ;;
  s <- (if tseg =? 0 then Ok s
        else
          o <- slot first orig tseg ;; t <- coords n m o ;;
          let d := sq_dist p t in
          if closer d (s_closest s) then Ok (Search (s_vis s) (s_next s) tseg (Some d)) else Ok s) ;;
  if s_neib s =? 0
  then ' (vis, next) <- explore n m c (s_vis s, s_next s) p ;; Ok (Search vis next (s_neib s) (s_closest s))
  else Ok s.
(* 1083-1106 *)
Fixpoint search_loop (n m c first : nat) (seg orig : list nat) (deblend : Q) (fuel iter : nat) (s : search) : outcome search :=
  match s_next s with
  | [] => Ok s
  | pts =>
      if (s_neib s =? 0) && negb (Qle_bool deblend (inject_Z (Z.of_nat iter)))
      then match fuel with
           | 0 => Diverge
           | S fuel =>
               s <- ofold (look n m c first seg orig) pts (Search (s_vis s) [] (s_neib s) (s_closest s)) ;;
               search_loop n m c first seg orig deblend fuel (S iter) s
           end
      else Ok s
  end.
Record blend := Blend { b_vis : list nat; b_seg : list nat; b_id : nat;
                        b_ids : list nat; b_orig : list nat; b_peak : list point }.
(* 1070-1118; mid is a position in the image, so that mult_ids and the accesses with [] succeed *)
Definition place (n m : nat) (P : params) (b : blend) (ipos mid : nat) : outcome blend :=
  p <- coords n m mid ;;
  vis <- oset (b_vis b) mid ipos ;;
  s <- search_loop n m ipos (p_first P) (b_seg b) (b_orig b) (p_deblend P) (n + m) 0 (Search vis [p] 0 None) ;;
  if 0 <? s_neib s
  then seg <- oset (b_seg b) mid (s_neib s) ;;
       Ok (Blend (s_vis s) seg (b_id b) (b_ids b) (b_orig b) (b_peak b))
  else seg <- oset (b_seg b) mid (b_id b) ;;
       Ok (Blend (s_vis s) seg (S (b_id b)) (b_ids b ++ [b_id b]) (b_orig b ++ [mid]) (b_peak b ++ [p])).
(* 1067-1122: the loop stops when ipos = 0 *)
Fixpoint detect (n m : nat) (P : params) (img : list dbl) (sid : list nat) (ipos : nat) (b : blend) : outcome blend :=
  mid <- oget sid ipos ;; v <- oget img mid ;;
  if above v (p_detect P)
  then match ipos with
       | 0 => Ok b
       | S k => b <- place n m P b ipos mid ;; detect n m P img sid k b
       end
  else Ok b.
(* 1031-1035 *)
Fixpoint skip (img : list dbl) (sid : list nat) (ipos : nat) : outcome nat :=
  mid <- oget sid ipos ;; v <- oget img mid ;;
  if finite v then Ok ipos else match ipos with 0 => Ok 0 | S k => skip img sid k end.

(* ---- exploration of a segment, wave by wave (1162-1182 and 1214-1239) ---- *)
(* lab holds the labels; act is what is done for each pixel, whose label is given *)
Section Waves.
Context {A : Type} (n m cur : nat) (lab : list nat) (act : A -> nat -> point -> outcome A).
Definition wstep (s : A * (list nat * list point)) (p : point) : outcome (A * (list nat * list point)) :=
  let '(a, vn) := s in
  l <- oget lab (fst p * m + snd p) ;;
  a <- act a l p ;;
  if l =? cur then vn <- explore n m cur vn p ;; Ok (a, vn) else Ok (a, vn).
Fixpoint wloop (fuel : nat) (a : A) (vis : list nat) (pts : list point) : outcome (A * list nat) :=
  match pts with
  | [] => Ok (a, vis)
  | _ =>
      match fuel with
      | 0 => Diverge
      | S fuel => ' (a, (vis, next)) <- ofold wstep pts (a, (vis, [])) ;; wloop fuel a vis next
      end
  end.
End Waves.

(* area, flux, by, bx and flx_centroid of a segment *)
Record tally := Tally { t_area : nat; t_flux : Q; t_by : Q; t_bx : Q; t_fc : Q }.
(* a labelled pixel is finite (C94_total) *)
Definition value (img : list dbl) (k : nat) : outcome Q :=
  v <- oget img k ;; match v with Fin q => Ok q | _ => UB end.
Definition coord (k : nat) : Q := inject_Z (Z.of_nat k).
(* 1173-1177 and 1251-1256 *)
Definition centre (lim v : Q) (p : point) (t : tally) : tally :=
  if Qle_bool lim v
  then Tally (t_area t) (t_flux t) (t_by t + coord (fst p) * v)%Q (t_bx t + coord (snd p) * v)%Q (t_fc t + v)%Q
  else t.
(* 1168-1177 *)
Definition account (lim v : Q) (p : point) (t : tally) : tally :=
  centre lim v p (Tally (S (t_area t)) (t_flux t + v)%Q (t_by t) (t_bx t) (t_fc t)).

(* ---- 1124-1182: the pixels connected to the peak are kept ---- *)
Definition gather (m cur : nat) (img : list dbl) (lim : Q) (a : list nat * tally) (l : nat) (p : point) : outcome (list nat * tally) :=
  if l =? cur
  then let '(seg, t) := a in
       seg <- oset seg (fst p * m + snd p) cur ;; v <- value img (fst p * m + snd p) ;; Ok (seg, account lim v p t)
  else Ok a.
(* out.area etc. are set to zeros and entry s is then filled: here it is appended *)
Definition island (n m : nat) (P : params) (img : list dbl) (old ids orig : list nat)
    (s : list nat * list nat * list tally) (k : nat) : outcome (list nat * list nat * list tally) :=
  let '(seg, vis, ts) := s in
  cur <- oget ids k ;;
  o <- (_ <- check (k <? length orig) ;; oget orig k) ;;
  p <- coords n m o ;; pk <- value img o ;;
  ' ((seg, t), vis) <- wloop n m cur old (gather m cur img (p_flim P * pk)%Q) (n * m + 2) (seg, Tally 0 0 0 0 0) vis [p] ;;
  Ok (seg, vis, ts ++ [t]).

(* ---- 1184-1265: small segments go to the neighbour with the closest peak, or are erased ---- *)
Record edge := Edge { e_ids : list nat; e_neib : nat; e_closest : option Z }.
(* 1219-1237 *)
Definition border (n m cur : nat) (P : params) (orig : list nat) (ts : list tally) (a : edge) (l : nat) (p : point) : outcome edge :=
  if l =? 0 then Ok a
  else if l =? cur then Ok (Edge (e_ids a ++ [fst p * m + snd p]) (e_neib a) (e_closest a))
  else
    t <- slot (p_first P) ts l ;;
    if p_min P <=? t_area t
    then o <- slot (p_first P) orig l ;; c <- coords n m o ;;
         let d := sq_dist p c in
         if closer d (e_closest a) then Ok (Edge (e_ids a) l (Some d)) else Ok a
    else Ok a.
(* 1245-1258 *)
Definition absorb (n m : nat) (img : list dbl) (lim : Q) (small t : tally) (ids : list nat) : outcome tally :=
  ofold (fun t i => v <- value img i ;; p <- coords n m i ;; Ok (centre lim v p t)) ids
    (Tally (t_area t + t_area small) (t_flux t + t_flux small)%Q (t_by t) (t_bx t) (t_fc t)).
Definition merge (n m : nat) (P : params) (img : list dbl) (ids orig : list nat)
    (s : list nat * list nat * list tally * list nat) (k : nat) : outcome (list nat * list nat * list tally * list nat) :=
  let '(seg, vis, ts, eids) := s in
  cur <- oget ids k ;; small <- oget ts k ;;
  if p_min P <=? t_area small then Ok s
  else
    o <- oget orig k ;; p <- coords n m o ;;
    ' (e, vis) <- wloop n m cur seg (border n m cur P orig ts) (n * m + 2) (Edge [] 0 None) vis [p] ;;
    seg <- ofold (fun d i => oset d i (e_neib e)) (e_ids e) seg ;;
    if e_neib e =? 0 then Ok (seg, vis, ts, eids ++ [k])
    else
      t <- slot (p_first P) ts (e_neib e) ;; ob <- slot (p_first P) orig (e_neib e) ;; pk <- value img ob ;;
      t <- absorb n m img (p_flim P * pk)%Q small t (e_ids e) ;;
      ts <- oset ts (e_neib e - p_first P) t ;;
      Ok (seg, vis, ts, eids ++ [k]).
(* inplace_remove (C20: keeps the entries whose index is not listed) *)
Definition drop_at {A} (eids : list nat) (l : list A) : list A :=
  map snd (filter (fun p => negb (existsb (Nat.eqb (fst p)) eids)) (combine (seq 0 (length l)) l)).

(* out: by and bx are divided by flx_centroid at the end (1267-1269), see mean_y and mean_x *)
Record output := Output { o_id : list nat; o_origin : list nat; o_peak : list point; o_tally : list tally }.
Definition quot (a b : Q) : option Q := if Qeq_bool b 0 then None else Some (a / b)%Q.
Definition mean_y (t : tally) : option Q := quot (t_by t) (t_fc t).
Definition mean_x (t : tally) : option Q := quot (t_bx t) (t_fc t).

(* 1018-1272.  [old_ids] is out.id at the beginning: it is not emptied, contrary to out.area and
   out.origin.  The other members of out have the size of out.id; when they are not empty the call
   does not return (C94_reuse_abort) *)
Definition segment_deblend (image : img dbl) (P : params) (old_ids : list nat) : outcome (img nat * output) :=
  let n := nr image in let m := nc image in let im := pix image in
  _ <- check (0 <? p_first P) ;;
  if n * m =? 0 then UB                            (* sid.safe[npos] *)
  else
    let sid := sort dlt im in
    ipos <- skip im sid (length sid - 1) ;;
    b <- detect n m P im sid ipos (Blend (repeat 0 (n * m)) (repeat 0 (n * m)) (p_first P) old_ids [] []) ;;
    ' (seg, vis, ts) <- ofold (island n m P im (b_seg b) (b_ids b) (b_orig b)) (seq 0 (length (b_ids b)))
        (repeat 0 (n * m), repeat 0 (n * m), []) ;;
    if existsb (fun t => t_area t <? p_min P) ts
    then
      ' (seg, _, ts, eids) <- ofold (merge n m P im (b_ids b) (b_orig b)) (seq 0 (length (b_ids b)))
          (seg, repeat 0 (n * m), ts, []) ;;
      Ok (Img n m seg, Output (drop_at eids (b_ids b)) (drop_at eids (b_orig b)) (drop_at eids (b_peak b)) (drop_at eids ts))
    else Ok (Img n m seg, Output (b_ids b) (b_orig b) (b_peak b) ts).
