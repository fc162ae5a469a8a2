(* What a user expects of the segmentation with deblending. *)
From Coq Require Import QArith Sorted.
From Verif Require Import Base ImageModel ImageSpec SegSpec SdistSpec DblendModel.
Local Open Scope nat_scope.

(* order of the values: -infinity, numbers, infinity, NaN *)
Definition level (x : dbl) : nat := match x with Ninf => 0 | Fin _ => 1 | Pinf => 2 | Nan => 3 end.
Definition below (x y : dbl) : Prop :=
  level x < level y \/ exists a b, x = Fin a /\ y = Fin b /\ (a < b)%Q.
(* p is treated before q: it is brighter, or as bright and after q in the image *)
Definition precedes (v : img dbl) (p q : nat * nat) : Prop :=
  exists x y, at_ v p = Some x /\ at_ v q = Some y /\
    (below y x \/ ~ below x y /\ ~ below y x /\ before q p).
(* the pixels that are segmented: finite, above the threshold, and not the last one *)
Definition bright (v : img dbl) (threshold : Q) (p : nat * nat) : Prop :=
  (exists q, at_ v p = Some (Fin q) /\ (threshold <= q)%Q) /\ exists r, precedes v p r.
Definition within (deblend : Q) (p q : nat * nat) : Prop := (inject_Z (steps p q) < deblend)%Q.
(* the pixels that begin a segment *)
Definition peak (v : img dbl) (P : params) (p : nat * nat) : Prop :=
  bright v (p_detect P) p /\ forall q, bright v (p_detect P) q -> precedes v q p -> ~ within (p_deblend P) p q.

(* sums over pixels *)
Definition qsum {A} (f : A -> Q) (l : list A) : Q := fold_right (fun x s => (f x + s)%Q) 0%Q l.
(* the pixels l of a segment, with its peak o once more *)
Definition twice (o : nat * nat) (l : list (nat * nat)) : list (nat * nat) :=
  if length l =? 1 then l else o :: l.
(* t is the account of the pixels of l, which may have repetitions; only the pixels of at least
   lim count for the barycentre *)
Definition tallies (f : nat * nat -> Q) (lim : Q) (l : list (nat * nat)) (t : tally) : Prop :=
  let lb := filter (fun p => Qle_bool lim (f p)) l in
  t_area t = length l /\ (t_flux t == qsum f l)%Q /\
  (t_by t == qsum (fun p => inject_Z (Z.of_nat (fst p)) * f p)%Q lb)%Q /\
  (t_bx t == qsum (fun p => inject_Z (Z.of_nat (snd p)) * f p)%Q lb)%Q /\ (t_fc t == qsum f lb)%Q.
(* the value of a pixel *)
Definition num (v : img dbl) (p : nat * nat) : Q := match at_ v p with Some (Fin q) => q | _ => 0%Q end.

(* ---- the growth of segments from the peaks ---- *)
(* raw: the labels, peaks: the pixels that begin segments *)
Record grown (v : img dbl) (P : params) (raw : img nat) (peaks : list (nat * nat)) : Prop := {
  g_size : nr raw = nr v /\ nc raw = nc v /\ wf raw;
  g_peaks : forall p, In p peaks <-> peak v P p;
  (* from the brightest on *)
  g_order : forall i j p q, i < j -> nth_error peaks i = Some p -> nth_error peaks j = Some q -> precedes v p q;
  g_peak : forall k o, nth_error peaks k = Some o -> at_ raw o = Some (p_first P + k);
  g_bright : forall p, bright v (p_detect P) p <-> exists k, k < length peaks /\ at_ raw p = Some (p_first P + k);
  g_dark : forall p, inside v p -> ~ bright v (p_detect P) p -> at_ raw p = Some 0;
  (* a peak is the first pixel of its segment *)
  g_top : forall p k o, at_ raw p = Some (p_first P + k) -> nth_error peaks k = Some o -> p = o \/ precedes v o p;
  (* each other bright pixel joins the segment of the nearest pixel brighter than itself; among those
     at the same number of steps, the one that is the nearest to its own peak *)
  g_join : forall p, bright v (p_detect P) p -> ~ peak v P p ->
    exists q k o, bright v (p_detect P) q /\ precedes v q p /\ within (p_deblend P) p q /\
      nth_error peaks k = Some o /\ at_ raw q = Some (p_first P + k) /\ at_ raw p = Some (p_first P + k) /\
      forall q' k' o', bright v (p_detect P) q' -> precedes v q' p -> nth_error peaks k' = Some o' -> at_ raw q' = Some (p_first P + k') ->
        (steps p q < steps p q')%Z \/ steps p q = steps p q' /\ (dist2 q o <= dist2 q' o')%Z }.

(* ---- the final segments ---- *)
(* the pixels connected to the peak j *)
Definition part (P : params) (raw : img nat) (peaks : list (nat * nat)) (j : nat) (p : nat * nat) : Prop :=
  exists o, nth_error peaks j = Some o /\ conn (fun q => at_ raw q = Some (p_first P + j)) o p.
Definition large (P : params) (raw : img nat) (peaks : list (nat * nat)) (j : nat) : Prop :=
  exists o l, nth_error peaks j = Some o /\ lists_pixels (part P raw peaks j) l /\ p_min P <= length (twice o l).
(* q touches the segment j *)
Definition touches (P : params) (raw : img nat) (peaks : list (nat * nat)) (j : nat) (q : nat * nat) : Prop :=
  inside raw q /\ exists p, part P raw peaks j p /\ adj p q.
Definition point_dec (p q : nat * nat) : {p = q} + {p <> q}.
Proof. decide equality; apply Nat.eq_dec. Defined.
Definition times (p : nat * nat) (l : list (nat * nat)) : nat := count_occ point_dec l p.
Record final (v : img dbl) (P : params) (raw : img nat) (peaks : list (nat * nat)) (seg : img nat) (js : list nat) (r : output) : Prop := {
  f_size : nr seg = nr v /\ nc seg = nc v /\ wf seg;
  f_parts : forall j, j < length peaks -> exists l, lists_pixels (part P raw peaks j) l;
  (* the large segments are reported, in order *)
  f_large : Sorted.StronglySorted lt js /\ forall j, In j js <-> large P raw peaks j;
  f_id : o_id r = map (fun j => p_first P + j) js;
  f_peak : Forall2 (fun j p => nth_error peaks j = Some p) js (o_peak r);
  f_origin : o_origin r = map (fun p => fst p * nc v + snd p) (o_peak r);
  (* they keep their pixels *)
  f_keep : forall j p, In j js -> part P raw peaks j p -> at_ seg p = Some (p_first P + j);
  (* and stay connected to their peaks *)
  f_conn : forall j o p, In j js -> nth_error peaks j = Some o -> at_ seg p = Some (p_first P + j) ->
    conn (fun q => at_ seg q = Some (p_first P + j)) o p;
  (* there is no other label *)
  f_label : forall p l, at_ seg p = Some l -> l = 0 \/ exists j, In j js /\ l = p_first P + j;
  (* the pixels not connected to a peak have no label *)
  f_island : forall p l, at_ seg p = Some l -> l <> 0 -> exists j, part P raw peaks j p;
  (* a small segment is erased if it touches no large one, and goes as a whole to one of the
     segments it touches otherwise, at least as near as the large ones *)
  f_small : forall i, i < length peaks -> ~ In i js ->
    (forall p, part P raw peaks i p -> at_ seg p = Some 0) /\
    (forall q j, touches P raw peaks i q -> In j js -> ~ part P raw peaks j q) \/
    exists j o q, In j js /\ nth_error peaks j = Some o /\ (forall p, part P raw peaks i p -> at_ seg p = Some (p_first P + j)) /\
      touches P raw peaks i q /\ at_ seg q = Some (p_first P + j) /\
      forall q' j' o', touches P raw peaks i q' -> In j' js -> nth_error peaks j' = Some o' -> part P raw peaks j' q' ->
        (dist2 q o <= dist2 q' o')%Z;
  (* the account of a large segment: those of its parts *)
  f_tally : Forall2 (fun j t => exists o l, nth_error peaks j = Some o /\ tallies (num v) (p_flim P * num v o)%Q l t /\ p_min P <= t_area t /\
      (forall p, In p l <-> at_ seg p = Some (p_first P + j)) /\
      forall i oi li p, nth_error peaks i = Some oi -> lists_pixels (part P raw peaks i) li -> In p li ->
        at_ seg p = Some (p_first P + j) -> times p l = times p (twice oi li)) js (o_tally r) }.
