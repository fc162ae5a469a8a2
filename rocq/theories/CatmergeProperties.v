(* C86: merging catalogues. *)
From Coq Require Import String Ascii.
From Verif Require Import Base CatmergeModel CatmergeSpec CatmergeProofs CatmergeProofs2 CatmergeProofs3.
Local Open Scope nat_scope.
Local Open Scope list_scope.

(* a pool made of any sequence of catalogues is consistent: as many positions and origins as sources;
   every catalogue puts its sources at different places of the pool; every source of the pool belongs to
   the catalogue it comes from *)
Theorem C86_pool : forall C D (p : pool C D), made p -> valid p.
Proof. intros C D p M. apply made_valid. exact M. Qed.
Print Assumptions C86_pool.

(* the first catalogue: its selected sources are the pool *)
Theorem C86_first : forall C D qx ref_of force cached (cra cdec : list C) no_new sel, length cra = length cdec ->
  Forall (fun i => i < length cra) sel ->
  let s := sel_of cra sel in
  add_catalog_ qx ref_of force cached (@empty_pool C D) cra cdec no_new sel = Ok
    (Pool (Some (length s)) (repeat 1 (length s)) (gather cra s) (gather cdec s) [Cat s (seq 0 (length s)) [] [] (ref_of 1)]).
Proof. intros. now apply first_ok. Qed.
Print Assumptions C86_first.
(* the next ones: a source goes to its mutual nearest neighbour; the others become new sources at the end
   of the pool, with their positions and the number of the catalogue, or are lost with no_new *)
Theorem C86_add : forall C D qx ref_of force cached (p : pool C D) cra cdec no_new sel ng x,
  valid p -> cats p <> [] -> ngal p = Some ng -> length cra = length cdec -> Forall (fun i => i < length cra) sel ->
  match_used qx force cached p ng cra cdec sel = Ok x -> good_match (length (sel_of cra sel)) ng x ->
  let s := sel_of cra sel in let n := length s in
  exists td, (NoDup s -> distances (length cra) s (kept no_new x n) (xd x) td) /\
  add_catalog_ qx ref_of force cached p cra cdec no_new sel = Ok
    (Pool (Some (ng + length (new_ones no_new x n))) (origin p ++ repeat (length (cats p) + 1) (length (new_ones no_new x n)))
       (ra p ++ gather (gather cra s) (new_ones no_new x n)) (dec p ++ gather (gather cdec s) (new_ones no_new x n))
       (cats p ++ [Cat (gather s (kept no_new x n)) (map (target x ng) (kept no_new x n)) [] td (ref_of (length (cats p) + 1))])).
Proof.
  intros C D qx ref_of force cached p cra cdec no_new sel ng x (n0 & Hn & L1 & _) Hc Hg Lc Fs Hx G s n.
  assert (Q : n0 = ng) by congruence. rewrite Q in *.
  destruct (add_ok qx ref_of force cached p cra cdec no_new sel ng x Hc Hg L1 Lc Fs Hx G) as (td & Hd & _ & E).
  exists td. split; assumption.
Qed.
Print Assumptions C86_add.
(* the places: k for a source that is matched with k; the others are numbered from ng on without gaps *)
Theorem C86_target : forall D (x : xmres D) ng n, good_match n ng x ->
  (forall i k, mutual x i k -> target x ng i = k) /\
  (forall i, i < n -> (forall k, ~ mutual x i k) -> ng <= target x ng i) /\
  (forall i j, i < n -> j < n -> target x ng i = target x ng j -> i = j) /\
  (forall g, ng <= g < ng + length (new_ones false x n) -> exists i, i < n /\ alone x i = true /\ target x ng i = g).
Proof.
  intros D x ng n G. split; [|split; [|split]].
  - intros i k M. apply partner_spec in M. unfold target. now rewrite M.
  - intros i Hi N. unfold target. destruct (partner x i) as [k|] eqn:E; [|lia]. apply partner_spec in E. now apply N in E.
  - intros i j Hi Hj. now apply (target_inj x ng i j n).
  - intros g Hg. apply new_place. exact Hg.
Qed.
Print Assumptions C86_target.

(* columns: the values of the catalogue at the places of its sources, the default elsewhere *)
Theorem C86_merge : forall C D T (p : pool C D) c n (out : list T) def, ngal p = Some n -> valid_cat n c ->
  Forall (fun i => i < length out) (idi c) ->
  exists res, merge_vec p c [] out def = Ok res /\ merged n c out def res.
Proof. intros. now apply merge_vec_ok. Qed.
Print Assumptions C86_merge.
Theorem C86_merge_scalar : forall C D T (p : pool C D) c n (out def : T), ngal p = Some n -> valid_cat n c ->
  exists res, merge_scalar p c [] out def = Ok res /\ length res = n /\
    forall g, g < n -> nth_error res g = Some (if in_dec Nat.eq_dec g (idm c) then out else def).
Proof. intros. now apply merge_scalar_ok. Qed.
Print Assumptions C86_merge_scalar.
Theorem C86_merge_rows : forall C D T (p : pool C D) c n d0 d1 (rows : list (list T)) def, ngal p = Some n -> valid_cat n c ->
  Forall (fun i => i < length rows) (idi c) ->
  exists res, merge_mat p c (0, 0, []) (d0, d1, rows) def = Ok (n, d1, res) /\ merged n c rows (repeat def d1) res.
Proof. intros. now apply merge_mat_ok. Qed.
Print Assumptions C86_merge_rows.
(* a variable that has elements is never overwritten; a column with too few elements is refused *)
Theorem C86_merge_guard : forall C D T (p : pool C D) c (v out : list T) def,
  (v <> [] \/ (ngal p <> None /\ ~ Forall (fun i => i < length out) (idi c))) -> merge_vec p c v out def = CheckFail.
Proof.
  intros C D T p c v out def H. unfold merge_vec. destruct v; [|reflexivity]. destruct H as [H|[Hn H]]; [contradiction|].
  cbn [check obind]. destruct (ngal p) as [n|]; [|contradiction]. revert H. generalize (idi c). intros l N.
  assert (E : pick out l = CheckFail); [|rewrite E; reflexivity].
  induction l as [|i l IH]; [exfalso; apply N; constructor|]. unfold pick in *. cbn [omapl].
  destruct (Nat.ltb_spec i (length out)) as [L|L]; cbn [check obind]; [|reflexivity].
  unfold oget at 1. destruct (nth_error out i) eqn:E; [|apply nth_error_None in E; lia]. cbn [obind].
  rewrite IH; [reflexivity|]. intros F. apply N. constructor; assumption.
Qed.
Print Assumptions C86_merge_guard.

(* so is a matrix that has elements *)
Theorem C86_rows_guard : forall C D T (p : pool C D) c d0 d1 (rows : list (list T)) out def, 0 < d0 -> 0 < d1 ->
  merge_mat p c (d0, d1, rows) out def = CheckFail.
Proof.
  intros C D T p c d0 d1 rows out def H0 H1. unfold merge_mat, mempty. destruct (Nat.eqb_spec (d0 * d1) 0) as [E|E]; [|reflexivity].
  apply Nat.eq_mul_0 in E. lia.
Qed.
Print Assumptions C86_rows_guard.
(* a catalogue without positions has the sources of the pool, in their order *)
Theorem C86_plain : forall C D ref_of (p : pool C D) n, ngal p = Some n ->
  add_catalog_plain ref_of p = Ok (Pool (Some n) (origin p) (ra p) (dec p)
    (cats p ++ [Cat (seq 0 n) (seq 0 n) [] [] (ref_of (S (length (cats p))))])).
Proof. intros C D ref_of p n H. unfold add_catalog_plain. rewrite H, Nat.add_1_r. reflexivity. Qed.
Print Assumptions C86_plain.
(* fluxes, errors and names of bands in different numbers are refused *)
Theorem C86_flux_guard : forall C D T (nan : T) (p : pool C D) c (f : phot T) f0 f1 rf e0 e1 re cbands cnotes,
  f1 <> e1 \/ f1 <> List.length cbands -> merge_flux nan p c f (f0, f1, rf) (e0, e1, re) cbands cnotes = CheckFail.
Proof.
  intros C D T nan p c f f0 f1 rf e0 e1 re cbands cnotes H. unfold merge_flux.
  destruct (Nat.eqb_spec f1 e1); cbn [check obind]; [|reflexivity].
  destruct (Nat.eqb_spec f1 (List.length cbands)); cbn [check obind]; [|reflexivity]. exfalso. destruct H; contradiction.
Qed.
Print Assumptions C86_flux_guard.

(* fluxes: the bands are added as columns, NaN for the sources that are not in the catalogue *)
Theorem C86_merge_flux : forall C D T (nan : T) (p : pool C D) (c : catalog D) n (f : phot T) f0 e0 b rf re cbands cnotes,
  ngal p = Some n -> 0 < n -> valid_cat n c -> valid_phot n f -> 0 < b -> length cbands = b ->
  Forall (fun i => i < length rf) (idi c) -> Forall (fun i => i < length re) (idi c) ->
  Forall (fun r => length r = b) rf -> Forall (fun r => length r = b) re ->
  exists mf me f', merge_flux nan p c f (f0, b, rf) (e0, b, re) cbands cnotes =
      Ok (Cat (idi c) (idm c) (seq (length (bands f)) b) (cdist c) (ref c), f') /\
    valid_phot n f' /\ bands f' = bands f ++ cbands /\
    merged n c rf (repeat nan b) mf /\ merged n c re (repeat nan b) me /\
    flux f' = (n, length (bands f) + b, map (fun '(x, y) => x ++ y) (combine (rows_of n (flux f)) mf)) /\
    ferr f' = (n, length (bands f) + b, map (fun '(x, y) => x ++ y) (combine (rows_of n (ferr f)) me)) /\
    notes f' = notes f ++ map (fun s => match s with EmptyString => ref c | _ => append (append s " ") (ref c) end)
                            (match cnotes with [] => repeat EmptyString b | _ => cnotes end).
Proof. intros. now apply flux_ok. Qed.
Print Assumptions C86_merge_flux.

(* Finding: an empty selection selects everything instead of nothing *)
Theorem C86_empty_selection_refuted : forall C D qx ref_of force cached (cra cdec : list C) no_new, length cra = length cdec ->
  exists p : pool C D, add_catalog_ qx ref_of force cached empty_pool cra cdec no_new [] = Ok p /\ ngal p = Some (length cra).
Proof.
  intros C D qx ref_of force cached cra cdec no_new L. eexists. split; [apply first_ok; [exact L|constructor]|].
  cbn [ngal sel_of]. now rewrite seq_length.
Qed.
Print Assumptions C86_empty_selection_refuted.
(* Finding: ngal is not initialised; a catalogue without positions given first reads it *)
Theorem C86_plain_first_undefined : forall C D ref_of, add_catalog_plain ref_of (@empty_pool C D) = UB.
Proof. reflexivity. Qed.
Print Assumptions C86_plain_first_undefined.
(* Finding: when the pool has no source, the next catalogue stops the program: its sources have no nearest
   neighbour and npos is used as an index *)
Theorem C86_empty_pool_aborts : forall C D qx ref_of force (p : pool C D) cra cdec no_new sel x, cats p <> [] -> ngal p = Some 0 ->
  length cra = length cdec -> Forall (fun i => i < length cra) sel -> cra <> [] ->
  qx (gather cra (sel_of cra sel)) (gather cdec (sel_of cra sel)) (ra p) (dec p) = Ok x ->
  xid x = repeat None (length (sel_of cra sel)) ->
  add_catalog_ qx ref_of force None p cra cdec no_new sel = CheckFail.
Proof.
  intros C D qx ref_of force p cra cdec no_new sel x Hc Hn Lc Fs Nc Hx Hid. unfold add_catalog_. rewrite Lc, Nat.eqb_refl. cbn [check obind].
  destruct (cats p) as [|c0 cs] eqn:Ec; [contradiction|]. rewrite Hn, <- Lc. fold (sel_of cra sel).
  assert (Fs' : Forall (fun i => i < length cra) (sel_of cra sel)) by (apply sel_of_lt; exact Fs).
  assert (Fd : Forall (fun i => i < length cdec) (sel_of cra sel)) by (now rewrite <- Lc).
  rewrite !pick_ok by assumption. cbn [obind]. rewrite Hx. cbn [obind].
  assert (Ls : exists m, length (sel_of cra sel) = S m).
  { destruct sel as [|a l]; cbn; [|eauto]. rewrite seq_length. destruct cra; [contradiction|cbn; eauto]. }
  destruct Ls as [m Ls]. rewrite Ls. cbn [seq ofold]. unfold match_one at 1. rewrite Hid, Ls. cbn [length repeat]. reflexivity.
Qed.
Print Assumptions C86_empty_pool_aborts.
(* Finding: a saved cross match is used again whenever the sizes are the same, whatever the positions and
   the selection *)
Theorem C86_stale_match_refuted : forall C D qx1 qx2 (p : pool C D) ng cra1 cdec1 sel1 cra2 cdec2 sel2 x,
  length (sel_of cra1 sel1) = length (sel_of cra2 sel2) ->
  match_used qx1 false (Some (length (sel_of cra1 sel1), ng, x)) p ng cra1 cdec1 sel1 = Ok x /\
  match_used qx2 false (Some (length (sel_of cra1 sel1), ng, x)) p ng cra2 cdec2 sel2 = Ok x.
Proof. intros. unfold match_used. rewrite <- H, !Nat.eqb_refl. split; reflexivity. Qed.
Print Assumptions C86_stale_match_refuted.
(* Finding: only an empty list of notes is replaced; a list of another length is appended as it is, and
   from then on the notes do not correspond to the bands *)
Theorem C86_notes_refuted : exists (p : pool nat nat) (c : catalog nat) (f f' : phot (option nat)) c',
  ngal p = Some 1 /\ valid_cat 1 c /\ valid_phot 1 f /\
  merge_flux None p c f (1, 2, [[Some 1; Some 2]]) (1, 2, [[Some 3; Some 4]]) ["a"; "b"]%string ["x"]%string = Ok (c', f') /\
  length (bands f') <> length (notes f').
Proof.
  exists (Pool (Some 1) [1] [0] [0] []), (Cat [0] [0] [] [] "[1]"), (Phot [] [] (0, 0, []) (0, 0, [])). do 2 eexists.
  split; [reflexivity|]. split; [repeat constructor; auto; intros []|]. split; [left; auto|]. split; [reflexivity|]. cbn. discriminate.
Qed.
Print Assumptions C86_notes_refuted.
(* Finding: once fluxes are merged, no fluxes can be merged any more after a catalogue has added sources *)
Theorem C86_late_flux_aborts : forall C D T (nan : T) (p : pool C D) c n m (f : phot T) f0 e0 b rf re frows cbands cnotes,
  ngal p = Some n -> valid_cat n c -> 0 < m -> 0 < n -> m <> n -> flux f = (m, length (bands f), frows) -> 0 < length (bands f) ->
  0 < b -> length cbands = b -> Forall (fun i => i < length rf) (idi c) -> Forall (fun i => i < length re) (idi c) ->
  merge_flux nan p c f (f0, b, rf) (e0, b, re) cbands cnotes = CheckFail.
Proof.
  intros C D T nan p c n m f f0 e0 b rf re frows cbands cnotes Hn Vc Pm Pn N Ef Pb0 Pb Lb F1 F2. unfold merge_flux.
  rewrite Lb, Nat.eqb_refl. cbn [check obind].
  destruct (merge_mat_ok p c n f0 b rf nan Hn Vc F1) as (mf & E1 & _).
  destruct (merge_mat_ok p c n e0 b re nan Hn Vc F2) as (me & E2 & _).
  rewrite E1. cbn [obind]. rewrite E2. cbn [obind]. rewrite Ef. unfold append_cols, mempty.
  assert (T1 : (m * length (bands f) =? 0) = false) by (apply Nat.eqb_neq; intros Z; apply Nat.eq_mul_0 in Z; lia).
  assert (T2 : (n * b =? 0) = false) by (apply Nat.eqb_neq; intros Z; apply Nat.eq_mul_0 in Z; lia).
  rewrite T1, T2. destruct (Nat.eqb_spec m n); [contradiction|]. reflexivity.
Qed.
Print Assumptions C86_late_flux_aborts.

(* Examples: a catalogue of 3 sources, then one of 4 of which 1 and 3 are matched *)
Definition ex_ref (n : nat) : string := match n with 1 => "[1]" | _ => "[2]" end.
Definition ex_x : xmres nat := Xm [Some 2; Some 0; Some 2; Some 1] [[5; 6; 7; 8]] [Some 1; Some 3; Some 1].
Definition ex_qx (_ _ _ _ : list nat) : outcome (xmres nat) := Ok ex_x.
Definition ex_first : pool nat nat := Pool (Some 3) [1; 1; 1] [10; 11; 12] [20; 21; 22] [Cat [0; 1; 2] [0; 1; 2] [] [] "[1]"].
Example C86_ex_first : add_catalog_ ex_qx ex_ref false None empty_pool [10; 11; 12] [20; 21; 22] false [] = Ok ex_first.
Proof. reflexivity. Qed.
Example C86_ex_add : add_catalog_ ex_qx ex_ref false None ex_first [30; 31; 32; 33; 34] [40; 41; 42; 43; 44] false [4; 3; 1; 0] = Ok
  (Pool (Some 5) [1; 1; 1; 2; 2] [10; 11; 12; 34; 31] [20; 21; 22; 44; 41]
    [Cat [0; 1; 2] [0; 1; 2] [] [] "[1]"; Cat [4; 3; 1; 0] [3; 0; 4; 1] [] [[Some 8; Some 7; None; Some 6; Some 5]] "[2]"]).
Proof. reflexivity. Qed.
Example C86_ex_match : add_catalog_ ex_qx ex_ref false None ex_first [30; 31; 32; 33; 34] [40; 41; 42; 43; 44] true [4; 3; 1; 0] = Ok
  (Pool (Some 3) [1; 1; 1] [10; 11; 12] [20; 21; 22]
    [Cat [0; 1; 2] [0; 1; 2] [] [] "[1]"; Cat [3; 0] [0; 1] [] [[Some 8; None; None; Some 6; None]] "[2]"]).
Proof. reflexivity. Qed.
Example C86_ex_good : good_match 4 3 ex_x.
Proof. repeat split; repeat constructor; eexists; (split; [reflexivity|lia]). Qed.
Example C86_ex_merge : merge_vec (Pool (Some 5) [] [] [] [] : pool nat nat) (Cat [4; 3; 1; 0] [3; 0; 4; 1] [] [] "" : catalog nat) [] [100; 101; 102; 103; 104] 9 =
  Ok [103; 100; 9; 104; 101].
Proof. reflexivity. Qed.
Example C86_ex_flux : merge_flux 0 (Pool (Some 2) [] [] [] [] : pool nat nat) (Cat [1] [0] [] [] "[2]" : catalog nat)
   (Phot ["u"]%string ["[1]"]%string (2, 1, [[7]; [8]]) (2, 1, [[1]; [1]])) (2, 2, [[1; 2]; [3; 4]]) (2, 2, [[5; 6]; [7; 8]]) ["g"; "r"]%string ["x"; ""]%string =
  Ok (Cat [1] [0] [1; 2] [] "[2]", Phot ["u"; "g"; "r"]%string ["[1]"; "x [2]"; "[2]"]%string (2, 3, [[7; 3; 4]; [8; 0; 0]]) (2, 3, [[1; 7; 8]; [1; 0; 0]])).
Proof. reflexivity. Qed.
