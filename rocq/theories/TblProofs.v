From Coq Require Import Ascii ZifyBool.
From Verif Require Import Base StrModel TblModel TblSpec.
From Verif Require NumModel DsregModel DsregSpec DsregProofs.

(* --- names --- *)
Lemma upper_upper c : NumModel.upper (NumModel.upper c) = NumModel.upper c.
Proof. destruct c as [[] [] [] [] [] [] [] []]; reflexivity. Qed.
Lemma to_upper_upper s : to_upper (to_upper s) = to_upper s.
Proof. unfold to_upper. rewrite map_map. apply map_ext. apply upper_upper. Qed.
Lemma named_true n c : named n c = true <-> to_upper (cname c) = n.
Proof. unfold named. destruct (list_eq_dec ascii_dec (to_upper (cname c)) n); intuition congruence. Qed.
Lemma named_false n c : named n c = false <-> to_upper (cname c) <> n.
Proof. unfold named. destruct (list_eq_dec ascii_dec (to_upper (cname c)) n); intuition congruence. Qed.
Lemma find_app n a b i : find_from n (a ++ b) i = find_from n a i ++ find_from n b (i + length a).
Proof.
  revert i. induction a as [|c a IH]; intros i; cbn [app find_from length]; [now rewrite Nat.add_0_r|].
  now rewrite IH, app_assoc, <- Nat.add_succ_comm.
Qed.
Lemma find_none n a i : (forall c, In c a -> to_upper (cname c) <> n) -> find_from n a i = [].
Proof.
  revert i. induction a as [|c a IH]; intros i H; [reflexivity|]. cbn [find_from].
  rewrite (proj2 (named_false n c)); [|apply H; now left]. apply IH. intros d I. apply H. now right.
Qed.
Lemma find_shift n a i k : find_from n a (i + k) = map (fun j => j + k) (find_from n a i).
Proof.
  revert i. induction a as [|c a IH]; intros i; [reflexivity|]. cbn [find_from].
  rewrite map_app, <- IH. destruct (named n c); reflexivity.
Qed.
Lemma get_absent t n : absent t n -> get_colnum t n = None.
Proof. intros A. unfold get_colnum. now rewrite find_none. Qed.
Lemma find_one n a c b : to_upper (cname c) = n -> (forall d, In d (a ++ b) -> to_upper (cname d) <> n) ->
  find_from n (a ++ c :: b) 0 = [length a].
Proof.
  intros E H. rewrite find_app, find_none; [|intros d I; apply H, in_or_app; now left]. cbn [app find_from].
  rewrite (proj2 (named_true n c) E), find_none; [reflexivity|]. intros d I. apply H, in_or_app. now right.
Qed.
Lemma get_single f r a c b n : to_upper (cname c) = to_upper n -> (forall d, In d (a ++ b) -> to_upper (cname d) <> to_upper n) ->
  get_colnum (Tab f r (a ++ c :: b)) n = Some (length a).
Proof. intros E H. unfold get_colnum. cbn [tcols]. now rewrite (find_one (to_upper n)). Qed.
Lemma nth_app_mid {A} (a : list A) c b : nth_error (a ++ c :: b) (length a) = Some c.
Proof. rewrite nth_error_app2 by lia. now rewrite Nat.sub_diag. Qed.

(* --- products --- *)
Lemma nprod_cons x l : nprod (x :: l) = x * nprod l.
Proof. reflexivity. Qed.
Lemma nprod_app a b : nprod (a ++ b) = nprod a * nprod b.
Proof. induction a as [|x a IH]; cbn [app]; rewrite ?nprod_cons; [unfold nprod at 2; cbn [fold_right]; lia|]. rewrite IH. lia. Qed.
Lemma nprod_rev l : nprod (rev l) = nprod l.
Proof. induction l as [|x l IH]; [reflexivity|]. cbn [rev]. rewrite nprod_app, IH, !nprod_cons. unfold nprod at 2. cbn [fold_right]. lia. Qed.
Lemma nprod_ones k l : nprod (repeat 1 k ++ l) = nprod l.
Proof. induction k as [|k IH]; [reflexivity|]. cbn [repeat app]. rewrite nprod_cons, IH. lia. Qed.
Lemma longest_ge l m : m <= fold_left (fun m x => if m <? length (text x) then length (text x) else m) l m.
Proof.
  revert m. induction l as [|x l IH]; intros m; [reflexivity|]. cbn [fold_left]. etransitivity; [|apply IH].
  destruct (Nat.ltb_spec m (length (text x))); lia.
Qed.
Lemma longest_pos l : 1 <= longest l.
Proof. apply longest_ge. Qed.
Lemma ceil_div_mul a b : 0 < b -> ceil_div (a * b) b = a.
Proof.
  intros B. unfold ceil_div. rewrite Nat.add_comm, Nat.div_add by lia. rewrite Nat.div_small by lia. reflexivity.
Qed.

(* --- the column written for a vector --- *)
Definition rows (f : format) (ds : list nat) : nat := match f with Cols => 1 | Rows => hd 0 ds end.
Definition inner (f : format) (ds : list nat) : list nat := match f with Cols => ds | Rows => tl ds end.
Definition vdims (f : format) (ty : vtype) (ds : list nat) (data : list cell) : list nat :=
  (if is_string ty then [longest data] else []) ++ rev (inner f ds).
Definition width (ty : vtype) (ds : list nat) : nat := if is_string ty then hd 0 ds else 1.
Definition new_col (n : str) (ty : vtype) (ds : list nat) (cells : list cell) : col :=
  Col (to_upper n) (tform ty) (width ty ds) (nprod ds) (match ds with [] => None | _ => Some ds end) cells.
Lemma write_dims_vec f ty ds data : write_dims f (Vec ty ds data) = (vdims f ty ds data, rows f ds).
Proof. unfold write_dims, vdims, rows, inner. destruct f, (is_string ty); reflexivity. Qed.
Lemma per_row_new n ty f ds data cells :
  per_row (new_col n ty (vdims f ty ds data) cells) = nprod (inner f ds).
Proof.
  unfold per_row, new_col, vdims, width. cbn [crepeat cwidth]. rewrite nprod_app, nprod_rev.
  destruct (is_string ty); cbn [app hd].
  - unfold nprod at 1. cbn [fold_right]. rewrite Nat.mul_1_r. assert (P := longest_pos data).
    rewrite Nat.mul_comm. apply Nat.div_mul. lia.
  - unfold nprod at 1. cbn [fold_right]. rewrite Nat.mul_1_l. apply Nat.div_1_r.
Qed.
Lemma col_rows_full n c : length (ccells c) = n * per_row c -> col_rows n c = c.
Proof. intros E. unfold col_rows. rewrite <- E, Nat.sub_diag. cbn [repeat]. rewrite app_nil_r. now destruct c. Qed.
Lemma col_rows_new n m ty ds k : col_rows k (new_col n ty ds m) = new_col n ty ds (m ++ repeat (blank (tform ty)) (k * per_row (new_col n ty ds m) - length m)).
Proof. reflexivity. Qed.
Lemma upd_app_last {A} (l : list A) x y : upd (l ++ [x]) (length l) y = l ++ [y].
Proof. induction l as [|h l IH]; [reflexivity|]. cbn [app length upd]. now rewrite IH. Qed.
Lemma map_same {A} (f : A -> A) l : (forall x, In x l -> f x = x) -> map f l = l.
Proof. intros H. rewrite <- (map_id l) at 2. apply map_ext_in. exact H. Qed.
Lemma repeat_nil_or {A} (x : A) k (l : list A) : length l = k -> firstn 0 (repeat x k) ++ l ++ skipn (0 + length l) (repeat x k) = l.
Proof. intros E. cbn [firstn app Nat.add]. rewrite skipn_all2, app_nil_r; [reflexivity|]. rewrite repeat_length. lia. Qed.

Lemma rows_inner f ds : ds <> [] -> nprod ds = rows f ds * nprod (inner f ds).
Proof. intros N. destruct f; cbn [rows inner]; [|lia]. destruct ds; [congruence|]. reflexivity. Qed.

(* the number of rows before and after the new column *)
Definition room (t : tab) (k : nat) (nonempty : Prop) : Prop := tnrow t = k \/ (tcols t = [] /\ tnrow t = 0 /\ nonempty).
Lemma sound_same t c : sound t -> In c (tcols t) -> col_rows (tnrow t) c = c.
Proof. intros (_ & H) I. apply col_rows_full, H, I. Qed.
Lemma append_cells t n ty ds k xs : sound t -> xs <> [] -> 0 < per_row (new_col n ty ds []) ->
  length xs = k * per_row (new_col n ty ds []) -> room t k True ->
  write_cells (Tab (tfmt t) (tnrow t) (tcols t ++ [col_rows (tnrow t) (new_col n ty ds [])])) (length (tcols t)) 1 1 xs =
    Ok (Tab (tfmt t) k (tcols t ++ [new_col n ty ds xs])).
Proof.
  intros S N P L R. assert (K : 0 < k) by (destruct k; [destruct xs; [congruence|discriminate]|lia]).
  unfold write_cells. cbn [tcols tnrow tfmt]. rewrite nth_app_mid. cbn [Nat.eqb orb].
  change (per_row (col_rows (tnrow t) (new_col n ty ds []))) with (per_row (new_col n ty ds [])).
  set (p := per_row (new_col n ty ds [])) in *.
  replace (p <? 1) with false by (symmetry; apply Nat.ltb_ge; lia). cbn [Nat.sub Nat.mul Nat.add orb].
  rewrite L, ceil_div_mul by lia.
  replace (max (tnrow t) k) with k by (destruct R as [->|(_ & -> & _)]; lia).
  rewrite map_app. cbn [map].
  replace (map (col_rows k) (tcols t)) with (tcols t).
  2:{ symmetry. apply map_same. intros c I. destruct R as [<-|(E & _)]; [now apply sound_same|]. rewrite E in I. destruct I. }
  rewrite nth_app_mid. rewrite upd_app_last. do 4 f_equal.
  rewrite !col_rows_new. cbn [ccells cname ctype cwidth crepeat ctdim new_col app length Nat.sub].
  unfold new_col at 1. f_equal. cbn [firstn app].
  rewrite skipn_all2, app_nil_r; [reflexivity|].
  rewrite app_length, !repeat_length. repeat match goal with |- context[per_row ?c] => change (per_row c) with p end.
  destruct R as [->|(_ & -> & _)]; lia.
Qed.

(* --- write_column --- *)
Lemma tab_eta t : Tab (tfmt t) (tnrow t) (tcols t) = t.
Proof. now destruct t. Qed.
Lemma create_ok t n ty ds data (v := Vec ty ds data) : (tfmt t = Rows -> tcols t = [] \/ tnrow t = hd 0 ds) ->
  create_column t n v = Ok (Tab (tfmt t) (tnrow t) (tcols t ++ [col_rows (tnrow t) (new_col n ty (vdims (tfmt t) ty ds data) [])])).
Proof.
  intros H. unfold v, create_column. rewrite write_dims_vec. cbn [vtype_of].
  assert (C : check match tfmt t with Rows => match tcols t with [] => true | _ :: _ => rows (tfmt t) ds =? tnrow t end | Cols => true end = Ok tt).
  { destruct (tfmt t) eqn:F; [|reflexivity]. destruct (H eq_refl) as [E|E]; [now rewrite E|]. cbn [rows]. rewrite E, Nat.eqb_refl. now destruct (tcols t). }
  rewrite C. cbn [obind]. reflexivity.
Qed.
Lemma write_vec t n ty ds data : sound t -> ds <> [] -> length data = nprod ds -> fits_in t ds ->
  write_column t n (Vec ty ds data) =
    Ok (Tab (tfmt t) (rows (tfmt t) ds) (tcols t ++ [new_col n ty (vdims (tfmt t) ty ds data) (map (encode ty) data)])).
Proof.
  intros S N L F. unfold write_column. rewrite create_ok.
  2:{ intros E. unfold fits_in in F. rewrite E in F. intuition. }
  cbn [obind]. assert (L' := L). rewrite (rows_inner (tfmt t)) in L' by exact N.
  assert (R : room t (rows (tfmt t) ds) (data <> [])).
  { unfold room, fits_in in *. destruct S as (S & _). destruct (tfmt t) eqn:E; cbn [rows].
    - destruct F as [F|(F & F' & F'')]; [now left|]. right. repeat split; auto. intros ->. cbn [length] in L. congruence.
    - left. now apply S. }
  destruct data as [|x data].
  - destruct R as [R|(_ & _ & R)]; [|congruence]. rewrite <- R. do 3 f_equal. cbn [map].
    rewrite col_rows_new. unfold new_col. do 2 f_equal. cbn [app length Nat.sub] in *. fold (new_col n ty (vdims (tfmt t) ty ds []) []).
    rewrite per_row_new, R, <- L'. reflexivity.
  - rewrite (append_cells t n ty _ (rows (tfmt t) ds)); [reflexivity|exact S|discriminate| | |].
    + rewrite per_row_new. cbn [length] in L'. destruct (nprod (inner (tfmt t) ds)); lia.
    + rewrite per_row_new, map_length. exact L'.
    + destruct R as [R|(R & R' & _)]; [now left|right; auto].
Qed.

(* --- the axes read from it --- *)
Lemma axes_new t n ty ds data cells cs : ds <> [] -> ~ forgotten t ty ds ->
  axes_of (Tab (tfmt t) (rows (tfmt t) ds) cs) (new_col n ty (vdims (tfmt t) ty ds data) cells) =
    (if is_string ty then [longest data] else []) ++ rev ds.
Proof.
  intros N G. unfold axes_of, new_col, vdims. cbn [ctdim crepeat tfmt tnrow ctype].
  assert (ES : fis_string (tform ty) = is_string ty) by now destruct ty.
  destruct (tfmt t) eqn:F; cbn [inner rows].
  - destruct ds as [|d ds]; [congruence|]. cbn [tl hd]. rewrite ES. destruct (is_string ty) eqn:T.
    + cbn [app]. destruct (rev ds) as [|a b] eqn:R.
      * cbn [rev]. rewrite R. cbn [app]. rewrite andb_false_r. reflexivity.
      * cbn [app rev]. rewrite R. reflexivity.
    + cbn [app rev]. destruct (rev ds) as [|a [|b l]] eqn:R; [reflexivity| |reflexivity].
      assert (E : ds = [a]) by (rewrite <- (rev_involutive ds), R; reflexivity). subst ds.
      destruct (Nat.eqb_spec a 1) as [->|]; [|reflexivity]. exfalso. apply G. split; [exact F|]. split; [now destruct ty|]. now exists d.
  - destruct (is_string ty); cbn [app]; [reflexivity|]. destruct (rev ds) eqn:R; [|reflexivity].
    exfalso. apply N. rewrite <- (rev_involutive ds), R. reflexivity.
Qed.
Lemma nth_rev {A} (l : list A) d i : i < length l -> nth i (rev l) d = nth (length l - S i) l d.
Proof. apply rev_nth. Qed.
Lemma seq_split_map {A} (f g : nat -> A) n a b : n = a + b -> (forall i, i < a -> f i = g i) -> map f (seq 0 n) = map g (seq 0 a) ++ map (fun i => f (a + i)) (seq 0 b).
Proof.
  intros -> H. rewrite seq_app, map_app. f_equal; [apply map_ext_in; intros i I; apply in_seq in I; apply H; lia|].
  cbn [Nat.add]. rewrite <- (Nat.add_0_r a) at 1. clear. generalize 0 as k. induction b as [|b IH]; intros k; [reflexivity|].
  cbn [seq map]. f_equal. rewrite <- IH. f_equal. f_equal. lia.
Qed.
Lemma map_nth_seq {A} (l : list A) d : map (fun i => nth i l d) (seq 0 (length l)) = l.
Proof. induction l as [|x l IH]; [reflexivity|]. cbn [length seq map nth]. f_equal. rewrite <- seq_shift, map_map. exact IH. Qed.
Lemma ones n : map (fun _ : nat => 1) (seq 0 n) = repeat 1 n.
Proof.
  cut (forall k, map (fun _ : nat => 1) (seq k n) = repeat 1 n); [auto|]. induction n as [|n IH]; intros k; [reflexivity|]. cbn [seq map repeat]. f_equal. apply IH.
Qed.
Lemma resize_num ty dim ds : is_string ty = false -> length ds <= dim -> ~ (dim = 1 /\ 1 < length ds) ->
  resize ty dim (rev ds) = repeat 1 (dim - length ds) ++ ds.
Proof.
  intros T L N. unfold resize. rewrite T, rev_length.
  replace ((dim =? 1) && (1 <? length ds)) with false by (symmetry; apply not_true_iff_false; lia).
  rewrite (seq_split_map _ (fun _ => 1) dim (dim - length ds) (length ds)); [|lia|]. 2:{ intros i I. replace (i <? dim - length ds) with true by lia. reflexivity. }
  rewrite ones. f_equal. transitivity (map (fun i => nth i ds 0) (seq 0 (length ds))); [|apply map_nth_seq]. apply map_ext_in. intros i I. apply in_seq in I.
  replace (dim - length ds + i <? dim - length ds) with false by lia. rewrite nth_rev by lia. f_equal. lia.
Qed.
Lemma resize_str dim ds w : length ds <= dim -> resize Strg dim (w :: rev ds) = repeat 1 (dim - length ds) ++ ds.
Proof.
  intros L. unfold resize. cbn [is_string length]. rewrite rev_length.
  rewrite (seq_split_map _ (fun _ => 1) dim (dim - length ds) (length ds)); [|lia|]. 2:{ intros i I. replace (i <? dim + 1 - S (length ds)) with true by lia. reflexivity. }
  rewrite ones. f_equal. transitivity (map (fun i => nth i ds 0) (seq 0 (length ds))); [|apply map_nth_seq]. apply map_ext_in. intros i I. apply in_seq in I.
  replace (dim - length ds + i <? dim + 1 - S (length ds)) with false by lia.
  replace (dim - (dim - length ds + i)) with (S (length ds - S i)) by lia. cbn [nth]. rewrite nth_rev by lia. f_equal. lia.
Qed.
Lemma resize_flat ty ds : is_string ty = false -> 1 < length ds -> resize ty 1 (rev ds) = [nprod ds].
Proof.
  intros T L. unfold resize. rewrite T, rev_length, nprod_rev. replace ((1 =? 1) && (1 <? length ds)) with true by lia. reflexivity.
Qed.

(* --- the elements --- *)
Lemma wrap_signed z : (0 <= z < two64)%Z -> wrap64 (to_signed64 z) = z.
Proof.
  intros H. unfold wrap64, to_signed64. destruct (Z.ltb_spec z two63); [apply Z.mod_small; lia|].
  rewrite <- (Z_mod_plus_full (z - two64) 1 two64). replace (z - two64 + 1 * two64)%Z with z by lia. apply Z.mod_small. exact H.
Qed.
Lemma inside_ok lo hi z : (lo <= z <= hi)%Z -> inside lo hi z = Ok (Num z).
Proof. intros H. unfold inside. replace ((lo <=? z)%Z && (z <=? hi)%Z) with true by lia. reflexivity. Qed.
Lemma decode_encode t u x : is_convertible_narrow u (tform t) = true -> shared t u x -> decode u (encode t x) = Ok x.
Proof.
  intros C (Ht & Hu & U). change (2 ^ 63)%Z with two63 in *. assert (T63 : (two64 = 2 * two63)%Z) by reflexivity.
  assert (P63 : (32768 < two63)%Z) by reflexivity.
  destruct x as [z|s].
  - destruct t; try contradiction; destruct u; try contradiction; try discriminate; cbn [encode decode holds] in *; change (2 ^ 64)%Z with two64 in *;
      change (2 ^ 63)%Z with two63 in *;
      try reflexivity; try (rewrite inside_ok by lia; cbn [obind]; reflexivity);
      try (rewrite inside_ok by lia; cbn [obind]; unfold wrap64; rewrite Z.mod_small by lia; reflexivity);
      try (assert (z < two63)%Z by (apply U; congruence); unfold to_signed64; replace (z <? two63)%Z with true by lia;
           rewrite ?inside_ok by lia; cbn [obind]; reflexivity).
    rewrite inside_ok. 2:{ unfold to_signed64. destruct (Z.ltb_spec z two63); lia. }
    cbn [obind]. rewrite wrap_signed by exact Ht. reflexivity.
  - cbn [holds] in Ht, Hu. destruct Ht as (-> & T), Hu as (-> & _). cbn [encode decode].
    rewrite (DsregProofs.trim_unique _ _ T). reflexivity.
Qed.
Lemma decode_all t u l : is_convertible_narrow u (tform t) = true -> Forall (shared t u) l -> omapl (decode u) (map (encode t) l) = Ok l.
Proof.
  intros C F. induction F as [|x l H F IH]; [reflexivity|]. cbn [map omapl]. rewrite (decode_encode _ _ _ C H). cbn [obind]. rewrite IH. reflexivity.
Qed.
Lemma narrow_more u f : is_convertible u f = true -> is_convertible_narrow u f = true.
Proof. destruct u, f; intros H; try reflexivity; discriminate H. Qed.
Lemma check_type_narrow o u f : check_type o u f = true -> is_convertible_narrow u f = true.
Proof. unfold check_type. destruct (narrow o); [auto|apply narrow_more]. Qed.
Lemma check_string o u t : check_type o u (tform t) = true -> is_string u = is_string t.
Proof. intros H. apply check_type_narrow in H. destruct u, t; try reflexivity; discriminate H. Qed.

(* --- read_column --- *)
Lemma get_new t k n ty ds cells m : absent t n -> to_upper m = to_upper n ->
  get_colnum (Tab (tfmt t) k (tcols t ++ [new_col n ty ds cells])) m = Some (length (tcols t)).
Proof.
  intros A E. apply get_single; [cbn [new_col cname]; now rewrite to_upper_upper|]. intros d I. rewrite app_nil_r in I. rewrite E. now apply A.
Qed.
Lemma read_any o t n m ty ds data u dim dims' (c := new_col n ty (vdims (tfmt t) ty ds data) (map (encode ty) data))
  (T := Tab (tfmt t) (rows (tfmt t) ds) (tcols t ++ [c])) :
  absent t n -> to_upper m = to_upper n -> ds <> [] -> length data = nprod ds ->
  check_type o u (tform ty) = true -> Forall (shared ty u) data ->
  check_dim o (IntoVec u dim) (length (axes_of T c)) (crepeat c) = true -> resize u dim (axes_of T c) = dims' -> nprod dims' = nprod ds ->
  (is_string ty = true -> 0 < hd 0 (axes_of T c)) ->
  read_column o T m (IntoVec u dim) = Ok (Read (Vec u dims' data)).
Proof.
  intros A Em N L C F D R P W. unfold read_column. unfold T at 1. unfold c at 1. rewrite get_new by assumption.
  unfold T at 1. cbn [tcols]. rewrite nth_app_mid. cbn [ttype]. replace (ctype c) with (tform ty) by reflexivity. rewrite C. cbn [negb].
  rewrite D. cbn [negb]. rewrite R, P. unfold T at 1. cbn [tfmt].
  destruct ((match tfmt t with Rows => tnrow T | Cols => 1 end =? 0) || (nprod ds =? 0) || (is_string u && (hd 0 (axes_of T c) =? 0))) eqn:Z.
  - assert (Q : nprod ds = 0).
    { assert (RI := rows_inner (tfmt t) ds N). change (tnrow T) with (rows (tfmt t) ds) in Z. destruct (nprod ds =? 0) eqn:Q; [lia|]. rewrite orb_false_r in Z.
      apply orb_prop in Z. destruct Z as [Z|Z].
      - destruct (tfmt t); [|discriminate]. apply Nat.eqb_eq in Z. rewrite Z in RI. exact RI.
      - exfalso. apply andb_prop in Z. destruct Z as (Z & Z'). rewrite (check_string _ _ _ C) in Z. specialize (W Z). apply Nat.eqb_eq in Z'. rewrite Z' in W. inversion W. }
    rewrite Q in *. destruct data; [reflexivity|discriminate].
  - apply orb_false_elim in Z. destruct Z as (Z & _). apply orb_false_elim in Z. destruct Z as (_ & Z).
    unfold read_cells. unfold c at 1. rewrite per_row_new. cbn [Nat.eqb orb Nat.sub Nat.mul Nat.add].
    assert (RI := rows_inner (tfmt t) ds N).
    replace (nprod (inner (tfmt t) ds) <? 1) with false by (symmetry; apply Nat.ltb_ge; destruct (Nat.eq_dec (nprod (inner (tfmt t) ds)) 0) as [E|]; [rewrite E, Nat.mul_0_r in RI|]; lia).
    unfold c at 1. rewrite per_row_new. unfold T. cbn [tnrow]. rewrite RI, Nat.leb_refl. cbn [obind skipn].
    unfold c. cbn [ccells new_col]. rewrite firstn_all2 by (rewrite map_length; lia).
    rewrite (decode_all ty u data); [reflexivity| |exact F]. now apply (check_type_narrow o).
Qed.
Lemma read_vec o t n m ty ds data u dim (T := Tab (tfmt t) (rows (tfmt t) ds) (tcols t ++ [new_col n ty (vdims (tfmt t) ty ds data) (map (encode ty) data)])) :
  absent t n -> to_upper m = to_upper n -> ds <> [] -> length data = nprod ds -> ~ forgotten t ty ds ->
  check_type o u (tform ty) = true -> Forall (shared ty u) data ->
  dim = length ds \/ (length ds < dim /\ promote o = true) ->
  read_column o T m (IntoVec u dim) = Ok (Read (Vec u (repeat 1 (dim - length ds) ++ ds) data)).
Proof.
  intros A Em N L G C F D. assert (K := check_string _ _ _ C). assert (L1 : 0 < length ds) by (destruct ds; [congruence|cbn; lia]).
  unfold T. apply read_any; auto; rewrite ?axes_new by assumption.
  - unfold check_dim. cbn [tdim]. rewrite app_length, rev_length. destruct u; cbn [is_string] in *; rewrite <- K; cbn [length Nat.add].
    all: destruct D as [->|(D & P)]; [rewrite ?Nat.add_1_r, ?Nat.ltb_irrefl; try reflexivity; now destruct (_ && _)|rewrite ?P].
    all: try (replace (length ds <? dim) with true by lia; reflexivity).
    replace (S (length ds) <? dim + 1) with true by lia. now destruct (_ && _).
  - destruct (is_string ty) eqn:T'.
    + destruct u; try discriminate. cbn [app]. apply resize_str. lia.
    + cbn [app]. apply resize_num; [now rewrite K|lia|lia].
  - apply nprod_ones.
  - intros ->. cbn [app hd]. assert (P := longest_pos data). lia.
Qed.
Lemma read_flat o t n m ty ds data u (T := Tab (tfmt t) (rows (tfmt t) ds) (tcols t ++ [new_col n ty (vdims (tfmt t) ty ds data) (map (encode ty) data)])) :
  absent t n -> to_upper m = to_upper n -> length data = nprod ds -> ~ forgotten t ty ds ->
  check_type o u (tform ty) = true -> Forall (shared ty u) data -> is_string ty = false ->
  1 < length ds -> flat o = true ->
  read_column o T m (IntoVec u 1) = Ok (Read (Vec u [nprod ds] data)).
Proof.
  intros A Em L G C F TS D P. assert (K := check_string _ _ _ C). assert (N : ds <> []) by (intros ->; cbn in D; lia).
  unfold T. apply read_any; auto; rewrite ?axes_new by assumption; rewrite ?TS; cbn [app].
  - rewrite rev_length. unfold check_dim. cbn [tdim]. destruct u; cbn [is_string] in *; try congruence; rewrite P;
      (replace (length ds <? 1) with false by lia); (replace (1 <? length ds) with true by lia); reflexivity.
  - apply resize_flat; [congruence|exact D].
  - rewrite nprod_cons. unfold nprod at 2. cbn [fold_right]. lia.
  - discriminate.
Qed.
(* what is refused *)
Lemma read_refused o t n m ty ds data u dim k cells (T := Tab (tfmt t) k (tcols t ++ [new_col n ty (vdims (tfmt t) ty ds data) cells])) :
  absent t n -> to_upper m = to_upper n -> ds <> [] -> ~ forgotten t ty ds -> k = rows (tfmt t) ds ->
  check_type o u (tform ty) = false \/ (length ds < dim /\ promote o = false) \/ (dim < length ds /\ (dim <> 1 \/ flat o = false \/ u = Strg)) ->
  0 < dim -> read_column o T m (IntoVec u dim) = Ok Refused.
Proof.
  intros A Em N G -> D Dp. unfold read_column. unfold T at 1. rewrite get_new by assumption.
  unfold T at 1. cbn [tcols]. rewrite nth_app_mid. cbn [ttype new_col ctype].
  destruct (check_type o u (tform ty)) eqn:C; cbn [negb]; [|reflexivity]. destruct D as [D|D]; [discriminate|].
  assert (K := check_string _ _ _ C). unfold T. fold (new_col n ty (vdims (tfmt t) ty ds data) cells). rewrite axes_new by assumption.
  replace (check_dim _ _ _ _) with false; [reflexivity|]. symmetry.
  unfold check_dim. cbn [tdim]. rewrite app_length, rev_length. destruct u; cbn [is_string] in *; rewrite <- K; cbn [length Nat.add];
    (destruct D as [(D & P)|(D & P)]; [rewrite P|]).
  all: try (replace (length ds <? dim) with true by lia; reflexivity).
  all: try (replace (length ds <? dim) with false by lia; replace (dim <? length ds) with true by lia; destruct P as [P|[P|P]]; [|rewrite P; apply andb_false_r|discriminate];
    replace (dim =? 1) with false by lia; reflexivity).
  - replace (S (length ds) =? 1) with false by (destruct ds; [congruence|reflexivity]). rewrite andb_false_r. replace (S (length ds) <? dim + 1) with true by lia. reflexivity.
  - replace (S (length ds) =? 1) with false by (destruct ds; [congruence|reflexivity]). rewrite andb_false_r. replace (S (length ds) <? dim + 1) with false by lia.
    replace (dim + 1 <? S (length ds)) with true by lia. replace (dim + 1 =? 1) with false by lia. reflexivity.
Qed.

(* --- the other columns --- *)
Lemma find_mid n a c b i : to_upper (cname c) <> n -> find_from n (a ++ c :: b) i = find_from n a i ++ map S (find_from n b (i + length a)).
Proof.
  intros H. rewrite find_app. cbn [find_from]. rewrite (proj2 (named_false n c) H). cbn [app]. f_equal.
  replace (S (i + length a)) with (i + length a + 1) by lia. rewrite find_shift. apply map_ext. intros j. lia.
Qed.
Lemma find_range n a i j : In j (find_from n a i) -> i <= j < i + length a.
Proof.
  revert i. induction a as [|c a IH]; intros i I; [destruct I|]. cbn [find_from length] in *. apply in_app_or in I. destruct I as [I|I].
  - destruct (named n c); [|destruct I]. destruct I as [<-|[]]. lia.
  - apply IH in I. lia.
Qed.
(* reading depends on the column of the name only *)
Lemma read_frame o f k a c b m g : to_upper (cname c) <> to_upper m ->
  read_column o (Tab f k (a ++ c :: b)) m g = read_column o (Tab f k (a ++ b)) m g.
Proof.
  intros H. unfold read_column, get_colnum. cbn [tcols]. rewrite find_mid by exact H. rewrite find_app. cbn [Nat.add].
  assert (R := fun j => find_range (to_upper m) b (length a) j). assert (Ra := fun j => find_range (to_upper m) a 0 j). cbn [Nat.add] in Ra.
  destruct (find_from (to_upper m) a 0) as [|i [|i' l]]; cbn [app map].
  - destruct (find_from (to_upper m) b (length a)) as [|j [|j' l']]; cbn [map]; [reflexivity| |reflexivity].
    assert (J := R j (or_introl eq_refl)).
    replace (nth_error (a ++ c :: b) (S j)) with (nth_error (a ++ b) j); [reflexivity|].
    rewrite !nth_error_app2 by lia. replace (S j - length a) with (S (j - length a)) by lia. reflexivity.
  - destruct (find_from (to_upper m) b (length a)) as [|j l']; cbn [map]; [|reflexivity].
    assert (J := Ra i (or_introl eq_refl)).
    replace (nth_error (a ++ c :: b) i) with (nth_error (a ++ b) i); [reflexivity|]. rewrite !nth_error_app1 by lia. reflexivity.
  - reflexivity.
Qed.
Lemma read_absent o t m g : absent t m -> read_column o t m g = Ok (if missing o then Unchanged else Refused).
Proof. intros A. unfold read_column. now rewrite get_absent. Qed.
