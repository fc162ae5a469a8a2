From Coq Require Import Ascii ZifyBool.
From Verif Require Import Base StrModel TblModel TblSpec TblProofs TblProofs2.

Lemma read_drop o f k a c b m g : (forall d, In d b -> to_upper (cname d) <> to_upper m) ->
  read_column o (Tab f k (a ++ c :: b)) m g = read_column o (Tab f k (a ++ [c])) m g.
Proof.
  intros H. induction b as [|d b IH]; [reflexivity|].
  replace (a ++ c :: d :: b) with ((a ++ [c]) ++ d :: b) by now rewrite <- app_assoc.
  rewrite read_frame by (apply H; now left). rewrite <- app_assoc. apply IH. intros e I. apply H. now right.
Qed.
Lemma holding_new t n ty ds data : holding t n ty ds data ->
  exists a b, tcols t = a ++ new_col n ty (vdims (tfmt t) ty ds data) (map (encode ty) data) :: b /\
    (forall d, In d (a ++ b) -> to_upper (cname d) <> to_upper n) /\ tnrow t = rows (tfmt t) ds /\ ds <> [] /\
    (tfmt t = Rows -> 2 <= length ds) /\ is_string ty = false.
Proof.
  intros (S & L & T & a & c & b & E & H & C1 & C2 & C3 & C4 & C5). exists a, b.
  assert (I : is_string ty = false) by now destruct ty.
  assert (N : ds <> []) by (intros ->; destruct (tfmt t); destruct C5 as (C5 & _); cbn in C5; lia).
  assert (Ec : c = new_col n ty (vdims (tfmt t) ty ds data) (map (encode ty) data)).
  { destruct c as [x1 x2 x3 x4 x5 x6]. cbn [cname ctype cwidth crepeat ctdim ccells] in *. unfold new_col, vdims, width. rewrite I. cbn [app]. rewrite nprod_rev.
    subst. destruct (tfmt t); cbn [inner].
    - destruct C5 as (C5 & -> & -> & _). f_equal. destruct (rev (tl ds)) eqn:R; [|reflexivity]. exfalso.
      assert (K : length (rev (tl ds)) = 0) by now rewrite R. rewrite rev_length in K. destruct ds as [|? [|? ?]]; cbn in *; lia.
    - destruct C5 as (C5 & -> & ->). f_equal. destruct (rev ds) eqn:R; [|reflexivity]. exfalso. apply N. rewrite <- (rev_involutive ds), R. reflexivity. }
  subst c. split; [exact E|]. split; [exact H|]. split.
  - destruct (tfmt t) eqn:F; cbn [rows]; [tauto|]. now apply (proj1 S).
  - split; [exact N|]. split; [|exact I]. intros F. rewrite F in C5. tauto.
Qed.
Lemma holding_intro t n ty ds data a b : sound t -> length data = nprod ds -> ty <> Strg -> ds <> [] ->
  tcols t = a ++ new_col n ty (vdims (tfmt t) ty ds data) (map (encode ty) data) :: b ->
  (forall d, In d (a ++ b) -> to_upper (cname d) <> to_upper n) -> tnrow t = rows (tfmt t) ds -> (tfmt t = Rows -> 2 <= length ds) ->
  holding t n ty ds data.
Proof.
  intros S L T N E H R D. split; [exact S|]. split; [exact L|]. split; [exact T|]. do 3 eexists. split; [exact E|]. split; [exact H|].
  assert (I : is_string ty = false) by now destruct ty. unfold new_col, vdims, width. cbn [cname ctype cwidth crepeat ctdim ccells]. rewrite I. cbn [app].
  rewrite nprod_rev. repeat split. destruct (tfmt t); cbn [rows inner] in *.
  - specialize (D eq_refl). split; [exact D|]. split; [reflexivity|]. split; [|exact R].
    destruct (rev (tl ds)) eqn:Q; [|reflexivity]. exfalso. assert (K : length (rev (tl ds)) = 0) by now rewrite Q. rewrite rev_length in K. destruct ds as [|? [|? ?]]; cbn in *; lia.
  - split; [destruct ds; [congruence|cbn; lia]|]. split; [reflexivity|]. destruct (rev ds) eqn:Q; [|reflexivity]. exfalso. apply N. rewrite <- (rev_involutive ds), Q. reflexivity.
Qed.
Lemma holding_write t n ty ds data : sound t -> absent t n -> ds <> [] -> length data = nprod ds -> fits_in t ds -> ty <> Strg -> (tfmt t = Rows -> 2 <= length ds) ->
  exists t', write_column t n (Vec ty ds data) = Ok t' /\ holding t' n ty ds data.
Proof.
  intros S A N L F T D. eexists. split; [now apply write_vec|]. apply (holding_intro _ n ty ds data (tcols t) []); auto.
  - now apply sound_new.
  - cbn [tcols tfmt]. intros d I. rewrite app_nil_r in I. now apply A.
Qed.
Lemma holding_read o t n ty ds data : holding t n ty ds data -> ~ forgotten t ty ds -> Forall (holds ty) data ->
  read_column o t n (IntoVec ty (length ds)) = Ok (Read (Vec ty ds data)).
Proof.
  intros H G F. assert (L := proj1 (proj2 H)). destruct (holding_new _ _ _ _ _ H) as (a & b & E & Hn & R & N & D & I).
  rewrite <- (tab_eta t), E, R. rewrite read_drop by (intros d Id; apply Hn, in_or_app; now right).
  assert (Q := read_vec o (Tab (tfmt t) (tnrow t) a) n n ty ds data ty (length ds)). cbn [tfmt tcols] in Q. rewrite Q; auto.
  - now rewrite Nat.sub_diag.
  - intros d Id. cbn [tcols] in Id. apply Hn, in_or_app. now left.
  - apply check_self.
  - now apply shared_self.
Qed.

(* --- dimensions and pitches --- *)
Lemma holding_get t n ty ds data : holding t n ty ds data -> exists a b,
  tcols t = a ++ new_col n ty (vdims (tfmt t) ty ds data) (map (encode ty) data) :: b /\ get_colnum t n = Some (length a) /\
  nth_error (tcols t) (length a) = Some (new_col n ty (vdims (tfmt t) ty ds data) (map (encode ty) data)).
Proof.
  intros H. destruct (holding_new _ _ _ _ _ H) as (a & b & E & Hn & R & N & D & I). exists a, b. split; [exact E|]. split.
  - rewrite <- (tab_eta t), E. apply get_single; [cbn [new_col cname]; apply to_upper_upper|exact Hn].
  - rewrite E. apply nth_app_mid.
Qed.
(* the types reported for a column *)
Notation kinds := reported (only parsing).
Lemma decode_char_all ty l : ty = Bool \/ ty = Char -> Forall (holds ty) l -> omapl (decode Char) (map (encode ty) l) = Ok l.
Proof.
  intros T F. induction F as [|x l H F IH]; [reflexivity|]. cbn [map omapl]. rewrite IH.
  destruct x as [z|s]; [|destruct H as (-> & _); destruct T; discriminate].
  destruct T as [->| ->]; cbn [encode decode holds] in *; rewrite inside_ok by lia; reflexivity.
Qed.
Lemma info_ok t n ty ds data : holding t n ty ds data -> Forall (holds ty) data -> (ty = Bool \/ ty = Char -> nprod ds <> 0) ->
  exists a b k, tcols t = a ++ new_col n ty (vdims (tfmt t) ty ds data) (map (encode ty) data) :: b /\
    column_info t n = Ok (Some (length a, k, ds)) /\ In k (kinds ty).
Proof.
  intros H F Z. assert (L := proj1 (proj2 H)). destruct (holding_get _ _ _ _ _ H) as (a & b & E & G & Nt).
  destruct (holding_new _ _ _ _ _ H) as (_ & _ & _ & _ & R & N & D & I).
  set (c := new_col n ty (vdims (tfmt t) ty ds data) (map (encode ty) data)) in *. exists a, b.
  assert (P : per_row c = nprod (inner (tfmt t) ds)) by apply per_row_new.
  assert (V : vdims (tfmt t) ty ds data = rev (inner (tfmt t) ds)) by (unfold vdims; now rewrite I).
  assert (Nv : rev (inner (tfmt t) ds) <> []).
  { intros Q. assert (K : length (rev (inner (tfmt t) ds)) = 0) by now rewrite Q. rewrite rev_length in K. destruct (tfmt t); cbn [inner] in K.
    - specialize (D eq_refl). destruct ds as [|? [|? ?]]; cbn in *; lia.
    - destruct ds; [congruence|discriminate]. }
  assert (A : match ctdim c with Some d => d | None => [crepeat c] end = rev (inner (tfmt t) ds)).
  { unfold c, new_col. cbn [ctdim crepeat]. rewrite V. destruct (rev (inner (tfmt t) ds)); [congruence|reflexivity]. }
  assert (Dm : rev (match tfmt t with Rows => rev (inner (tfmt t) ds) ++ [tnrow t] | Cols => rev (inner (tfmt t) ds) end) = ds).
  { destruct (tfmt t); cbn [inner]; [|apply rev_involutive]. rewrite rev_app_distr, rev_involutive, R. cbn [rev app rows]. destruct ds; [congruence|reflexivity]. }
  assert (RI := rows_inner (tfmt t) ds N).
  assert (B : ty = Bool \/ ty = Char -> exists k, (l <- read_cells t c 1 1 (crepeat c) ;; l <- omapl (decode Char) l ;;
      match map (fun x => match x with Num z => z | Txt _ => 0%Z end) l with
      | [] => CheckFail
      | z :: zs => Ok (if (fold_left Z.min zs z =? 0)%Z && (fold_left Z.max zs z <=? 1)%Z then FLogical else FByte)
      end) = Ok k /\ In k (kinds ty)).
  { intros T. specialize (Z T). assert (Rp : crepeat c = per_row c) by (rewrite P; unfold c, new_col; cbn [crepeat]; now rewrite V, nprod_rev).
    unfold read_cells. rewrite Rp, P. set (p := nprod (inner (tfmt t) ds)) in *. assert (Pp : 0 < p) by (destruct p; lia). assert (Rr : 0 < rows (tfmt t) ds) by (destruct (rows (tfmt t) ds); lia).
    cbn [Nat.eqb orb Nat.sub Nat.mul Nat.add]. replace (p <? 1) with false by lia. rewrite R.
    replace (p <=? rows (tfmt t) ds * p) with true by (symmetry; apply Nat.leb_le; clear - Rr Pp; nia). cbn [obind skipn].
    unfold c. cbn [new_col ccells]. rewrite firstn_map. rewrite decode_char_all; [|exact T|].
    2:{ apply Forall_forall. intros x Ix. rewrite Forall_forall in F. apply F. rewrite <- (firstn_skipn p data). apply in_or_app. now left. }
    cbn [obind]. destruct (firstn p data) as [|x l] eqn:Q.
    - assert (K : length (firstn p data) = 0) by now rewrite Q. rewrite firstn_length, L, RI in K. clear - K Pp Rr. nia.
    - cbn [map]. eexists. split; [reflexivity|]. destruct T as [->| ->]; destruct (_ && _); cbn; auto. }
  unfold column_info. rewrite G, Nt, A.
  assert (Tc : ctype c = tform ty) by reflexivity. rewrite Tc.
  destruct ty; cbn [tform] in *; try (eexists; split; [exact E|]; cbn [obind fis_string]; rewrite Dm; split; [reflexivity|now left]); try discriminate;
    (destruct B as (k & B & Ik); [auto|]; exists k; split; [exact E|]; split; [|exact Ik]; rewrite B; cbn [obind];
     replace (fis_string k) with false by (destruct Ik as [<-|[<-|[]]]; reflexivity); now rewrite Dm).
Qed.

Lemma pitches_nth D i : i < length D -> nth_error (pitches D) i = Some (nprod (skipn (S i) D)).
Proof. revert i. induction D as [|d D IH]; intros [|i] H; cbn [length] in *; try lia; [reflexivity|]. cbn [pitches nth_error]. rewrite IH by lia. reflexivity. Qed.
Lemma skipn_step {A} (D : list A) i d ds : skipn i D = d :: ds -> nth_error D i = Some d /\ i < length D /\ skipn (S i) D = ds.
Proof.
  revert D. induction i as [|i IH]; intros D H; [destruct D; [discriminate|]; injection H as -> ->; cbn; repeat split; lia|].
  destruct D as [|x D]; [discriminate|]. cbn [skipn] in H. apply IH in H. cbn [nth_error length]. intuition lia.
Qed.
Lemma first_tail f D ids : forall ds i row elem, skipn i D = ds -> f = Cols \/ 0 < i -> valid ds ids ->
  first_element f D (pitches D) i row elem ids = Ok (row + 1, elem + place ds ids + 1).
Proof.
  induction ids as [|id ids IH]; intros ds i row elem E F V; [cbn [first_element]; destruct ds; cbn [place]; now rewrite Nat.add_0_r|].
  destruct ds as [|d ds]; [destruct V|]. destruct V as (V & W). destruct (skipn_step _ _ _ _ E) as (E1 & E2 & E3).
  cbn [first_element]. rewrite E1, (pitches_nth D i E2), E3. replace (id <? d) with true by lia. cbn [check obind].
  assert (G : first_element f D (pitches D) (S i) row (elem + id * nprod ds) ids = Ok (row + 1, elem + place (d :: ds) (id :: ids) + 1)).
  { rewrite (IH ds); [|exact E3|lia|exact W]. cbn [place]. do 3 f_equal. lia. }
  destruct f; [|exact G]. destruct (Nat.eqb_spec i 0) as [->|]; [|exact G]. destruct F; [discriminate|lia].
Qed.
Lemma place_bound ds ids : valid ds ids -> place ds ids + nprod (skipn (length ids) ds) <= nprod ds.
Proof.
  revert ds. induction ids as [|i ids IH]; intros ds V; [destruct ds; cbn [place length skipn]; lia|].
  destruct ds as [|d ds]; [destruct V|]. destruct V as (V & W). cbn [place length skipn]. rewrite nprod_cons. specialize (IH ds W).
  clear - V IH. nia.
Qed.
Lemma first_ok f ds ids : ds <> [] -> valid ds ids -> exists row elem, first_element f ds (pitches ds) 0 0 0 ids = Ok (row, elem) /\ 0 < row /\ 0 < elem /\
  (row - 1) * nprod (inner f ds) + (elem - 1) = place ds ids /\ (nprod (skipn (length ids) ds) <> 0 -> elem <= nprod (inner f ds)).
Proof.
  intros N V. assert (PB := place_bound ds ids V). destruct f; cbn [inner].
  - destruct ids as [|id ids].
    + exists 1, 1. split; [reflexivity|]. destruct ds as [|d ds]; [congruence|]. cbn [place length skipn tl] in *. rewrite nprod_cons in *. repeat split; try lia.
    + destruct ds as [|d ds]; [congruence|]. destruct V as (V & W). cbn [first_element nth_error pitches]. replace (id <? d) with true by lia. cbn [check obind Nat.eqb].
      exists (id + 1), (place ds ids + 1). assert (K := first_tail Rows (d :: ds) ids ds 1 id 0 eq_refl (or_intror Nat.lt_0_1) W). cbn [pitches Nat.add] in K.
      split; [exact K|]. cbn [place length skipn tl] in *. rewrite nprod_cons in PB. assert (PB' := place_bound ds ids W). repeat split; try lia.
  - exists 1, (place ds ids + 1). split; [apply (first_tail Cols ds ids ds 0 0 0); auto|]. repeat split; lia.
Qed.

(* --- read_elements --- *)
Lemma skipn_map' {A B} (f : A -> B) n l : skipn n (map f l) = map f (skipn n l).
Proof. revert l. induction n as [|n IH]; intros [|x l]; try reflexivity. apply IH. Qed.
Lemma in_part {A} (P : A -> Prop) l a b : Forall P l -> Forall P (firstn a (skipn b l)).
Proof.
  intros F. apply Forall_forall. rewrite Forall_forall in F. intros x I. apply F. rewrite <- (firstn_skipn b l). apply in_or_app. right.
  rewrite <- (firstn_skipn a (skipn b l)). apply in_or_app. now left.
Qed.
Section part.
Variables (t : tab) (n : str) (ty : vtype) (ds : list nat) (data : list cell) (ids : list nat).
Hypotheses (H : holding t n ty ds data) (F : Forall (holds ty) data) (V : valid ds ids).
Let rest := skipn (length ids) ds.
Lemma read_part a b (c := new_col n ty (vdims (tfmt t) ty ds data) (map (encode ty) data)) k row elem : tcols t = a ++ c :: b ->
  0 < k <= nprod rest ->
  first_element (tfmt t) ds (pitches ds) 0 0 0 ids = Ok (row, elem) ->
  read_cells t c row elem k = Ok (map (encode ty) (firstn k (skipn (place ds ids) data))).
Proof.
  intros E K Fe. assert (L := proj1 (proj2 H)). destruct (holding_new _ _ _ _ _ H) as (_ & _ & _ & _ & R & N & D & I).
  destruct (first_ok (tfmt t) ds ids N V) as (row' & elem' & Fe' & Pr & Pe & Ps & Pb). rewrite Fe in Fe'. injection Fe' as <- <-.
  assert (PB := place_bound ds ids V). fold rest in PB, Pb. assert (RI := rows_inner (tfmt t) ds N).
  unfold read_cells, c. rewrite per_row_new. fold c. replace ((row =? 0) || (elem =? 0) || (nprod (inner (tfmt t) ds) <? elem)) with false by lia.
  rewrite Ps, R, <- RI. replace (place ds ids + k <=? nprod ds) with true by lia. cbn [c new_col ccells].
  now rewrite skipn_map', firstn_map.
Qed.
End part.
Lemma skipn_rest ds ids nr : valid ds ids -> length ids + nr = length ds -> last_dims ds nr = Ok (skipn (length ids) ds).
Proof. intros V L. unfold last_dims. replace (nr <=? length ds) with true by lia. do 2 f_equal. lia. Qed.
Lemma read_elements_ok o t n ty ds data u ids nr : holding t n ty ds data -> Forall (holds ty) data -> Forall (shared ty u) data ->
  (forall k, In k (kinds ty) -> check_type o u k = true) -> check_type o u (tform ty) = true -> valid ds ids -> length ids + nr = length ds ->
  (ty = Bool \/ ty = Char -> nprod ds <> 0) ->
  (0 < nr -> read_elements o t n (IntoVec u nr) ids nr = Ok (Vec u (skipn (length ids) ds) (firstn (nprod (skipn (length ids) ds)) (skipn (place ds ids) data)))) /\
  (nr = 0 -> exists x, nth_error data (place ds ids) = Some x /\ read_elements o t n (IntoScal u) ids nr = Ok (Scal u x)).
Proof.
  intros H F S C C' V L Z. destruct (info_ok _ _ _ _ _ H F Z) as (a & b & k & E & Ci & Ik).
  assert (N : ds <> []) by (destruct (holding_new _ _ _ _ _ H) as (_ & _ & _ & _ & _ & N & _); exact N).
  destruct (first_ok (tfmt t) ds ids N V) as (row & elem & Fe & _).
  assert (PB := place_bound ds ids V). assert (Ld := proj1 (proj2 H)). assert (Cn := check_type_narrow _ _ _ C').
  split.
  - intros P. unfold read_elements. rewrite Ci. cbn [obind]. rewrite L, Nat.eqb_refl. cbn [check obind ttype]. rewrite (C k Ik). cbn [check obind].
    rewrite E at 1. rewrite nth_app_mid. rewrite (skipn_rest ds ids nr V L). cbn [obind]. rewrite Fe. cbn [obind].
    destruct (nprod (skipn (length ids) ds) =? 0) eqn:Q; [apply Nat.eqb_eq in Q; rewrite Q; reflexivity|].
    rewrite (read_part t n ty ds data ids H V a b) by (auto; lia). cbn [obind]. rewrite decode_all; [reflexivity|exact Cn|]. now apply in_part.
  - intros ->. rewrite Nat.add_0_r in L. assert (Rs : skipn (length ids) ds = []) by (apply skipn_all2; lia). rewrite Rs in PB.
    change (nprod []) with 1 in PB. destruct (nth_error data (place ds ids)) as [x|] eqn:X. 2:{ apply nth_error_None in X. lia. }
    exists x. split; [reflexivity|]. unfold read_elements. rewrite Ci. cbn [obind]. rewrite Nat.add_0_r, L, Nat.eqb_refl. cbn [check obind ttype]. rewrite (C k Ik). cbn [check obind].
    rewrite E at 1. rewrite nth_app_mid. cbn [obind]. rewrite Fe. cbn [obind].
    rewrite (read_part t n ty ds data ids H V a b 1 row elem) by (auto; rewrite Rs; cbv; lia). cbn [obind].
    assert (X1 : firstn 1 (skipn (place ds ids) data) = [x]).
    { apply nth_error_split in X. destruct X as (l1 & l2 & -> & <-). rewrite skipn_app, skipn_all, Nat.sub_diag. reflexivity. }
    rewrite X1. cbn [map]. rewrite (decode_encode ty u x); [reflexivity|exact Cn|]. rewrite Forall_forall in S. apply S. now apply nth_error_In in X.
Qed.

(* --- update_elements --- *)
Lemma replaced_length data new p : p + length new <= length data -> length (replaced data new p) = length data.
Proof. intros H. unfold replaced. rewrite !app_length, firstn_length, skipn_length. lia. Qed.
Lemma upd_mid {A} (a : list A) x b y : upd (a ++ x :: b) (length a) y = a ++ y :: b.
Proof. induction a as [|h a IH]; [reflexivity|]. cbn [app length upd]. now rewrite IH. Qed.
Lemma sameb_refl l : sameb l l = true.
Proof. induction l as [|x l IH]; [reflexivity|]. cbn [sameb]. now rewrite Nat.eqb_refl. Qed.
Lemma col_rows_sound t : sound t -> map (col_rows (tnrow t)) (tcols t) = tcols t.
Proof. intros S. apply map_same. intros d I. now apply sound_same. Qed.
Lemma vdims_any f ty ds a b : is_string ty = false -> vdims f ty ds a = vdims f ty ds b.
Proof. intros H. unfold vdims. now rewrite H. Qed.
Lemma write_part t n ty ds data ids new a b (c := new_col n ty (vdims (tfmt t) ty ds data) (map (encode ty) data)) row elem :
  holding t n ty ds data -> valid ds ids -> tcols t = a ++ c :: b -> (forall d, In d (a ++ b) -> to_upper (cname d) <> to_upper n) ->
  new <> [] -> length new <= nprod (skipn (length ids) ds) ->
  first_element (tfmt t) ds (pitches ds) 0 0 0 ids = Ok (row, elem) ->
  exists t', write_cells t (length a) row elem (map (encode ty) new) = Ok t' /\ holding t' n ty ds (replaced data new (place ds ids)) /\
    t' = Tab (tfmt t) (tnrow t) (a ++ new_col n ty (vdims (tfmt t) ty ds (replaced data new (place ds ids))) (map (encode ty) (replaced data new (place ds ids))) :: b).
Proof.
  intros H V E Hn Nn Ln Fe. assert (L := proj1 (proj2 H)). assert (S := proj1 H). assert (T := proj1 (proj2 (proj2 H))).
  destruct (holding_new _ _ _ _ _ H) as (_ & _ & _ & _ & R & N & D & I).
  destruct (first_ok (tfmt t) ds ids N V) as (row' & elem' & Fe' & Pr & Pe & Ps & Pb). rewrite Fe in Fe'. injection Fe' as <- <-.
  assert (PB := place_bound ds ids V). assert (RI := rows_inner (tfmt t) ds N).
  assert (Lp : 0 < length new) by (destruct new; [congruence|cbn; lia]).
  assert (P : per_row c = nprod (inner (tfmt t) ds)) by apply per_row_new.
  assert (Pi : 0 < nprod (inner (tfmt t) ds)) by (specialize (Pb ltac:(lia)); lia).
  assert (LR : length (replaced data new (place ds ids)) = length data) by (apply replaced_length; lia).
  eexists. split; [|split; [|reflexivity]].
  - unfold write_cells. rewrite E at 1. rewrite nth_app_mid, P.
    replace ((row =? 0) || (elem =? 0) || (nprod (inner (tfmt t) ds) <? elem)) with false by (specialize (Pb ltac:(lia)); lia).
    rewrite Ps, map_length.
    replace (max (tnrow t) (ceil_div (place ds ids + length new) (nprod (inner (tfmt t) ds)))) with (tnrow t).
    2:{ symmetry. apply Nat.max_l. rewrite R. unfold ceil_div. apply Nat.lt_succ_r. apply Nat.div_lt_upper_bound; [lia|].
        cut (place ds ids + length new <= nprod (inner (tfmt t) ds) * rows (tfmt t) ds); [clear - Pi; nia|]. lia. }
    rewrite col_rows_sound by exact S. rewrite E at 1. rewrite nth_app_mid. rewrite E, upd_mid. do 4 f_equal.
    unfold c, new_col. cbn [cname ctype cwidth crepeat ctdim ccells]. rewrite (vdims_any (tfmt t) ty ds (replaced data new (place ds ids)) data I).
    unfold replaced. rewrite !map_app. rewrite firstn_map, skipn_map'. reflexivity.
  - apply (holding_intro _ n ty ds (replaced data new (place ds ids)) a b); cbn [tfmt tnrow tcols]; auto.
    + split; cbn [tfmt tnrow tcols]; [apply S|]. intros d Id. apply in_app_or in Id. destruct Id as [Id|[<-|Id]].
      * apply S. rewrite E. apply in_or_app. now left.
      * rewrite per_row_new. cbn [new_col ccells]. rewrite map_length, LR, L, R. exact RI.
      * apply S. rewrite E. apply in_or_app. right. now right.
    + lia.
Qed.
Lemma update_elements_ok t n ty ds data ids nr new : holding t n ty ds data -> Forall (holds ty) data -> ty <> Char ->
  (ty = Bool -> nprod ds <> 0) -> valid ds ids -> length ids + nr = length ds ->
  length new = nprod (skipn (length ids) ds) ->
  forall v, v = Vec ty (skipn (length ids) ds) new /\ 0 < nr \/ (nr = 0 /\ exists x, new = [x] /\ v = Scal ty x) ->
  exists t', update_elements t n v ids nr = Ok t' /\ holding t' n ty ds (replaced data new (place ds ids)) /\
    forall o m g, to_upper m <> to_upper n -> read_column o t' m g = read_column o t m g.
Proof.
  intros H F Tc Z V L Ln v Hv.
  assert (Zb : ty = Bool \/ ty = Char -> nprod ds <> 0) by (intros [K|K]; [auto|congruence]).
  destruct (info_ok _ _ _ _ _ H F Zb) as (a & b & k & E & Ci & Ik).
  assert (N : ds <> []) by (destruct (holding_new _ _ _ _ _ H) as (_ & _ & _ & _ & _ & N & _); exact N).
  destruct (first_ok (tfmt t) ds ids N V) as (row & elem & Fe & _).
  assert (T := proj1 (proj2 (proj2 H))).
  assert (Ck : is_convertible_narrow ty k = true).
  { destruct ty; cbn [reported tform] in Ik; try congruence; repeat destruct Ik as [<-|Ik]; try reflexivity; destruct Ik. }
  assert (Hn : forall d, In d (a ++ b) -> to_upper (cname d) <> to_upper n).
  { assert (G : get_colnum t n = Some (length a)).
    { unfold column_info in Ci. destruct (get_colnum t n) as [i|] eqn:Q; [|discriminate]. destruct (nth_error (tcols t) i); [|discriminate].
      match type of Ci with obind ?e _ = _ => destruct e; try discriminate end. cbn [obind] in Ci. injection Ci as -> _ _. reflexivity. }
    unfold get_colnum in G. rewrite E, find_app in G. cbn [find_from] in G.
    rewrite (proj2 (named_true (to_upper n) (new_col n ty (vdims (tfmt t) ty ds data) (map (encode ty) data))) (to_upper_upper n)) in G. cbn [Nat.add app] in G.
    intros d Id Q. apply in_app_or in Id.
    assert (Some_in : forall l i, In d l -> find_from (to_upper n) l i <> []).
    { intros l. induction l as [|e l IH]; intros i J; [destruct J|]. cbn [find_from]. destruct J as [->|J].
      - rewrite (proj2 (named_true _ _) Q). discriminate.
      - intros K. apply app_eq_nil in K. now apply (IH (S i) J). }
    destruct Id as [Id|Id]; apply Some_in with (i := 0) in Id as Id'.
    - destruct (find_from (to_upper n) a 0) as [|i [|i' l]]; [congruence| |]; discriminate.
    - destruct (find_from (to_upper n) a 0) as [|i [|i' l]]; cbn [app] in G; try discriminate.
      apply (Some_in b (S (length a))) in Id. destruct (find_from (to_upper n) b (S (length a))); [congruence|discriminate]. }
  assert (Emp : new = [] -> exists t', Ok t = Ok t' /\ holding t' n ty ds (replaced data new (place ds ids)) /\ forall o m g, to_upper m <> to_upper n -> read_column o t' m g = read_column o t m g).
  { intros ->. exists t. split; [reflexivity|]. split; [|reflexivity]. unfold replaced. cbn [length app]. now rewrite Nat.add_0_r, firstn_skipn. }
  assert (W : new <> [] -> exists t', write_cells t (length a) row elem (map (encode ty) new) = Ok t' /\ holding t' n ty ds (replaced data new (place ds ids)) /\
     forall o m g, to_upper m <> to_upper n -> read_column o t' m g = read_column o t m g).
  { intros Nn. destruct (write_part t n ty ds data ids new a b row elem H V E Hn Nn ltac:(lia) Fe) as (t' & W1 & W2 & W3). exists t'. split; [exact W1|]. split; [exact W2|].
    intros o m g D. rewrite W3. rewrite read_frame by (cbn [new_col cname]; rewrite to_upper_upper; congruence).
    rewrite <- (tab_eta t) at 3. rewrite E. rewrite read_frame by (cbn [new_col cname]; rewrite to_upper_upper; congruence). reflexivity. }
  unfold update_elements. rewrite Ci. cbn [obind].
  destruct Hv as [(-> & P)|(-> & x & -> & ->)].
  - rewrite L, Nat.eqb_refl. cbn [check obind vtype_of].
    assert (Lr : length (skipn (length ids) ds) = nr) by (rewrite skipn_length; lia). rewrite Lr, (skipn_rest ds ids nr V L). cbn [obind]. rewrite sameb_refl. cbn [check obind].
    rewrite Ck. cbn [check obind]. rewrite Fe. cbn [obind]. destruct new as [|y new]; [now apply Emp|]. apply W. discriminate.
  - rewrite L, Nat.eqb_refl. cbn [check obind vtype_of]. rewrite Ck. cbn [check obind]. rewrite Fe. cbn [obind]. apply W. discriminate.
Qed.

Lemma first_bad f ds : forall ids pre row elem, ~ valid ds ids -> first_element f (pre ++ ds) (pitches (pre ++ ds)) (length pre) row elem ids = CheckFail.
Proof.
  induction ds as [|d ds IH]; intros [|i ids] pre row elem V; try (exfalso; apply V; exact I).
  - cbn [first_element]. rewrite app_nil_r. rewrite (proj2 (nth_error_None pre (length pre))) by lia. reflexivity.
  - cbn [first_element]. rewrite nth_app_mid. rewrite pitches_nth by (rewrite app_length; cbn; lia). destruct (Nat.ltb_spec i d) as [K|K]; [|reflexivity].
    cbn [check obind]. assert (W : ~ valid ds ids) by (intros W; apply V; split; assumption).
    replace (pre ++ d :: ds) with ((pre ++ [d]) ++ ds) by now rewrite <- app_assoc. replace (S (length pre)) with (length (pre ++ [d])) by (rewrite app_length; cbn; lia).
    destruct f; [destruct (_ =? 0)|]; now apply IH.
Qed.
Lemma sameb_eq a : forall b, sameb a b = true -> a = b.
Proof. induction a as [|x a IH]; intros [|y b] H; try discriminate; [reflexivity|]. cbn [sameb] in H. apply andb_prop in H. destruct H as (H & K). f_equal; [lia|auto]. Qed.
Lemma fold_min l : forall z, let m := fold_left Z.min l z in In m (z :: l) /\ forall x, In x (z :: l) -> (m <= x)%Z.
Proof.
  induction l as [|y l IH]; intros z; cbn [fold_left]; [split; [now left|intros x [->|[]]; lia]|]. specialize (IH (Z.min z y)). cbn zeta in *.
  destruct IH as (I & M). split.
  - destruct I as [I|I]; [|right; now right]. rewrite <- I. destruct (Z.min_spec z y) as [(_ & ->)|(_ & ->)]; [now left|right; now left].
  - intros x [->|[->|J]]; [|..]; [assert (Q := M _ (or_introl eq_refl)); lia|assert (Q := M _ (or_introl eq_refl)); lia|apply M; now right].
Qed.
Lemma fold_max l : forall z, let m := fold_left Z.max l z in In m (z :: l) /\ forall x, In x (z :: l) -> (x <= m)%Z.
Proof.
  induction l as [|y l IH]; intros z; cbn [fold_left]; [split; [now left|intros x [->|[]]; lia]|]. specialize (IH (Z.max z y)). cbn zeta in *.
  destruct IH as (I & M). split.
  - destruct I as [I|I]; [|right; now right]. rewrite <- I. destruct (Z.max_spec z y) as [(_ & ->)|(_ & ->)]; [right; now left|now left].
  - intros x [->|[->|J]]; [|..]; [assert (Q := M _ (or_introl eq_refl)); lia|assert (Q := M _ (or_introl eq_refl)); lia|apply M; now right].
Qed.
Lemma boolean_ok t n ty ds data : holding t n ty ds data -> Forall (holds ty) data -> ty = Bool \/ ty = Char -> nprod ds <> 0 ->
  exists i k, column_info t n = Ok (Some (i, k, ds)) /\
    let row := firstn (match tfmt t with Rows => nprod (tl ds) | Cols => nprod ds end) data in
    (k = FLogical <-> In (Num 0) row /\ forall z, In (Num z) row -> (0 <= z <= 1)%Z).
Proof.
  intros H F T Z. destruct (info_ok _ _ _ _ _ H F (fun _ => Z)) as (a & b & k & E & Ci & Ik). exists (length a), k. split; [exact Ci|].
  assert (L := proj1 (proj2 H)). destruct (holding_get _ _ _ _ _ H) as (a' & b' & E' & G & Nt).
  destruct (holding_new _ _ _ _ _ H) as (_ & _ & _ & _ & R & N & D & I).
  set (c := new_col n ty (vdims (tfmt t) ty ds data) (map (encode ty) data)) in *.
  assert (P : per_row c = nprod (inner (tfmt t) ds)) by apply per_row_new.
  assert (V : vdims (tfmt t) ty ds data = rev (inner (tfmt t) ds)) by (unfold vdims; now rewrite I).
  assert (RI := rows_inner (tfmt t) ds N).
  unfold column_info in Ci. rewrite G, Nt in Ci. assert (Tc : ctype c = FByte) by (unfold c; cbn [new_col ctype]; destruct T as [->| ->]; reflexivity). rewrite Tc in Ci.
  assert (Rp : crepeat c = per_row c) by (rewrite P; unfold c, new_col; cbn [crepeat]; now rewrite V, nprod_rev).
  unfold read_cells in Ci. rewrite Rp, P in Ci. change (match tfmt t with Rows => nprod (tl ds) | Cols => nprod ds end) with (nprod (match tfmt t with Rows => tl ds | Cols => ds end)) || idtac.
  replace (match tfmt t with Rows => nprod (tl ds) | Cols => nprod ds end) with (nprod (inner (tfmt t) ds)) by now destruct (tfmt t).
  set (p := nprod (inner (tfmt t) ds)) in *. assert (Pp : 0 < p) by (destruct p; lia). assert (Rr : 0 < rows (tfmt t) ds) by (destruct (rows (tfmt t) ds); lia).
  cbn [Nat.eqb orb Nat.sub Nat.mul Nat.add] in Ci. replace (p <? 1) with false in Ci by lia. rewrite R in Ci.
  replace (p <=? rows (tfmt t) ds * p) with true in Ci by (symmetry; apply Nat.leb_le; clear - Rr Pp; nia). cbn [obind skipn] in Ci.
  unfold c in Ci. cbn [new_col ccells] in Ci. rewrite firstn_map in Ci. rewrite decode_char_all in Ci; [|exact T|].
  2:{ apply Forall_forall. intros x Ix. rewrite Forall_forall in F. apply F. rewrite <- (firstn_skipn p data). apply in_or_app. now left. }
  cbn [obind] in Ci. cbn zeta.
  assert (Fr : Forall (holds ty) (firstn p data)).
  { apply Forall_forall. intros x Ix. rewrite Forall_forall in F. apply F. rewrite <- (firstn_skipn p data). apply in_or_app. now left. }
  set (row := firstn p data) in *. set (zs := map (fun x => match x with Num z => z | Txt _ => 0%Z end) row) in *.
  assert (Mem : forall z, In (Num z) row <-> In z zs).
  { intros z. unfold zs. rewrite in_map_iff. split; [intros J; exists (Num z); auto|]. intros (x & Q & J). rewrite Forall_forall in Fr. specialize (Fr x J).
    destruct x as [y|s]; [now subst|]. destruct Fr as (-> & _). destruct T; discriminate. }
  clearbody zs. destruct zs as [|z zs]; [discriminate|]. cbn [obind] in Ci.
  assert (Km := fold_min zs z). assert (KM := fold_max zs z). cbn zeta in Km, KM.
  set (mn := fold_left Z.min zs z) in *. set (mx := fold_left Z.max zs z) in *. destruct Km as (Km1 & Km2), KM as (KM1 & KM2).
  assert (Ek : k = if (mn =? 0)%Z && (mx <=? 1)%Z then FLogical else FByte).
  { destruct ((mn =? 0)%Z && (mx <=? 1)%Z); cbn [fis_string obind] in Ci; congruence. }
  rewrite Ek. rewrite (Mem 0%Z). split.
  - destruct ((mn =? 0)%Z && (mx <=? 1)%Z) eqn:Q; [|discriminate]. intros _. apply andb_prop in Q. destruct Q as (Q1 & Q2). split; [replace 0%Z with mn by lia; exact Km1|].
    intros x J. apply Mem in J. specialize (Km2 x J). specialize (KM2 x J). lia.
  - intros (J0 & J). assert (mn = 0%Z) by (specialize (Km2 _ J0); assert (Q := J mn (proj2 (Mem mn) Km1)); lia).
    assert (mx <= 1)%Z by (apply J, Mem, KM1). replace ((mn =? 0)%Z && (mx <=? 1)%Z) with true by lia. reflexivity.
Qed.
