From Coq Require Import Ascii ZifyBool.
From Verif Require Import Base StrModel TblModel TblSpec TblProofs.
From Verif Require NumModel DsregModel DsregSpec DsregProofs.

Lemma room_of t ds : sound t -> fits_in t ds -> rows (tfmt t) ds = tnrow t \/ tcols t = [].
Proof.
  intros (S & _) F. unfold fits_in in F. destruct (tfmt t) eqn:E; cbn [rows]; [|left; now rewrite S].
  destruct F as [F|(F & _)]; auto.
Qed.
Lemma sound_new t n ty ds data : sound t -> ds <> [] -> length data = nprod ds -> fits_in t ds ->
  sound (Tab (tfmt t) (rows (tfmt t) ds) (tcols t ++ [new_col n ty (vdims (tfmt t) ty ds data) (map (encode ty) data)])).
Proof.
  intros S N L F. assert (R := room_of _ _ S F). destruct S as (S & S'). split; cbn [tfmt tnrow tcols].
  - intros E. rewrite E. reflexivity.
  - intros c I. apply in_app_or in I. destruct I as [I|[<-|[]]].
    + destruct R as [->|R]; [now apply S'|]. rewrite R in I. destruct I.
    + rewrite per_row_new. cbn [new_col ccells]. rewrite map_length, L. now apply rows_inner.
Qed.
Lemma convertible_self ty : is_convertible ty (tform ty) = true.
Proof. now destruct ty. Qed.
Lemma check_self o ty : check_type o ty (tform ty) = true.
Proof. unfold check_type. destruct (narrow o); [apply narrow_more|]; apply convertible_self. Qed.
Lemma shared_self ty l : Forall (holds ty) l -> Forall (shared ty ty) l.
Proof. apply Forall_impl. intros x H. split; [exact H|]. split; [exact H|]. congruence. Qed.
Lemma not_in_one {t : tab} {n m : str} {c : col} : cname c = to_upper n -> to_upper m <> to_upper n -> to_upper (cname c) <> to_upper m.
Proof. intros -> H. rewrite to_upper_upper. congruence. Qed.

Lemma absent_read o f k m g : read_column o (Tab f k []) m g = Ok (if missing o then Unchanged else Refused).
Proof. reflexivity. Qed.
Lemma others t n ty ds data o m g : sound t -> ds <> [] -> length data = nprod ds -> fits_in t ds -> to_upper m <> to_upper n ->
  read_column o (Tab (tfmt t) (rows (tfmt t) ds) (tcols t ++ [new_col n ty (vdims (tfmt t) ty ds data) (map (encode ty) data)])) m g =
  read_column o t m g.
Proof.
  intros S N L F H. rewrite read_frame; [|cbn [new_col cname]; rewrite to_upper_upper; congruence]. rewrite app_nil_r.
  destruct (room_of _ _ S F) as [->|R]; [now rewrite tab_eta|]. rewrite R. destruct t as [f k cs]. cbn [tcols tfmt] in *. subst cs. reflexivity.
Qed.

(* remove *)
Lemma remove_single f k a c b n : to_upper (cname c) = to_upper n -> (forall d, In d (a ++ b) -> to_upper (cname d) <> to_upper n) ->
  remove_column (Tab f k (a ++ c :: b)) n = Tab f k (a ++ b).
Proof.
  intros E H. unfold remove_column. rewrite get_single by assumption. cbn [tfmt tnrow tcols]. f_equal.
  rewrite firstn_app, Nat.sub_diag, firstn_all. cbn [firstn]. rewrite app_nil_r. f_equal.
  rewrite skipn_app, (skipn_all2 a) by lia. replace (S (length a) - length a) with 1 by lia. reflexivity.
Qed.
Lemma remove_absent t n : absent t n -> remove_column t n = t.
Proof. intros A. unfold remove_column. now rewrite get_absent. Qed.
Lemma sound_less f k a c b : sound (Tab f k (a ++ c :: b)) -> sound (Tab f k (a ++ b)).
Proof.
  intros (S & S'). split; [exact S|]. cbn [tcols tnrow] in *. intros d I. apply S'. apply in_app_or in I. apply in_or_app. cbn [In]. tauto.
Qed.

(* scalars *)
Definition sdims (ty : vtype) (x : cell) : list nat := if is_string ty then [length (text x)] else [].
Definition nothing (ty : vtype) (x : cell) : bool := is_string ty && (length (text x) =? 0).
Lemma per_row_scal n ty x cells : nothing ty x = false -> per_row (new_col n ty (sdims ty x) cells) = 1.
Proof.
  intros H. unfold per_row, new_col, sdims, width, nothing in *. cbn [crepeat cwidth]. destruct (is_string ty); [|reflexivity].
  cbn [hd]. unfold nprod. cbn [fold_right]. rewrite Nat.mul_1_r. apply Nat.div_same. cbn [andb] in H. lia.
Qed.
Lemma write_scal t n ty x : sound t -> room t 1 True -> nothing ty x = false ->
  write_column t n (Scal ty x) = Ok (Tab (tfmt t) 1 (tcols t ++ [new_col n ty (sdims ty x) [encode ty x]])).
Proof.
  intros S R E. unfold write_column, create_column. cbn [write_dims vtype_of]. fold (sdims ty x).
  assert (C : check match tfmt t with Rows => match tcols t with [] => true | _ :: _ => 1 =? tnrow t end | Cols => true end = Ok tt).
  { destruct (tfmt t); [|reflexivity]. destruct R as [R|(R & _)]; rewrite R; [now destruct (tcols t)|reflexivity]. }
  rewrite C. cbn [obind]. fold (nothing ty x). rewrite E.
  change (Col (to_upper n) (tform ty) (if is_string ty then hd 0 (sdims ty x) else 1) (nprod (sdims ty x)) (match sdims ty x with [] => None | _ => Some (sdims ty x) end) [])
    with (new_col n ty (sdims ty x) []).
  apply append_cells; [exact S|discriminate| | |exact R]; rewrite per_row_scal by exact E; cbn; lia.
Qed.
Lemma read_scal o t n m ty x u : absent t n -> to_upper m = to_upper n -> check_type o u (tform ty) = true -> shared ty u x -> nothing ty x = false ->
  tfmt t = Cols \/ is_string ty = false ->
  read_column o (Tab (tfmt t) 1 (tcols t ++ [new_col n ty (sdims ty x) [encode ty x]])) m (IntoScal u) = Ok (Read (Scal u x)).
Proof.
  intros A Em C H E Fm. unfold read_column. rewrite get_new by assumption. cbn [tcols]. rewrite nth_app_mid. cbn [ttype].
  replace (ctype (new_col n ty (sdims ty x) [encode ty x])) with (tform ty) by reflexivity. rewrite C. cbn [negb tfmt tnrow].
  assert (K := check_string _ _ _ C).
  assert (EA : axes_of (Tab (tfmt t) 1 (tcols t ++ [new_col n ty (sdims ty x) [encode ty x]])) (new_col n ty (sdims ty x) [encode ty x]) =
    if is_string ty then [length (text x)] else [1]).
  { unfold axes_of, new_col, sdims. cbn [ctdim crepeat tfmt tnrow ctype]. destruct (is_string ty) eqn:I; [destruct Fm as [->|Fm]; [reflexivity|discriminate]|].
    destruct (tfmt t); [|reflexivity]. now destruct ty. }
  rewrite EA.
  assert (D : check_dim o (IntoScal u) (length (if is_string ty then [length (text x)] else [1])) (crepeat (new_col n ty (sdims ty x) [encode ty x])) = true).
  { rewrite <- K. unfold new_col, sdims. cbn [crepeat]. rewrite <- K. destruct u; reflexivity. }
  rewrite D. cbn [negb]. replace (match tfmt t with Rows => 1 | Cols => 1 end =? 0) with false by now destruct (tfmt t).
  assert (Z : is_string u && (crepeat (new_col n ty (sdims ty x) [encode ty x]) =? 0) = false).
  { unfold nothing in E. rewrite K. destruct (is_string ty) eqn:I; [|reflexivity]. cbn [andb] in *. unfold new_col, sdims. rewrite I. cbn [crepeat].
    unfold nprod. cbn [fold_right]. now rewrite Nat.mul_1_r. }
  rewrite Z. unfold read_cells. rewrite per_row_scal by exact E. cbn [Nat.eqb orb Nat.ltb Nat.leb Nat.sub Nat.mul Nat.add tnrow obind skipn new_col ccells firstn].
  rewrite (decode_encode ty u x); [reflexivity| |exact H]. now apply (check_type_narrow o).
Qed.
(* allocated columns *)
Lemma encode_blank ty : encode ty (blank (tform ty)) = blank (tform ty).
Proof. now destruct ty. Qed.
Lemma allocate_write t n ty ds : sound t -> ds <> [] -> is_string ty = false -> fits_in t ds -> (tcols t = [] -> tnrow t = 0 \/ tfmt t = Cols) ->
  allocate_column t n ty ds = write_column t n (Vec ty ds (repeat (Num 0) (nprod ds))).
Proof.
  intros S N I F Z. rewrite write_vec by (auto; apply repeat_length).
  assert (B : blank (tform ty) = Num 0) by (destruct ty; try reflexivity; discriminate).
  assert (V : vdims (tfmt t) ty ds (repeat (Num 0) (nprod ds)) = vdims (tfmt t) ty ds []) by (unfold vdims; now rewrite I).
  assert (M : map (encode ty) (repeat (Num 0) (nprod ds)) = repeat (Num 0) (nprod ds)) by (generalize (nprod ds) as k; induction k as [|k IH]; [reflexivity|]; cbn [repeat map]; rewrite IH; now destruct ty).
  rewrite V, M. unfold allocate_column. rewrite create_ok by (intros E; unfold fits_in in F; rewrite E in F; intuition). cbn [obind tcols].
  assert (RI := rows_inner (tfmt t) ds N).
  assert (C : forall k, k = rows (tfmt t) ds -> col_rows k (new_col n ty (vdims (tfmt t) ty ds []) []) = new_col n ty (vdims (tfmt t) ty ds []) (repeat (Num 0) (nprod ds))).
  { intros k ->. rewrite col_rows_new, per_row_new, B. cbn [app length]. now rewrite Nat.sub_0_r, <- RI. }
  assert (G : tnrow t = rows (tfmt t) ds -> Ok (Tab (tfmt t) (tnrow t) (tcols t ++ [col_rows (tnrow t) (new_col n ty (vdims (tfmt t) ty ds []) [])])) =
    Ok (Tab (tfmt t) (rows (tfmt t) ds) (tcols t ++ [new_col n ty (vdims (tfmt t) ty ds []) (repeat (Num 0) (nprod ds))]))).
  { intros E. rewrite (C (tnrow t) E). now rewrite E. }
  destruct (tfmt t) eqn:Fm; cbn [rows inner] in *.
  - destruct (tcols t) eqn:Cs.
    + destruct (Z eq_refl) as [Z'|]; [|discriminate]. rewrite Z'. cbn [Nat.add app map]. do 4 f_equal.
      rewrite (col_rows_full 0) by reflexivity. now apply C.
    + apply G. unfold fits_in in F. rewrite Fm, Cs in F. destruct F as [F|(F & _)]; [exact F|discriminate].
  - destruct (tcols t); apply G; now apply (proj1 S).
Qed.
