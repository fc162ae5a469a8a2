(* Merging of catalogues.  Source: include/vif/astro/catalog_merge.hpp.
   C are coordinates, D distances.  The cross matching is a parameter: it gets the two lists of positions
   and gives the first row of xm.id, the rows of xm.d and xm.rid; an index npos is None.
   A matrix is (dims[0], dims[1], rows); for more dimensions a row holds all the elements of a slice.
   Comments, names and the list of catalogues as text are not modelled. *)
From Coq Require Import String.
From Verif Require Import Base.
Local Open Scope nat_scope.
Local Open Scope list_scope.

Definition mat (T : Type) := (nat * nat * list (list T))%type.
(* the size is 0 *)
Definition mempty {T} (m : mat T) : bool := let '(d0, d1, _) := m in d0 * d1 =? 0.
(* v[ids], for a view that is read at once: bounds are checked *)
Definition pick {T} (v : list T) (ids : list nat) : outcome (list T) :=
  omapl (fun i => _ <- check (i <? length v) ;; oget v i) ids.
(* v[ids] = w *)
Definition put {T} (v : list T) (ids : list nat) (w : list T) : outcome (list T) :=
  _ <- check (forallb (fun i => i <? length v) ids) ;;
  _ <- check (length ids =? length w) ;;
  ofold (fun v '(i, x) => oset v i x) (combine ids w) v.

Section Merge.
Context {C D : Type}.

Record xmres := Xm { xid : list (option nat); xd : list (list D); xrid : list (option nat) }.
Record catalog := Cat { idi : list nat; idm : list nat; idb : list nat; cdist : list (list (option D)); ref : string }.
(* 117-132; ngal is not initialised by the constructor.  F is the type of the fluxes, NaN being None *)
Record pool := Pool {
  ngal : option nat; origin : list nat; ra : list C; dec : list C; cats : list catalog }.
Definition empty_pool : pool := Pool None [] [] [] [].

Variable qxmatch : list C -> list C -> list C -> list C -> outcome xmres.
Variable ref_of : nat -> string.    (* "["+to_string(n)+"]" *)

(* 140-147: a catalogue without coordinates, one source for each of those in the pool *)
Definition add_catalog_plain (p : pool) : outcome pool :=
  match ngal p with
  | None => UB   (* ngal is read before any value was given *)
  | Some n => Ok (Pool (ngal p) (origin p) (ra p) (dec p)
                    (cats p ++ [Cat (seq 0 n) (seq 0 n) [] [] (ref_of (length (cats p) + 1))]))
  end.

(* 214-229: the body of the loop; the state is idm, the number of new sources, tsel, ra, dec, origin *)
Definition lstate := (list nat * nat * list nat * list C * list C * list nat)%type.
Definition match_one (cra cdec : list C) (no_new : bool) (sel : list nat) (number : nat) (x : xmres) (s : lstate) (i : nat)
  : outcome lstate :=
  let '(idm, nnew, tsel, ra, dec, origin) := s in
  _ <- check (i <? length (xid x)) ;; k <- oget (xid x) i ;;
  match k with
  | None => CheckFail   (* rid[npos] *)
  | Some k =>
      _ <- check (k <? length (xrid x)) ;; b <- oget (xrid x) k ;;
      if match b with Some b => b =? i | None => false end then
        Ok (idm ++ [k], nnew, (if no_new then tsel ++ [i] else tsel), ra, dec, origin)
      else if no_new then Ok s
      else
        j <- oget sel i ;;
        _ <- check (j <? length cra) ;; r <- oget cra j ;;
        _ <- check (j <? length cdec) ;; d <- oget cdec j ;;
        Ok (idm ++ [length ra], nnew + 1, tsel, ra ++ [r], dec ++ [d], origin ++ [number])
  end.
(* 231-232: one row of td *)
Definition dist_row (n : nat) (pos tsel : list nat) (row : list D) : outcome (list (option D)) :=
  v <- pick row tsel ;; put (repeat None n) pos (map Some v).
(* 150-250.  cached is the content of the file with saved cross matches, if there is one: the sizes of
   sel and of the pool, and the result; force is the flag xmatch of the pool *)
Definition add_catalog_ (force : bool) (cached : option (nat * nat * xmres)) (p : pool)
    (cra cdec : list C) (no_new : bool) (sel : list nat) : outcome pool :=
  _ <- check (length cra =? length cdec) ;;
  let sel := match sel with [] => seq 0 (length cra) | _ => sel end in
  match cats p with
  | [] =>
      r <- pick cra sel ;; d <- pick cdec sel ;;
      let n := length sel in
      Ok (Pool (Some n) (repeat 1 n) r d [Cat sel (seq 0 n) [] [] (ref_of 1)])
  | _ =>
      match ngal p with
      | None => UB
      | Some ng =>
          sra <- pick cra sel ;; sdec <- pick cdec sel ;;
          x <- (match cached with
                | Some (ns, n, x) =>
                    if negb force && (ns =? length sel) && (n =? ng) then Ok x else qxmatch sra sdec (ra p) (dec p)
                | None => qxmatch sra sdec (ra p) (dec p)
                end) ;;
          ' (idm, nnew, tsel, r, d, o) <-
            ofold (match_one cra cdec no_new sel (length (cats p) + 1) x) (seq 0 (length sel))
              ([], 0, (if no_new then [] else seq 0 (length sel)), ra p, dec p, origin p) ;;
          sel' <- pick sel tsel ;;
          td <- omapl (dist_row (length cra) sel' tsel) (xd x) ;;
          Ok (Pool (Some (if no_new then ng else ng + nnew)) o r d
                (cats p ++ [Cat sel' idm [] td (ref_of (length (cats p) + 1))]))
      end
  end.
End Merge.
Arguments xmres D : clear implicits.
Arguments catalog D : clear implicits.
Arguments pool C D : clear implicits.

Section Columns.
Context {C D T : Type}.

(* 314-320: vectors; v is `in`, out the column of the catalogue *)
Definition merge_vec (p : pool C D) (c : catalog D) (v out : list T) (def : T) : outcome (list T) :=
  _ <- check (match v with [] => true | _ => false end) ;;
  match ngal p with
  | None => UB
  | Some n => w <- pick out (idi c) ;; put (repeat def n) (idm c) w
  end.
(* 307-312: the same value for all the sources of the catalogue *)
Definition merge_scalar (p : pool C D) (c : catalog D) (v : list T) (out def : T) : outcome (list T) :=
  _ <- check (match v with [] => true | _ => false end) ;;
  match ngal p with
  | None => UB
  | Some n => put (repeat def n) (idm c) (repeat out (length (idm c)))
  end.
(* 297-305: the sizes compared are those of all the elements *)
Definition merge_mat (p : pool C D) (c : catalog D) (v out : mat T) (def : T) : outcome (mat T) :=
  _ <- check (mempty v) ;;
  match ngal p with
  | None => UB
  | Some n =>
      let '(d0, d1, rows) := out in
      w <- pick rows (idi c) ;;
      r <- put (repeat (repeat def d1) n) (idm c) w ;; Ok (n, d1, r)
  end.

(* append<1> (generic-rearrange.hpp 157-180) on matrices *)
Definition append_cols (a b : mat T) : outcome (mat T) :=
  if mempty a then Ok b
  else if mempty b then Ok a
  else
    let '(a0, a1, ra) := a in let '(b0, b1, rb) := b in
    _ <- check (a0 =? b0) ;; Ok (a0, a1 + b1, map (fun '(x, y) => x ++ y) (combine ra rb)).

(* the photometry of the pool *)
Record phot := Phot { bands : list string; notes : list string; flux : mat T; ferr : mat T }.
(* 448-475; the catalogue gets the numbers of its bands *)
Definition merge_flux (nan : T) (p : pool C D) (c : catalog D) (f : phot) (cflux cerr : mat T) (cbands cnotes : list string)
  : outcome (catalog D * phot) :=
  let '(_, f1, _) := cflux in let '(_, e1, _) := cerr in
  _ <- check (f1 =? e1) ;; _ <- check (f1 =? length cbands) ;;
  let tn := match cnotes with [] => repeat EmptyString (length cbands) | _ => cnotes end in
  let tn := map (fun s => match s with EmptyString => s | _ => append s " " end) tn in
  let tn := map (fun s => append s (ref c)) tn in
  tf <- merge_mat p c (0, 0, []) cflux nan ;;
  te <- merge_mat p c (0, 0, []) cerr nan ;;
  let ib := map (fun i => i + length (bands f)) (seq 0 (length cbands)) in
  nf <- append_cols (flux f) tf ;; ne <- append_cols (ferr f) te ;;
  Ok (Cat (idi c) (idm c) ib (cdist c) (ref c), Phot (bands f ++ cbands) (notes f ++ tn) nf ne).
End Columns.
Arguments phot T : clear implicits.
