(* The HDUs of a FITS file, and headers copied into one of them.  Source: include/vif/io/fits/base.hpp
   (line numbers below).  The contents of an HDU are those of FimgModel (a table is opaque).  Assumed of
   cfitsio: fits_insert_img puts the new HDU right after the current one, which becomes the new one
   (in a file without HDUs, it is the first one); fits_movabs_hdu fails past the last HDU;
   fits_delete_hdu makes the next HDU, or else the previous one, the current one, and replaces a
   deleted primary HDU by an empty one; fits_write_record adds a card of 80 characters, completed by
   blanks, at the end of the header; fits_get_img_dim fails on a table; fits_hdr2str gives all the cards, then the card END. *)
From Coq Require Import Ascii String.
From Verif Require Import Base StrModel KeyModel.
From Verif Require FimgModel.
Local Open Scope list_scope.

Notation hdu := FimgModel.hdu (only parsing).
Inductive rights := ReadOnly | ReadWrite.
Record file := File { acc : rights; hdus : list hdu; cur : nat }.

(* 532-540 *)
Definition hdu_count (f : file) : nat := List.length (hdus f).
(* fits_insert_img *)
Definition insert (f : file) : file :=
  match hdus f with
  | [] => File (acc f) [FimgModel.Empty] 0
  | _ => File (acc f) (firstn (cur f + 1) (hdus f) ++ FimgModel.Empty :: skipn (cur f + 1) (hdus f)) (cur f + 1)
  end.
(* for (i = nhdu; i <= hdu; ++i) *)
Fixpoint insert_many (n : nat) (f : file) : file := match n with O => f | S n => insert_many n (insert f) end.
Definition move_to (f : file) (n : nat) : outcome file :=
  if n <? hdu_count f then Ok (File (acc f) (hdus f) n) else Throws.
(* 587-615 *)
Definition reach_hdu (f : file) (n : nat) : outcome file :=
  match acc f with
  | ReadOnly => _ <- check (n <? hdu_count f) ;; move_to f n
  | ReadWrite => move_to (if hdu_count f <=? n then insert_many (n + 1 - hdu_count f) f else f) n
  end.
(* 767-774 *)
Definition remove_hdu (f : file) : outcome file :=
  match hdus f with
  | [] => Throws
  | h :: l =>
      if cur f =? 0 then Ok (File (acc f) (FimgModel.Empty :: l) 0)
      else
        let l' := firstn (cur f) (hdus f) ++ skipn (cur f + 1) (hdus f) in
        Ok (File (acc f) l' (if cur f <? List.length l' then cur f else cur f - 1))
  end.
(* 617-646 *)
Definition current (f : file) : hdu := match nth_error (hdus f) (cur f) with Some h => h | None => FimgModel.NoHdu end.
Definition axis_count (f : file) : outcome nat :=
  match current f with
  | FimgModel.NoHdu | FimgModel.Table => Throws
  | FimgModel.Empty => Ok 0
  | FimgModel.Holds im => Ok (List.length (FimgModel.naxes im))
  end.
Definition image_dims (f : file) : outcome (list Z) :=
  n <- axis_count f ;;
  match current f with
  | FimgModel.Holds im => omapl (fun i => oget (FimgModel.naxes im) (n - 1 - i)) (seq 0 n)
  | _ => Ok []
  end.
(* image.hpp: output_image::write and image::update on the current HDU *)
Definition put (f : file) (h : hdu) : file :=
  match hdus f with [] => File (acc f) [h] 0 | _ => File (acc f) (upd (hdus f) (cur f) h) (cur f) end.
Definition write_image (f : file) (t : FimgModel.etype) (v : FimgModel.arr) : outcome file :=
  h <- FimgModel.write (current f) t v ;; Ok (put f h).
Definition update_image (f : file) (t : FimgModel.etype) (v : FimgModel.arr) : outcome file :=
  h <- FimgModel.update (current f) t v ;; Ok (put f h).

(* --- headers ---------------------------------------------------------------------- *)
Definition lit (s : string) : list ascii := list_ascii_of_string s.
(* 698-703 *)
Definition internal (nam : list ascii) : outcome bool :=
  if same_str nam (lit "SIMPLE") then Ok true
  else if same_str nam (lit "BITPIX") then Ok true
  else
    b <- begins_with nam (lit "NAXIS") ;;
    Ok (b || same_str nam (lit "EXTEND") || same_str nam (lit "XTENSION") || same_str nam (lit "EXTNAME") ||
        same_str nam (lit "PCOUNT") || same_str nam (lit "GCOUNT")).
Definition record (e : list ascii) : list ascii := firstn 80 (e ++ repeat " "%char 80).
(* 685-709: the cards of the HDU, END not included *)
Fixpoint write_entries (hdr : list ascii) (l : list nat) (out : list (list ascii)) : outcome (list (list ascii)) :=
  match l with
  | [] => Ok out
  | i :: l =>
      e <- card_at hdr i ;;
      b <- begins_with e (lit "END ") ;;
      if b : bool then write_entries hdr l out
      else
        skip <- match eq_pos e with
                | None => Ok false
                | Some p => nam <- name_of e p ;; internal nam
                end ;;
        write_entries hdr l (if skip : bool then out else out ++ [record e])
  end.
Definition write_header (out : list (list ascii)) (hdr : list ascii) : outcome (list (list ascii)) :=
  write_entries hdr (seq 0 (List.length hdr / 80 + 1)) out.
(* 487-500 *)
Definition read_header (out : list (list ascii)) : list ascii := concat out ++ record (lit "END").
