(* DS9 region files.  Source: include/vif/astro/ds9.hpp 9-245, 303-403.
   A file is the list of its lines.  The conversions of numbers from and to text are parameters, as
   are the coordinate transformations; arithmetic is exact.  Warnings are not modelled. *)
From Coq Require Import Ascii String QArith.
From Verif Require Import Base StrModel.
Local Open Scope nat_scope.
Local Open Scope list_scope.

Definition chars (s : string) : str := list_ascii_of_string s.
Definition quote : str := ["034"%char].
(* 9-16 *)
Record region := Region { rtype : str; rcolor : str; rtext : str; rphys : bool; rpar : list Q }.
Definition white : str := [" "; "009"; "010"; "013"]%char.     (* the default of trim *)
Definition sep2 : str := [" "; "009"]%char.
Definition str_eqb (a b : str) : bool := if list_eq_dec ascii_dec a b then true else false.

(* line.substr(pos, line.find_first_of(" \t", pos)-pos); npos-pos reaches the end *)
Definition upto (s : str) (pos : nat) : outcome str :=
  match find_first (has sep2) s (Some pos) with
  | Some e => substr s pos (e - pos)
  | None => substr_end s pos
  end.
(* 33-37, 162-166, 168-173: the value after the key, if there is one at pos or later *)
Definition key_value (key line : str) (pos : nat) : outcome (option str) :=
  match sfind key line pos with
  | None => Ok None
  | Some p => v <- upto line (p + List.length key) ;; v <- trim v white ;; Ok (Some v)
  end.

Section Reading.
Variable parse : str -> option Q.                         (* from_string to a double *)
Variable sex : str -> str -> outcome (option (Q * Q)).    (* sex2deg *)

(* 92-115 *)
Definition read_dim (physical : bool) (from : str) : outcome (option Q) :=
  if physical then Ok (parse from)
  else
    b <- ends_with from quote ;;
    if b then from <- erase_end from quote ;; Ok (parse from) else Ok None.
(* 66-87; None: the line is skipped *)
Definition read_centre (physical : bool) (a0 a1 : str) : outcome (option (Q * Q)) :=
  c <- (match find_first (has [":"%char]) a0 (Some 0) with
        | Some _ => if physical then Ok None else sex a0 a1
        | None => Ok (match parse a0, parse a1 with Some x, Some y => Some (x, y) | _, _ => None end)
        end) ;;
  Ok (match c with
      | Some (x, y) => Some (if physical then ((x - 1)%Q, (y - 1)%Q) else (x, y))
      | None => None
      end).
(* 117-154 *)
Definition read_params (physical : bool) (type : str) (args : list str) (x0 y0 : Q) : outcome (option (list Q)) :=
  if str_eqb type (chars "circle") then
    match args with
    | [_; _; a2] => rad <- read_dim physical a2 ;; Ok (match rad with Some r => Some [x0; y0; r] | None => None end)
    | _ => Ok None
    end
  else if str_eqb type (chars "box") then
    match args with
    | [_; _; a2; a3; a4] =>
        w <- read_dim physical a2 ;;
        match w with
        | None => Ok None
        | Some w =>
            h <- read_dim physical a3 ;;
            Ok (match h, parse a4 with Some h, Some a => Some [x0; y0; w; h; a] | _, _ => None end)
        end
    | _ => Ok None
    end
  else Ok None.

Definition rstate := (str * bool * list region)%type.   (* global_color, physical, regs *)
(* 42-172: a line with a parenthesis at spos *)
Definition read_region (s : rstate) (line : str) (spos : nat) : outcome rstate :=
  let '(gcolor, physical, regs) := s in
  type <- substr line 0 spos ;; type <- trim type white ;;
  let epos := find_first (has [")"%char]) line (Some (spos + 1)) in
  targs <- (match epos with Some e => substr line (spos + 1) (e - (spos + 1)) | None => substr_end line (spos + 1) end) ;;
  args <- split targs [","%char] ;; args <- omapl (fun a => trim a white) args ;;
  match args with
  | a0 :: a1 :: _ =>
      c <- read_centre physical a0 a1 ;;
      match c with
      | None => Ok s
      | Some (x0, y0) =>
          p <- read_params physical type args x0 y0 ;;
          match p with
          | None => Ok s
          | Some p =>
              ' (color, text) <-
                match find_first (has ["#"%char]) line epos with
                | None => Ok (gcolor, [])
                | Some h =>
                    c <- key_value (chars "color=") line (h + 1) ;;
                    t <- key_value (chars "text=") line (h + 1) ;;
                    Ok (match c with Some c => c | None => gcolor end, match t with Some t => t | None => [] end)
                end ;;
              Ok (gcolor, physical, regs ++ [Region type color text physical p])
          end
      end
  | _ => Ok s
  end.
(* 26-47: one line *)
Definition read_line (s : rstate) (line : str) : outcome rstate :=
  let '(gcolor, physical, regs) := s in
  t <- trim line white ;;
  match t with
  | [] => Ok s
  | c :: _ =>
      if Ascii.eqb c "#"%char then Ok s
      else
        g <- begins_with line (chars "global") ;;
        if g then
          v <- key_value (chars "color=") line 0 ;;
          Ok (match v with Some v => v | None => gcolor end, physical, regs)
        else
          match find_first (has ["("%char]) line (Some 0) with
          | None => Ok (gcolor, if str_eqb t (chars "physical") then true else physical, regs)
          | Some spos => read_region s line spos
          end
  end.
(* 18-174; file is None when the file does not exist *)
Definition read_regions (file : option (list str)) (regs : list region) : outcome (list region) :=
  match file with
  | None => CheckFail
  | Some lines => s <- ofold read_line lines (chars "green", false, regs) ;; Ok (snd s)
  end.
(* 239-244 *)
Definition read_regions_physical (file : option (list str)) (regs : list region) : outcome (list region) :=
  regs <- read_regions file regs ;;
  _ <- check (forallb rphys regs) ;; Ok regs.
End Reading.

Section Writing.
Variable show : Q -> str.              (* operator<< with 12 digits *)
Variable xy2ad ad2xy : Q * Q -> Q * Q. (* of the WCS, with FITS coordinates *)
Variable aspix : Q.                    (* pixel size; 1 when it is unknown *)
Variable spatial : bool.               (* w.type[0] == axis_type::spatial *)

(* params[i], with the bounds check *)
Definition param (r : region) (i : nat) : outcome Q := _ <- check (i <? List.length (rpar r)) ;; oget (rpar r) i.
Definition set_param (p : list Q) (i : nat) (v : Q) : outcome (list Q) := _ <- check (i <? List.length p) ;; oset p i v.
Definition scale_param (f : Q -> Q) (p : list Q) (i : nat) : outcome (list Q) :=
  _ <- check (i <? List.length p) ;; v <- oget p i ;; oset p i (f v).
(* the sizes of a region *)
Definition scale_sizes (type : str) (f : Q -> Q) (p : list Q) : outcome (list Q) :=
  if str_eqb type (chars "circle") then scale_param f p 2
  else if str_eqb type (chars "box") then p <- scale_param f p 2 ;; scale_param f p 3
  else CheckFail.
(* 176-199 *)
Definition physical_to_wcs (r : region) : outcome region :=
  if negb (rphys r) then Ok r
  else
    x <- param r 0 ;; y <- param r 1 ;;
    let '(ra, dec) := xy2ad ((x + 1)%Q, (y + 1)%Q) in
    p <- set_param (rpar r) 0 ra ;; p <- set_param p 1 dec ;;
    p <- scale_sizes (rtype r) (fun v => v * aspix)%Q p ;;
    Ok (Region (rtype r) (rcolor r) (rtext r) false p).
(* 201-224 *)
Definition wcs_to_physical (r : region) : outcome region :=
  if rphys r then Ok r
  else
    ra <- param r 0 ;; dec <- param r 1 ;;
    let '(x, y) := ad2xy (ra, dec) in
    p <- set_param (rpar r) 0 (x - 1)%Q ;; p <- set_param p 1 (y - 1)%Q ;;
    p <- scale_sizes (rtype r) (fun v => v / aspix)%Q p ;;
    Ok (Region (rtype r) (rcolor r) (rtext r) true p).

(* 308-321 *)
Definition comma : str := [","; " "]%char.
Definition write_region (ss : str) (r : region) : outcome str :=
  if str_eqb (rtype r) (chars "circle") then
    a <- param r 0 ;; b <- param r 1 ;; c <- param r 2 ;;
    Ok (rtype r ++ ["("%char] ++ show a ++ comma ++ show b ++ comma ++ show c ++ ss ++ [")"%char])
  else if str_eqb (rtype r) (chars "box") then
    a <- param r 0 ;; b <- param r 1 ;; c <- param r 2 ;; d <- param r 3 ;; e <- param r 4 ;;
    Ok (rtype r ++ ["("%char] ++ show a ++ comma ++ show b ++ comma ++ show c ++ ss ++ comma ++ show d ++ ss ++ comma ++ show e ++ [")"%char])
  else CheckFail.
Definition header : list str :=
  [chars "# Region file format: DS9 version 4.1";
   chars "global color=green dashlist=8 3 width=1 font=" ++ quote ++ chars "helvetica 10 normal roman" ++ quote ++
   chars " select=1 highlite=1 dash=0 fixed=0 edit=1 move=1 delete=1 include=1 source=1"].
(* 329-363 *)
Definition write_regions_wcs (regs : list region) : outcome (list str) :=
  let ss := if spatial then quote else [] in
  l <- omapl (fun r => n <- physical_to_wcs r ;; write_region ss n) regs ;;
  Ok (header ++ [if spatial then chars "fk5" else chars "wcs;"] ++ l).
(* 365-388 *)
Definition write_regions_physical_wcs (regs : list region) : outcome (list str) :=
  l <- omapl (fun r => n <- wcs_to_physical r ;; write_region [] n) regs ;;
  Ok (header ++ [chars "physical"] ++ l).
(* 390-405 *)
Definition write_regions_physical (regs : list region) : outcome (list str) :=
  l <- omapl (fun r => _ <- check (rphys r) ;; write_region [] r) regs ;;
  Ok (header ++ [chars "physical"] ++ l).
End Writing.
