(* Directories.  Source: include/vif/io/filesystem.hpp 73-194 (explorer, list_directories, list_files) and
   284-298 (mkdir).  The calls of the operating system are modelled: a directory stream is a list of entries
   that is consumed, and using it after closedir() is undefined behaviour; a file system maps paths to files or
   directories.  Symbolic links and null characters in names are not modelled. *)
From Coq Require Import Ascii.
From Verif Require Import Base StrModel.
Local Open Scope nat_scope.
Notation text := (list ascii) (only parsing).

(* --- explorer ------------------------------------------------------------------ *)
(* a name, and the result of stat(): whether it is a directory, and its size; None when stat() fails *)
Record entry := Entry { ename : text; estat : option (bool * N) }.
Record file_data := File { full_path : text; name : text; size : N; is_hidden : bool; is_dir : bool }.
(* the streams opened so far: what remains to be read, None when closed *)
Definition streams := list (option (list entry)).
Record explorer := Explorer { directory : text; pattern : text; dirfd : option nat }.

Section Explorer.
Variable contents : text -> option (list entry).   (* opendir(): None when it fails *)
Variable fnmatch : text -> text -> bool.           (* pattern, name *)

Definition closedir (os : streams) (h : nat) : outcome streams :=
  match nth_error os h with Some (Some _) => Ok (upd os h None) | _ => UB end.
Definition readdir (os : streams) (h : nat) : outcome (option entry * streams) :=
  match nth_error os h with
  | Some (Some (e :: es)) => Ok (Some e, upd os h (Some es))
  | Some (Some []) => Ok (None, os)
  | _ => UB
  end.
Definition new_explorer : explorer := Explorer [] [] None.
(* 104-111: dirfd is not reset *)
Definition close (os : streams) (e : explorer) : outcome (streams * explorer) :=
  os <- match dirfd e with Some h => closedir os h | None => Ok os end ;; Ok (os, Explorer [] [] (dirfd e)).
(* 113-126 *)
Definition open (os : streams) (e : explorer) (dir p : text) : outcome (streams * explorer * bool) :=
  '(os, e) <- close os e ;;
  match contents dir with
  | None => Ok (os, Explorer (directory e) (pattern e) None, false)
  | Some es =>
      Ok (os ++ [Some es],
          Explorer dir (if list_eq_dec ascii_dec p ["*"%char] then [] else p) (Some (length os)), true)
  end.
(* 136-140: while ((entry = readdir(dirfd))) until the name matches; fuel: the entries that remain *)
Fixpoint next_match (fuel : nat) (os : streams) (h : nat) (p : text) : outcome (option entry * streams) :=
  '(en, os) <- readdir os h ;;
  match en with
  | None => Ok (None, os)
  | Some e =>
      if fnmatch p (ename e) then Ok (Some e, os)
      else match fuel with O => Diverge | S f => next_match f os h p end
  end.
(* 128-158 *)
Definition find_next (os : streams) (e : explorer) : outcome (streams * option file_data) :=
  match dirfd e with
  | None => Ok (os, None)
  | Some h =>
      '(en, os) <- match pattern e with
                   | [] => readdir os h
                   | p => next_match (match nth_error os h with Some (Some es) => length es | _ => 0 end) os h p
                   end ;;
      Ok (os, match en with
              | None => None
              | Some en =>
                  let '(d, n) := match estat en with Some (d, n) => (d, n) | None => (false, 0%N) end in
                  Some (File (directory e ++ "/"%char :: ename en) (ename en) n
                          (match ename en with c :: _ :: _ => Ascii.eqb c "."%char | _ => false end) d)
              end)
  end.
(* 100-102: the destructor *)
Definition destroy (os : streams) (e : explorer) : outcome streams := '(os, _) <- close os e ;; Ok os.

(* 167-172 / 185-190: while (e.find_next(f)) *)
Fixpoint list_loop (fuel : nat) (keep : file_data -> bool) (os : streams) (e : explorer) (l : list text) : outcome (streams * list text) :=
  '(os, f) <- find_next os e ;;
  match f with
  | None => Ok (os, l)
  | Some f =>
      match fuel with
      | O => Diverge
      | S k => list_loop k keep os e (if keep f then l ++ [name f] else l)
      end
  end.
Definition list_with (keep : file_data -> bool) (os : streams) (dir p : text) : outcome (streams * list text) :=
  '(os, e, ok) <- open os new_explorer dir p ;;
  '(os, l) <- (if ok : bool then list_loop (match contents dir with Some es => length es | None => 0 end) keep os e [] else Ok (os, [])) ;;
  os <- destroy os e ;; Ok (os, l).
Definition is_name (s : text) (f : file_data) : bool := if list_eq_dec ascii_dec (name f) s then true else false.
(* 161-176 *)
Definition list_directories : streams -> text -> text -> outcome (streams * list text) :=
  list_with (fun f => negb (is_hidden f) && is_dir f && negb (is_name ["."%char] f) && negb (is_name ["."; "."]%char f)).
(* 179-194 *)
Definition list_files : streams -> text -> text -> outcome (streams * list text) :=
  list_with (fun f => negb (is_hidden f) && negb (is_dir f)).

(* a use of one explorer: any calls, and then its destructor *)
Inductive call := COpen (dir p : text) | CClose | CNext.
Definition do_call (os : streams) (e : explorer) (c : call) : outcome (streams * explorer) :=
  match c with
  | COpen dir p => '(os, e, _) <- open os e dir p ;; Ok (os, e)
  | CClose => close os e
  | CNext => '(os, _) <- find_next os e ;; Ok (os, e)
  end.
Definition session (os : streams) (calls : list call) : outcome streams :=
  '(os, e) <- ofold (fun '(os, e) c => do_call os e c) calls (os, new_explorer) ;; destroy os e.
End Explorer.

(* --- mkdir ------------------------------------------------------------------------ *)
(* the file system: Some true for a directory, Some false for another file; paths from the root *)
Definition tree := list text -> option bool.
Definition text_eqb (a b : text) : bool := if list_eq_dec ascii_dec a b then true else false.
Definition add_dir (t : tree) (p : list text) : tree :=
  fun q => if list_eq_dec (list_eq_dec ascii_dec) q p then Some true else t q.
(* the parts of a path between the slashes *)
Fixpoint parts (s : text) : list text :=
  match s with
  | [] => [[]]
  | c :: t => if Ascii.eqb c "/"%char then [] :: parts t
              else match parts t with x :: w => (c :: x) :: w | [] => [[c]] end
  end.
Definition names (s : text) : list text := filter (fun p => match p with [] => false | _ => true end) (parts s).
(* from the directory [at_] *)
Fixpoint walk (t : tree) (at_ : list text) (cs : list text) : option (list text) :=
  match cs with
  | [] => Some at_
  | c :: cs =>
      if text_eqb c ["."%char] then walk t at_ cs
      else if text_eqb c ["."; "."]%char then walk t (removelast at_) cs
      else match t (at_ ++ [c]) with Some true => walk t (at_ ++ [c]) cs | _ => None end
  end.
Definition from_root (s : text) : bool := match s with c :: _ => Ascii.eqb c "/"%char | [] => false end.
(* ::mkdir(): 0 and the new tree, or EEXIST, or another error; [allowed]: permissions, space, ... *)
Inductive result := Created (t : tree) | Exists | Failed.
Definition sys_mkdir (allowed : list text -> bool) (cwd : list text) (t : tree) (s : text) : result :=
  match rev (names s) with
  | [] => if from_root s then Exists else Failed
  | c :: init =>
      match walk t (if from_root s then [] else cwd) (rev init) with
      | None => Failed
      | Some p =>
          if text_eqb c ["."%char] || text_eqb c ["."; "."]%char then Exists
          else match t (p ++ [c]) with
               | Some _ => Exists
               | None => if allowed (p ++ [c]) then Created (add_dir t (p ++ [c])) else Failed
               end
      end
  end.
(* 284-298 *)
Fixpoint mkdir_loop (allowed : list text -> bool) (cwd : list text) (path : text) (dirs : list text) (tmp : text) (t : tree)
  : outcome (bool * tree) :=
  match dirs with
  | [] => Ok (true, t)
  | [] :: dirs => mkdir_loop allowed cwd path dirs tmp t
  | d :: dirs =>
      b <- begins_with path ["/"%char] ;;
      let tmp := (if negb (length tmp =? 0) || b then tmp ++ ["/"%char] else tmp) ++ d in
      match sys_mkdir allowed cwd t tmp with
      | Created t => mkdir_loop allowed cwd path dirs tmp t
      | Exists => mkdir_loop allowed cwd path dirs tmp t
      | Failed => Ok (false, t)
      end
  end.
Definition mkdir (allowed : list text -> bool) (cwd : list text) (t : tree) (path : text) : outcome (bool * tree) :=
  match path with
  | [] => Ok (true, t)
  | _ => dirs <- split path ["/"%char] ;; mkdir_loop allowed cwd path dirs [] t
  end.
