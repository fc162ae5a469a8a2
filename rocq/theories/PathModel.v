(* Paths.  Source: include/vif/io/filesystem.hpp 37-40, 197-281. *)
From Coq Require Import Ascii.
From Verif Require Import Base StrModel.

Definition slash : ascii := "/"%char.
Definition dot : ascii := "."%char.
Notation last_slash := (find_last (Ascii.eqb slash)) (only parsing).

(* 37-40 *)
Definition is_absolute_path (path : list ascii) : outcome bool :=
  match find_first (hasnt [" "; "009"]%char) path (Some 0) with
  | None => Ok false
  | Some pos => c <- oget path pos ;; Ok (Ascii.eqb c slash)
  end.
(* 197-204 *)
Definition directorize (path : list ascii) : outcome (list ascii) :=
  dir <- trim path blanks ;;
  match dir with
  | [] => Ok dir
  | _ => c <- oget dir (length dir - 1) ;; Ok (if Ascii.eqb c slash then dir else dir ++ [slash])
  end.
(* 207-228 *)
Definition get_basename (path : list ascii) : outcome (list ascii) :=
  match last_slash path None with
  | None => Ok path
  | Some pos =>
      let lpos := find_last (hasnt [space]) path None in
      if match lpos with Some l => pos =? l | None => false end then
        if pos =? 0 then Ok [slash]
        else
          match last_slash path (Some (pos - 1)) with
          | None => substr_end path pos
          | Some pos' => substr path (pos' + 1) (pos - pos' - 1)
          end
      else substr_end path (pos + 1)
  end.
(* 230-246 *)
Definition remove_extension (s : list ascii) : outcome (list ascii) :=
  match find_last (Ascii.eqb dot) s None with None => Ok s | Some p => substr s 0 p end.
Definition get_extension (s : list ascii) : outcome (list ascii) :=
  match find_last (Ascii.eqb dot) s None with None => Ok [] | Some p => substr_end s p end.
Definition split_extension (s : list ascii) : outcome (list ascii * list ascii) :=
  match find_last (Ascii.eqb dot) s None with
  | None => Ok (s, [])
  | Some p => a <- substr s 0 p ;; b <- substr_end s p ;; Ok (a, b)
  end.
(* 249-267 *)
Definition get_directory (path : list ascii) : outcome (list ascii) :=
  match last_slash path None with
  | None => Ok [dot; slash]
  | Some pos =>
      if match find_last (hasnt [space]) path None with Some l => pos =? l | None => false end then
        if pos =? 0 then Ok [slash]
        else
          match last_slash path (Some (pos - 1)) with
          | None => Ok [dot; slash]
          | Some pos' => substr path 0 (pos' + 1)
          end
      else substr path 0 (pos + 1)
  end.
(* 269-281.  The result is the list of directories given to ::mkdir, in order, and the value
   returned; ok tells whether ::mkdir succeeds or reports an existing directory *)
Fixpoint mkdir_loop (ok : list ascii -> bool) (absolute : bool) (dirs : list (list ascii)) (tmp : list ascii)
    (calls : list (list ascii)) : list (list ascii) * bool :=
  match dirs with
  | [] => (calls, true)
  | [] :: ds => mkdir_loop ok absolute ds tmp calls
  | d :: ds =>
      let tmp := (if negb (length tmp =? 0) || absolute then tmp ++ [slash] else tmp) ++ d in
      if ok tmp then mkdir_loop ok absolute ds tmp (calls ++ [tmp]) else (calls ++ [tmp], false)
  end.
Definition mkdir (ok : list ascii -> bool) (path : list ascii) : outcome (list (list ascii) * bool) :=
  match path with
  | [] => Ok ([], true)
  | _ =>
      dirs <- split path [slash] ;;
      absolute <- begins_with path [slash] ;;
      Ok (mkdir_loop ok absolute dirs [] [])
  end.
