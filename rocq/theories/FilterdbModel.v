(* Filter databases: include/vif/astro/astro.hpp 1502-1633 (read_filter_db, get_filter, get_filters) and
   1656-1736 (read_filter_map, get_filter_id).  A file is its text; reading the table of a filter (FITS or
   text) is a parameter, and so is the conversion of a text to a number.  Numbers are exact; a response
   that is not finite is None.  The messages are left out, except the names they suggest. *)
From Coq Require Import Ascii QArith.
From Verif Require Import Base StrModel PathModel IntegModel.
From Verif Require AsciiModel.
Local Open Scope nat_scope.
Local Open Scope list_scope.
Notation length := List.length.
Notation str := (list ascii) (only parsing).

(* std::map with texts as keys: in increasing order *)
Fixpoint str_cmp (a b : str) : comparison :=
  match a, b with
  | [], [] => Eq
  | [], _ :: _ => Lt
  | _ :: _, [] => Gt
  | x :: a, y :: b => match N.compare (N_of_ascii x) (N_of_ascii y) with Eq => str_cmp a b | c => c end
  end.
Fixpoint insert {V} (k : str) (v : V) (m : list (str * V)) : list (str * V) :=
  match m with
  | [] => [(k, v)]
  | (k1, v1) :: t => match str_cmp k k1 with Lt => (k, v) :: m | Eq => m | Gt => (k1, v1) :: insert k v t end
  end.
Fixpoint find {V} (k : str) (m : list (str * V)) : option V :=
  match m with
  | [] => None
  | (k1, v1) :: t => match str_cmp k k1 with Eq => Some v1 | _ => find k t end
  end.

Definition white : str := [" "; "009"; "010"; "013"]%char.
Definition eqsign : ascii := "="%char.
Definition colon : ascii := ":"%char.
(* 1517-1525, 1669-1675: the two sides of a line *)
Definition sides (line : str) : outcome (option (str * str)) :=
  t <- trim line white ;;
  match t with
  | "#"%char :: _ => Ok None
  | _ => w <- split t [eqsign] ;; match w with [k; v] => Ok (Some (k, v)) | _ => Ok None end
  end.
(* 1505-1531 *)
Definition read_filter_db (filename content : str) : outcome (list (str * str)) :=
  dir <- get_directory filename ;;
  ofold (fun db line => s <- sides line ;; Ok (match s with Some (k, v) => insert k (dir ++ v) db | None => db end)) (AsciiModel.pieces content) [].
(* 1658-1685 *)
Definition read_filter_map (to_id : str -> option Z) (content : str) : outcome (list (str * Z)) :=
  ofold (fun db line => s <- sides line ;;
    Ok (match s with Some (k, v) => match to_id v with Some id => insert k id db | None => db end | None => db end)) (AsciiModel.pieces content) [].

(* 1554-1566, 1694-1706: the names at the smallest distance; best_d is None at the start *)
Definition suggest {V} (m : list (str * V)) (name : str) : outcome (list str) :=
  omap snd (ofold (fun '(best, l) kv =>
      d <- distance name (fst kv) ;;
      Ok (match best with
          | None => (Some d, [fst kv])
          | Some b => if d <? b then (Some d, [fst kv]) else if d =? b then (Some b, l ++ [fst kv]) else (best, l)
          end)) m (None, [])).

(* 1687-1718: whether it is known, the value of id, the names suggested *)
Definition get_filter_id (m : list (str * Z)) (name : str) : outcome (bool * Z * list str) :=
  match find name m with
  | Some id => Ok (true, id, [])
  | None => l <- suggest m name ;; Ok (false, two64 - 1, l)%Z
  end.
(* 1720-1731 *)
Definition get_filter_ids (m : list (str * Z)) (names : list str) : outcome (bool * list Z) :=
  ofold (fun '(good, ids) n => r <- get_filter_id m n ;; let '(g, id, _) := r in Ok ((if g then good else false), ids ++ [id])) names (true, []).

Record filter_t := mk_filter { f_lam : list Q; f_res : list (option Q); f_rlam : Q }.
Section Filters.
Variable read : str -> outcome (option (list Q * list Q)).
Variable number : str -> option Q.
Definition product (a b : list Q) : outcome (list Q) :=
  _ <- check (length a =? length b) ;; Ok (map (fun p => fst p * snd p)%Q (combine a b)).
(* 1576-1581, 1612-1618 *)
Definition from_file (file : str) : outcome (option filter_t) :=
  t <- read file ;;
  match t with
  | None => Ok None
  | Some (lam, res) => p <- product res lam ;; r <- integrate lam p ;; Ok (Some (mk_filter lam (map Some res) r))
  end.
(* 1599-1603 *)
Definition range_filter (lmin lmax : Q) : outcome filter_t :=
  let lam := [lmin * (1 # 2); lmin * (99 # 100); lmin; lmax; lmax * (101 # 100); lmax * 2]%Q in
  let res := [0; 0; 1; 1; 0; 0]%Q in
  a <- integrate lam res ;;
  Ok (mk_filter lam (map (fun r => if Qeq_bool a 0 then None else Some (r / a)%Q) res) ((1 # 2) * (lmin + lmax))%Q).
(* 1533-1625 *)
Definition get_filter (db : list (str * str)) (name : str) : outcome (option filter_t) :=
  spl <- split name [colon] ;;
  match spl with
  | [] => UB
  | [_] => match find name db with None => Ok None | Some file => from_file file end
  | _ :: kind :: rest =>
      if list_eq_dec ascii_dec kind ["r"; "a"; "n"; "g"; "e"]%char then
        match rest with
        | [a; b] =>
            match number a, number b with
            | Some lmin, Some lmax => omap Some (range_filter lmin lmax)
            | _, _ => Ok None
            end
        | _ => Ok None
        end
      else if list_eq_dec ascii_dec kind ["f"; "i"; "l"; "e"]%char then
        match rest with [file] => from_file file | _ => Ok None end
      else Ok None
  end.
(* 1627-1639: the filters found are added to fils until one is not *)
Fixpoint get_filters (db : list (str * str)) (names : list str) (fils : list filter_t) : outcome (bool * list filter_t) :=
  match names with
  | [] => Ok (true, fils)
  | n :: t => f <- get_filter db n ;; match f with Some f => get_filters db t (fils ++ [f]) | None => Ok (false, fils) end
  end.
End Filters.
