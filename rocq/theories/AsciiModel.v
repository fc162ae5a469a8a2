(* ASCII tables.  Source: include/vif/io/ascii.hpp 19-704.
   A file is the list of its characters.  Conversions between strings and other types are a parser
   given with each argument (from_string, ascii.hpp 224) and done before writing (to_string).
   ascii::exception inside the try blocks of read_table and write_table ends in a failed check.
   Not modelled: files that cannot be opened, format tags, the ftable macro. *)
From Coq Require Import Ascii NArith.
From Verif Require Import Base VecModel StrModel.
Local Open Scope nat_scope.

Definition nl : ascii := "010"%char.
Definition cr : ascii := "013"%char.
Definition tab : ascii := "009"%char.
Definition blank2 : str := [" "%char; tab]. (* " \t" *)

(* ------------------------------------------------------------------ line_splitter_t, 78-147 *)
Record splitter := mk_spl { sp_line : str; sp_pos : option nat; sp_delim : str; sp_single : bool }.
Definition at_pos (s : splitter) (p : option nat) : splitter :=
  mk_spl (sp_line s) p (sp_delim s) (sp_single s).

(* 113-142; in the first branch the final pos = p1 overrides what was assigned before *)
Definition next_word (s : splitter) : outcome (option str * splitter) :=
  if sp_single s then
    match sp_pos s with
    | None => Ok (None, s)
    | Some pos =>
        let pos := if pos =? 0 then pos else pos + length (sp_delim s) in
        match sfind (sp_delim s) (sp_line s) pos with
        | None => sub <- substr_end (sp_line s) pos ;; Ok (Some sub, at_pos s None)
        | Some p1 => sub <- substr (sp_line s) pos (p1 - pos) ;; Ok (Some sub, at_pos s (Some p1))
        end
    end
  else
    match find_first (hasnt (sp_delim s)) (sp_line s) (sp_pos s) with
    | None => Ok (None, s)
    | Some p0 =>
        let pos := find_first (has (sp_delim s)) (sp_line s) (Some p0) in
        sub <- match pos with
               | None => substr_end (sp_line s) p0
               | Some p => substr (sp_line s) p0 (p - p0)
               end ;;
        Ok (Some sub, at_pos s pos)
    end.

(* 85-111 *)
Definition skip_word (s : splitter) : bool * splitter :=
  if sp_single s then
    match sp_pos s with
    | None => (false, s)
    | Some pos =>
        let pos := if pos =? 0 then pos else pos + length (sp_delim s) in
        (true, at_pos s (sfind (sp_delim s) (sp_line s) pos))
    end
  else
    match find_first (hasnt (sp_delim s)) (sp_line s) (sp_pos s) with
    | None => (false, s)
    | Some p0 => (true, at_pos s (find_first (has (sp_delim s)) (sp_line s) (Some p0)))
    end.

(* ------------------------------------------------------------------ read_table *)
(* 20-26 *)
Record input_format := mk_in {
  auto_skip : bool; skip_pattern : str; skip_first : N; in_delim : str; delim_single : bool }.
Definition standard_in : input_format := mk_in true ["#"%char] 0 blank2 false.
Definition csv_in : input_format := mk_in true ["#"%char] 0 [","%char] true.

(* std::getline until eof: the strings seen by the loop body; a file that ends with a newline gives one
   last failed read, which leaves an empty string *)
Fixpoint pieces (s : str) : list str :=
  match s with
  | [] => [[]]
  | c :: t =>
      if Ascii.eqb c nl then [] :: pieces t
      else match pieces t with [] => [[c]] | h :: r => (c :: h) :: r end
  end.
(* 306-317: trailing carriage returns are removed *)
Fixpoint drop_crs (rev_line : str) : str :=
  match rev_line with
  | c :: t => if Ascii.eqb c cr || Ascii.eqb c nl then drop_crs t else rev_line
  | [] => []
  end.
Definition getline (s : str) : str := rev (drop_crs (rev s)).

(* 335-338, 357-360: is the line used? *)
Definition data_line (o : input_format) (l : str) : bool :=
  match find_first (hasnt blank2) l (Some 0) with
  | None => false
  | Some p =>
      negb (auto_skip o && match sfind (skip_pattern o) l 0 with Some q => q =? p | None => false end)
  end.

Section Read.
Variable V : Type.
Variable dflt : V.
Definition parser := str -> option V.

(* The destinations of read_table: a vector, a scalar, a placeholder, or columns(m, ...) *)
Inductive arg :=
| AVec (p : parser)
| AScalar (p : parser)
| ASkip
| AGroup (m : nat) (cols : list (option parser)).

(* The storage of an argument: one list per vector (row-major for columns()) *)
Local Notation storage := (list (list (list V))).

Definition resize_data (n : N) : outcome (list V) :=
  if (n <=? max_elems)%N then Ok (repeat dflt (N.to_nat n)) else Throws.
(* 159-215; a scalar keeps one element; resize(n, m) computes its size modulo 2^64.  The elements are
   written as dflt: their earlier content is overwritten row by row. *)
Definition resize_arg (n : N) (a : arg) : outcome (list (list V)) :=
  match a with
  | AVec _ => l <- resize_data n ;; Ok [l]
  | AScalar _ => _ <- check (n <=? 1)%N ;; Ok [[dflt]]
  | ASkip => Ok []
  | AGroup m cols =>
      omapl (fun c => match c with Some _ => resize_data ((n * N.of_nat m) mod two64N) | None => Ok [] end) cols
  end.

(* 238-300: the calls of read_value_ and skip_word made for row i, in order; each read goes to the
   element [index] of the vector [col] of an argument *)
Inductive call := CSkip | CRead (p : parser) (arg col index : nat).
Fixpoint group_calls (a i m k : nat) (cols : list (option parser)) (c : nat) : list call :=
  match cols with
  | [] => []
  | None :: t => CSkip :: group_calls a i m k t (S c)
  | Some p :: t => CRead p a c (i * m + k) :: group_calls a i m k t (S c)
  end.
Definition arg_calls (i a : nat) (g : arg) : list call :=
  match g with
  | AVec p => [CRead p a 0 i]
  | AScalar p => [CRead p a 0 0]
  | ASkip => [CSkip]
  | AGroup m cols => flat_map (fun k => group_calls a i m k cols 0) (seq 0 m)
  end.
Fixpoint row_calls (i a : nat) (args : list arg) : list call :=
  match args with [] => [] | g :: t => arg_calls i a g ++ row_calls i (S a) t end.

(* 216-236: one call *)
Definition do_call (st : splitter * storage) (c : call) : outcome (splitter * storage) :=
  let '(spl, sto) := st in
  match c with
  | CSkip => match skip_word spl with (true, spl') => Ok (spl', sto) | (false, _) => CheckFail end
  | CRead p a col idx =>
      '(w, spl') <- next_word spl ;;
      match w with
      | None => CheckFail
      | Some w =>
          match p w with
          | None => CheckFail
          | Some v =>
              cols <- oget sto a ;; l <- oget cols col ;;
              l' <- oset l idx v ;; cols' <- oset cols col l' ;; sto' <- oset sto a cols' ;;
              Ok (spl', sto')
          end
      end
  end.

(* 349-371: the second pass *)
Definition read_line (o : input_format) (args : list arg) (st : nat * N * storage) (l : str)
    : outcome (nat * N * storage) :=
  let '(i, to_skip, sto) := st in
  if data_line o l then
    if (0 <? to_skip)%N then Ok (i, N.pred to_skip, sto)
    else
      '(_, sto') <- ofold do_call (row_calls i 0 args) (mk_spl l (Some 0) (in_delim o) (delim_single o), sto) ;;
      Ok (S i, to_skip, sto')
  else Ok (i, to_skip, sto).

(* 320-375; n -= skip_first wraps around *)
Definition read_table (o : input_format) (content : str) (args : list arg) : outcome storage :=
  let ls := map getline (pieces content) in
  let count := N.of_nat (length (filter (data_line o) ls)) in
  let n := ((count + (two64N - skip_first o mod two64N)) mod two64N)%N in
  sto <- omapl (resize_arg n) args ;;
  '(_, _, sto') <- ofold (read_line o args) ls (0, skip_first o, sto) ;;
  Ok sto'.
End Read.

(* ------------------------------------------------------------------ write_table *)
(* 41-58 *)
Record output_format := mk_out {
  auto_width : bool; min_width : nat; out_delim : str; header_chars : str; header : list str }.
Definition standard_out (h : list str) : output_format := mk_out true 0 [" "%char] ["#"; " "]%char h.
Definition csv_out (h : list str) : output_format := mk_out false 0 [","%char] ["#"; " "]%char h.

(* The sources: a 1D vector, a 2D vector (rows, columns, data), or columns(m, 2D vectors) *)
Inductive wcol :=
| W1 (l : list str)
| W2 (r m : nat) (l : list str)
| WG (m : nat) (vs : list (nat * nat * list str)).

(* 451-500: the number of rows is taken from the first vector that is not empty.  The exception is
   thrown outside of the try block. *)
Definition size_of (rc : nat * nat) (d0 w : nat) : outcome (nat * nat) :=
  let '(r, c) := rc in
  let r := if r =? 0 then d0 else r in
  if d0 =? r then Ok (r, c + w) else Throws.
Definition check_size (rc : nat * nat) (w : wcol) : outcome (nat * nat) :=
  match w with
  | W1 l => size_of rc (length l) 1
  | W2 r m _ => size_of rc r m
  | WG _ vs => ofold (fun rc v => size_of rc (fst (fst v)) (snd (fst v))) vs rc
  end.

(* 502-600: the strings written for row i, in order *)
Definition wcol_cells (i : nat) (w : wcol) : outcome (list str) :=
  match w with
  | W1 l => x <- oget l i ;; Ok [x]
  | W2 r m l => omapl (fun k => _ <- check (i <? r) ;; _ <- check (k <? m) ;; oget l (i * m + k)) (seq 0 m)
  | WG m vs =>
      ls <- omapl (fun k => omapl (fun v => oget (snd v) (i * snd (fst v) + k)) vs) (seq 0 m) ;; Ok (concat ls)
  end.
Definition row_cells (cols : list wcol) (i : nat) : outcome (list str) :=
  ls <- omapl (wcol_cells i) cols ;; Ok (concat ls).

(* v[j] with its check *)
Definition width_at (cwidth : list nat) (j : nat) : outcome nat :=
  match nth_error cwidth j with Some w => Ok w | None => CheckFail end.

(* 386-431: file_writer *)
Definition write_cell (delim : str) (cwidth : list nat) (st : str * nat) (s : str) : outcome (str * nat) :=
  let '(out, j) := st in
  w <- width_at cwidth j ;;
  Ok ((if j =? 0 then out else out ++ delim) ++ align_right s w " "%char, S j).
Definition write_row (delim : str) (cwidth : list nat) (out : str) (cells : list str) : outcome str :=
  '(out, _) <- ofold (write_cell delim cwidth) cells (out, 0) ;; Ok (out ++ [nl]).
Definition write_header (o : output_format) (cwidth : list nat) (out : str) : outcome str :=
  match header o with
  | [] => Ok out
  | h =>
      out <- ofold (fun out i =>
          hw <- width_at cwidth i ;;
          let hw := if (i =? 0) && (length (header_chars o) <=? hw) then hw - length (header_chars o) else hw in
          x <- oget h i ;;
          Ok ((if i =? 0 then out else out ++ out_delim o) ++ align_right x hw " "%char))
        (seq 0 (length h)) (out ++ header_chars o) ;;
      Ok (out ++ [nl])
  end.

(* 433-449: cache_writer; k runs over the whole table, j over the row *)
Definition cache_cell (cwidth : list nat) (st : list str * nat * nat) (s : str) : outcome (list str * nat * nat) :=
  let '(data, k, j) := st in
  w <- width_at cwidth j ;;
  data' <- oset data k (align_right s w " "%char) ;; Ok (data', S k, S j).
Definition cache_row (cwidth : list nat) (cols : list wcol) (st : list str * nat) (i : nat) : outcome (list str * nat) :=
  let '(data, k) := st in
  cells <- row_cells cols i ;;
  '(data, k, _) <- ofold (cache_cell cwidth) cells (data, k, 0) ;; Ok (data, k).

(* 647-652: the width of a column; cache.data.stride(_, j) visits j, j + c, ... (C68) *)
Definition data_width (data : list str) (r c : nat) (w : nat) (j : nat) : outcome nat :=
  ofold (fun w i => s <- oget data (i * c + j) ;; Ok (Nat.max w (length s))) (seq 0 r) w.
(* 654-663 *)
Definition header_width (o : output_format) (w : nat) (j : nat) : outcome nat :=
  match header o with
  | [] => Ok w
  | h => x <- oget h j ;; Ok (Nat.max w (if j =? 0 then length x + length (header_chars o) else length x))
  end.

(* 606-698 *)
Definition write_table (o : output_format) (cols : list wcol) : outcome str :=
  '(r, c) <- ofold check_size cols (0, 0) ;;
  _ <- check (match header o with [] => true | h => length h =? c end) ;;
  let cwidth := repeat (min_width o) c in
  if auto_width o then
    '(data, _) <- ofold (cache_row cwidth cols) (seq 0 r) (repeat [] (r * c), 0) ;;
    cwidth <- omapl (fun j => w <- oget cwidth j ;; w <- data_width data r c w j ;; header_width o w j) (seq 0 c) ;;
    out <- write_header o cwidth [] ;;
    ofold (fun out i =>
        cells <- omapl (fun j => oget data (i * c + j)) (seq 0 c) ;;
        write_row (out_delim o) cwidth out cells) (seq 0 r) out
  else
    out <- write_header o cwidth [] ;;
    ofold (fun out i => cells <- row_cells cols i ;; write_row (out_delim o) cwidth out cells) (seq 0 r) out.
