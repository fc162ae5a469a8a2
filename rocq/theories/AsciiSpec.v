(* What reading and writing ASCII tables means. *)
From Coq Require Import Ascii NArith.
From Verif Require Import Base StrSpec AsciiModel.
Local Open Scope nat_scope.

(* --- lines of a file --- *)
Definition blank_chars : str := [" "; "009"]%char.
(* s is the lines ls separated by newlines *)
Definition lines_of (s : str) (ls : list str) : Prop :=
  ls <> [] /\ joined ls ["010"%char] = s /\ Forall (free_of ["010"%char]) ls.
(* l without its trailing carriage returns *)
Definition chomped (l l' : str) : Prop :=
  exists t, l = l' ++ t /\ made_of ["013"%char] t /\ (l' = [] \/ exists a c, l' = a ++ [c] /\ c <> "013"%char).
(* blank lines and, with auto_skip, lines whose first characters are the skip pattern are ignored *)
Definition ignored (o : input_format) (l : str) : Prop :=
  made_of blank_chars l \/
  auto_skip o = true /\ exists g r, made_of blank_chars g /\ l = g ++ skip_pattern o ++ r.
(* a skip pattern that starts with a visible character *)
Definition pattern_ok (o : input_format) : Prop :=
  auto_skip o = false \/ exists c t, skip_pattern o = c :: t /\ ~ In c blank_chars.
(* the lines used from a list of lines *)
Inductive used (o : input_format) : list str -> list str -> Prop :=
| used_nil : used o [] []
| used_skip : forall l ls us, ignored o l -> used o ls us -> used o (l :: ls) us
| used_take : forall l ls us, ~ ignored o l -> used o ls us -> used o (l :: ls) (l :: us).
(* the lines used from a file, including those dropped by skip_first *)
Definition used_lines (o : input_format) (content : str) (us : list str) : Prop :=
  exists raw ls, lines_of content raw /\ Forall2 chomped raw ls /\ used o ls us.

(* --- fields of a line --- *)
(* words between runs of delimiters, or pieces between single delimiters; in the second case the first
   piece must not be empty (see the finding C70_empty_first_field_refuted) *)
Definition fields_of (o : input_format) (l : str) (fs : list str) : Prop :=
  if delim_single o
  then cut_at (in_delim o) l fs /\ exists c w t, fs = (c :: w) :: t
  else words_of (in_delim o) l fs.
Definition delim_ok (o : input_format) : Prop := delim_single o = true -> in_delim o <> [].

(* --- destinations --- *)
(* Where a field goes: vector [d_col] of argument [d_arg], element i*d_mul + d_off for row i *)
Record dest (V : Type) := mk_dest { d_arg : nat; d_col : nat; d_mul : nat; d_off : nat; d_parse : str -> option V }.
Arguments mk_dest {V}. Arguments d_arg {V}. Arguments d_col {V}. Arguments d_mul {V}.
Arguments d_off {V}. Arguments d_parse {V}.

(* the destinations of the successive fields of a line; None for placeholders *)
Fixpoint group_layout {V} (a m k : nat) (cols : list (option (parser V))) (c : nat) : list (option (dest V)) :=
  match cols with
  | [] => []
  | q :: t => option_map (mk_dest a c m k) q :: group_layout a m k t (S c)
  end.
Definition arg_layout {V} (a : nat) (g : arg V) : list (option (dest V)) :=
  match g with
  | AVec _ p => [Some (mk_dest a 0 1 0 p)]
  | AScalar _ p => [Some (mk_dest a 0 0 0 p)]
  | ASkip _ => [None]
  | AGroup _ m cols => concat (map (fun k => group_layout a m k cols 0) (seq 0 m))
  end.
Fixpoint layout {V} (a : nat) (args : list (arg V)) : list (option (dest V)) :=
  match args with [] => [] | g :: t => arg_layout a g ++ layout (S a) t end.

(* the fields of a line can be stored: there are enough of them, and each parses *)
Definition row_ok {V} (args : list (arg V)) (fs : list str) : Prop :=
  length (layout 0 args) <= length fs /\
  forall j d, nth_error (layout 0 args) j = Some (Some d) ->
    exists w v, nth_error fs j = Some w /\ d_parse d w = Some v.

Definition elem {V} (sto : list (list (list V))) (a c i : nat) : option V :=
  match nth_error sto a with
  | Some cols => match nth_error cols c with Some l => nth_error l i | None => None end
  | None => None
  end.

(* row i of the destinations holds the fields fs *)
Definition row_stored {V} (args : list (arg V)) (sto : list (list (list V))) (i : nat) (fs : list str) : Prop :=
  forall j d w v, nth_error (layout 0 args) j = Some (Some d) -> nth_error fs j = Some w -> d_parse d w = Some v ->
    elem sto (d_arg d) (d_col d) (i * d_mul d + d_off d) = Some v.

(* all destinations hold n rows *)
Definition sized {V} (args : list (arg V)) (n : nat) (sto : list (list (list V))) : Prop :=
  Forall2 (fun g cols => match g with
    | AVec _ _ => exists l, cols = [l] /\ length l = n
    | AScalar _ _ => exists x, cols = [[x]] /\ n <= 1
    | ASkip _ => cols = []
    | AGroup _ m qs => Forall2 (fun q l => q <> None -> length l = n * m) qs cols
    end) args sto.

(* number of elements within what std::vector can hold *)
Definition fits_rows {V} (args : list (arg V)) (n : nat) : Prop :=
  Forall (fun g => match g with
    | AVec _ _ => (N.of_nat n <= VecModel.max_elems)%N
    | AScalar _ _ => n <= 1
    | ASkip _ => True
    | AGroup _ m _ => (N.of_nat n * N.of_nat m <= VecModel.max_elems)%N
    end) args.

(* ------------------------------------------------------------------ writing *)
(* s padded on the left to w characters *)
Definition pad (w : nat) (s : str) : str := repeat " "%char (w - length s) ++ s.
Definition line (delim : str) (ws : list nat) (cells : list str) : str :=
  joined (map (fun p => pad (fst p) (snd p)) (combine ws cells)) delim.

(* the columns all have r rows *)
Definition has_rows (r : nat) (w : wcol) : Prop :=
  match w with
  | W1 l => length l = r
  | W2 r' m l => r' = r /\ length l = r * m
  | WG m vs => Forall (fun v => fst (fst v) = r /\ snd (fst v) = m /\ length (snd v) = r * m) vs
  end.
Definition col_count (w : wcol) : nat :=
  match w with W1 _ => 1 | W2 _ m _ => m | WG m vs => m * length vs end.
(* the cells of row i of a column *)
Definition col_row (i : nat) (w : wcol) (cs : list str) : Prop :=
  length cs = col_count w /\
  match w with
  | W1 l => nth_error cs 0 = nth_error l i
  | W2 _ m l => forall k, k < m -> nth_error cs k = nth_error l (i * m + k)
  | WG m vs => forall k q v, k < m -> nth_error vs q = Some v ->
      nth_error cs (k * length vs + q) = nth_error (snd v) (i * m + k)
  end.
Definition table_of (cols : list wcol) (r : nat) (rows : list (list str)) : Prop :=
  length rows = r /\ forall i cs, nth_error rows i = Some cs ->
    exists parts, cs = concat parts /\ Forall2 (col_row i) cols parts.

(* the width of the columns: the smallest ones with which everything fits *)
Definition head_size (o : output_format) (j : nat) (h : str) : nat :=
  if j =? 0 then length h + length (header_chars o) else length h.
Definition widths (o : output_format) (rows : list (list str)) (c : nat) (ws : list nat) : Prop :=
  length ws = c /\ forall j w, nth_error ws j = Some w ->
    if auto_width o
    then forall b, w <= b <->
      (min_width o <= b /\ (forall row x, In row rows -> nth_error row j = Some x -> length x <= b) /\
       (forall h, nth_error (header o) j = Some h -> head_size o j h <= b))
    else w = min_width o.

Definition header_lines (o : output_format) (ws : list nat) : list str :=
  match header o with
  | [] => []
  | h => [header_chars o ++
          line (out_delim o)
            (match ws with
             | [] => []
             | w :: t => (if length (header_chars o) <=? w then w - length (header_chars o) else w) :: t
             end) h]
  end.
Definition file_of (lines : list str) : str := concat (map (fun l => l ++ ["010"%char]) lines).

(* x starts with a visible character that does not make a comment *)
Definition starts_visible (x : str) : Prop := exists c t, x = c :: t /\ ~ In c blank_chars /\ c <> "#"%char.
(* the number of columns *)
Definition col_total (cols : list wcol) : nat := list_sum (map col_count cols).
