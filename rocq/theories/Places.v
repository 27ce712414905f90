(** Specification: lines of the input and the places in them. Independent of the
    reader's functions, except for its data (cursor, pos). *)
From Verif Require Import Base Utf8 CharClass Reader.

(** Length of a text in bytes. *)
Definition bytes (t : text) : N := N.of_nat (length (encode t)).

(** A continuation line: blanks, a backslash, the continuing text. *)
Definition continues (l ws t : text) : Prop := l = ws ++ 92 :: t /\ forallb re_space ws = true.
Definition is_continuation (l : text) : Prop := exists ws t, continues l ws t.

(** Byte offset of the first character of line number [n] (from 0) when the lines are
    separated by single line feeds. *)
Fixpoint line_start (lines : list text) (n : nat) : N :=
  match n, lines with
  | S n', l :: rest => bytes l + 1 + line_start rest n'
  | _, _ => 0
  end.

(** What a place of the input holds (a character, a line end, or nothing at the end of
    the input), its line and its column, both counted from 1, columns in bytes. *)
Inductive place_in (lines : list text) : option cell -> N -> N -> Prop :=
| pi_char n l pre r post : nth_error lines n = Some l -> l = pre ++ r :: post ->
    place_in lines (Some (R r)) (N.of_nat n + 1) (bytes pre + 1)
| pi_eol n l : nth_error lines n = Some l ->
    place_in lines (Some EOL) (N.of_nat n + 1) (bytes l + 1)
| pi_eof : place_in lines None (N.of_nat (length lines) + 1) 0.

(** The byte offset of a place. *)
Inductive offset_in (lines : list text) : N -> N -> N -> Prop :=
| oi_line n l pre post : nth_error lines n = Some l -> l = pre ++ post ->
    offset_in lines (N.of_nat n + 1) (bytes pre + 1) (line_start lines n + bytes pre)
| oi_eof : offset_in lines (N.of_nat (length lines) + 1) 0 (line_start lines (length lines)).

(** Logical lines. A logical line is a list of pieces (line number, number of bytes in
    front of the piece on its physical line, text), and the place of its line end. *)
Definition piece := (N * N * text)%type.

(** The pieces of the continuation lines at the front of [lines]; [n] is the number of
    the line before them and [l] that line. *)
Inductive pieces : N -> text -> list text -> list piece -> N * N -> list text -> Prop :=
| pc_stop n l lines : (forall l' r, lines = l' :: r -> ~ is_continuation l') ->
    pieces n l lines [] (n, bytes l + 1) lines
| pc_cont n l0 l ws t lines ps e rest : continues l ws t -> ~ In 92 ws ->
    pieces (n + 1) l lines ps e rest ->
    pieces n l0 (l :: lines) ((n + 1, bytes ws + 1, t) :: ps) e rest.
Inductive logical : N -> list text -> list (list piece * (N * N)) -> Prop :=
| lg_nil n : logical n [] []
| lg_line n l lines ps e rest more : pieces n l lines ps e rest ->
    logical (fst e + 1) rest more ->
    logical n (l :: lines) (((n, 0, l) :: ps, e) :: more).

(** The characters of pieces and lines with their places. *)
Fixpoint piece_cells (n col : N) (t : text) : list (cell * N * N) :=
  match t with
  | [] => []
  | r :: t' => (R r, n, col + 1) :: piece_cells n (col + rune_len r) t'
  end.
Definition logical_cells (l : list piece * (N * N)) : list (cell * N * N) :=
  flat_map (fun p => match p with (n, col, t) => piece_cells n col t end) (fst l) ++
  [(EOL, fst (snd l), snd (snd l))].

(** The cells of a cursor. *)
Fixpoint view (c : cursor) : list (cell * N * N) :=
  match c with Eof _ => [] | Cons x p t => (x, p_lnum p, p_col p) :: view t end.

(** The next cell. *)
Definition next_cell (c : cursor) : option cell := match c with Eof _ => None | Cons x _ _ => Some x end.

(** * Lines of bytes *)

(** [split_lines bs ls]: [ls] are the lines of the bytes [bs]; each line is ended by a
    line feed, which the last line may lack if it is not empty. *)
Definition has_lf (l : list N) : Prop := In 10 l.
Inductive split_lines : list N -> list (list N) -> Prop :=
| sl_nil : split_lines [] []
| sl_last l : ~ has_lf l -> l <> [] -> split_lines l [l]
| sl_line l bs ls : ~ has_lf l -> split_lines bs ls -> split_lines (l ++ 10 :: bs) (l :: ls).

(** A line without the carriage return at its end. *)
Inductive without_cr : list N -> list N -> Prop :=
| wc_cr l : without_cr (l ++ [13]) l
| wc_no l : (forall l', l <> l' ++ [13]) -> without_cr l l.

(** Lines short enough for the scanner, and the lines in front of the first other one. *)
Definition short (l : list N) : Prop := N.of_nat (length l) < 65536.
Inductive until_long : list (list N) -> list (list N) -> Prop :=
| ul_nil : until_long [] []
| ul_stop l ls : ~ short l -> until_long (l :: ls) []
| ul_go l ls r : short l -> until_long ls r -> until_long (l :: ls) (l :: r).

(** UTF-8 text. *)
Definition utf8 (l : list N) (t : text) : Prop :=
  l = encode t /\ Forall (fun r => scalar r = true) t.

(** The lines that are parsed: the lines in front of the first too long one, without
    their carriage returns, decoded (each byte that is not part of valid UTF-8 becomes
    U+FFFD, as Go's range does). *)
Definition seen_lines (bs : list N) (ts : list text) : Prop :=
  exists ls ls1 ls2, split_lines bs ls /\ until_long ls ls1 /\ Forall2 without_cr ls1 ls2 /\
    ts = map decode ls2.

(** Plain text: lines ended by line feeds only, valid UTF-8, no line of 65536 bytes or
    more. [ls] are its lines as bytes, [ts] as characters. *)
Definition plain (bs : list N) (ls : list (list N)) (ts : list text) : Prop :=
  split_lines bs ls /\ Forall short ls /\ Forall (fun l => forall l', l <> l' ++ [13]) ls /\
  Forall2 utf8 ls ts.
