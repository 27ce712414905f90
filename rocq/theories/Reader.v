(** The line reader: bufio line splitting, StringReader construction and methods. *)
From Verif Require Import Base Utf8 CharClass.

(** * Splitting the input into lines *)

(** bufio.MaxScanTokenSize: the scanner fails with ErrTooLong when its buffer of
    that size holds no line feed. *)
Definition max_line : N := 65536.

(** bufio.dropCR: one trailing carriage return of a line is removed. [cur] is the
    reversed line. *)
Definition drop_cr_rev (cur : list N) : list N :=
  match cur with 13 :: t => rev' t | _ => rev' cur end.

(** vimlparser.go:88-95  readlines, with bufio.ScanLines as split function. [cur] is
    the reversed current line, [n] its length. A line of [max_line] bytes or more
    stops the scanner; readlines does not look at scanner.Err(), so the lines read
    so far are used and the rest of the input is dropped. *)
Fixpoint scan_lines (bs cur : list N) (n : N) : list (list N) :=
  match bs with
  | [] => match cur with [] => [] | _ => [drop_cr_rev cur] end
  | b :: t =>
    if b =? 10 then drop_cr_rev cur :: scan_lines t [] 0
    else if max_line <=? n + 1 then []
    else scan_lines t (b :: cur) (n + 1)
  end.

(** What an io.Reader delivers: its bytes, and whether it ended with an error other
    than io.EOF. *)
Record source := mkSource { s_bytes : list N; s_fails : bool }.

(** vimlparser.go:88-95  readlines: a read error ends the scan like io.EOF and is
    not reported. *)
Definition readlines (src : source) : list (list N) := scan_lines (s_bytes src) [] 0.

(** * StringReader *)

(** An element of StringReader.buf: a one-rune string, or the marker "<EOL>". *)
Inductive cell := EOL | R (r : N).

(** StringReader (go/type.go:177-181) with its index i: the cells buf[i:] with the
    positions pos[i:]; pos has one more element than buf, for the end of file. *)
Inductive cursor :=
| Eof (p : pos)
| Cons (x : cell) (p : pos) (t : cursor).

(** Remaining number of cells, len(buf) - i. *)
Fixpoint clen (c : cursor) : nat :=
  match c with Eof _ => O | Cons _ _ t => S (clen t) end.

(** Sum of the byte lengths of the runes of a line. *)
Fixpoint blen (t : text) : N :=
  match t with [] => 0 | r :: t' => rune_len r + blen t' end.

(** go/type.go:200-206: the cells of a first physical line in front of [k]; i is
    the index of the first cell. *)
Fixpoint put_first (t : text) (i lnum col off : N) (k : N -> cursor) : cursor :=
  match t with
  | [] => k i
  | r :: t' => Cons (R r) (mkPos i lnum (col + 1) off)
                 (put_first t' (i + 1) lnum (col + rune_len r) (off + rune_len r) k)
  end.

(** go/type.go:210-222, skip = false: cells of a continuation line after its
    backslash. The offset field is left 0 (go/type.go:218). *)
Fixpoint put_cont (t : text) (i lnum col : N) (k : N -> cursor) : cursor :=
  match t with
  | [] => k i
  | r :: t' => Cons (R r) (mkPos i lnum (col + 1) 0)
                 (put_cont t' (i + 1) lnum (col + rune_len r) k)
  end.

(** go/type.go:210-222, skip = true: drop everything up to the first backslash. *)
Fixpoint skip_backslash (t : text) (col : N) : text * N :=
  match t with
  | [] => ([], col)
  | r :: t' => if r =? 92 then (t', col + rune_len r)
               else skip_backslash t' (col + rune_len r)
  end.

(** go/type.go:189-234  StringReader.__init__. [build_more] is the situation after
    the characters of a physical line have been appended (lnum is its 1-based
    number, col its byte length, off the current offset): continuation lines are
    joined, otherwise the "<EOL>" cell is written and the next line starts. *)
Fixpoint build_more (lines : list text) (i lnum col off : N) : cursor :=
  match lines with
  | [] => Cons EOL (mkPos i lnum (col + 1) off)
            (Eof (mkPos (i + 1) (lnum + 1) 0 (off + 1)))
  | l :: rest =>
    if re_continuation l then
      let '(t, c) := skip_backslash l 0 in
      put_cont t i (lnum + 1) c
        (fun i' => build_more rest i' (lnum + 1) (blen l) (off + blen l + 1))
    else
      Cons EOL (mkPos i lnum (col + 1) off)
        (put_first l (i + 1) (lnum + 1) 0 (off + 1)
          (fun i' => build_more rest i' (lnum + 1) (blen l) (off + 1 + blen l)))
  end.

(** go/type.go:189-234  StringReader.__init__. *)
Definition new_reader (lines : list text) : cursor :=
  match lines with
  | [] => Eof (mkPos 0 1 0 0)
  | l :: rest => put_first l 0 1 0 0 (fun i => build_more rest i 1 (blen l) (blen l))
  end.

(** A one-element string as returned by peek/get/p: a rune, "<EOL>" or "<EOF>". *)
Inductive ch := CEof | CEol | CR (r : N).

Definition ch_of_cell (x : cell) : ch := match x with EOL => CEol | R r => CR r end.

(** The Go string of a [ch]. *)
Definition ch_text (c : ch) : text :=
  match c with CEof => T "<EOF>" | CEol => T "<EOL>" | CR r => [r] end.

(** c == "x" for a one-character constant. *)
Definition ch_is (c : ch) (r : N) : bool := match c with CR x => x =? r | _ => false end.
(** A character class applied to a [ch]: the sentinels match no class. *)
Definition ch_in (f : N -> bool) (c : ch) : bool := match c with CR x => f x | _ => false end.
Definition ch_end (c : ch) : bool := match c with CR _ => false | _ => true end.

(** go/type.go:236-240  getpos. *)
Definition getpos (c : cursor) : pos := match c with Eof p => p | Cons _ p _ => p end.

(** go/vimlparser.go:3315-3317  eof. *)
Definition is_eof (c : cursor) : bool := match c with Eof _ => true | _ => false end.

(** go/vimlparser.go:3342-3347  peek. *)
Definition peek (c : cursor) : ch := match c with Eof _ => CEof | Cons x _ _ => ch_of_cell x end.

(** go/vimlparser.go:3349-3355  get: does not move at the end of the buffer. *)
Definition get (c : cursor) : ch * cursor :=
  match c with Eof _ => (CEof, c) | Cons x _ t => (ch_of_cell x, t) end.

(** buf[i+k] for i < len(buf): an index beyond the buffer is a Go runtime panic. *)
Fixpoint buf_at (k : nat) (c : cursor) : outcome ch :=
  match c with
  | Eof _ => Panic PIndex
  | Cons x _ t => match k with O => Ok (ch_of_cell x) | S k' => buf_at k' t end
  end.

(** go/vimlparser.go:3335-3340  p. *)
Definition p_ (k : nat) (c : cursor) : outcome ch :=
  match c with Eof _ => Ok CEof | _ => buf_at k c end.

(** go/vimlparser.go:3327-3329  seek_cur. Moving past the end of the buffer is
    recorded as a panic (in Go the next getpos would panic); it never happens. *)
Fixpoint seek_cur (k : nat) (c : cursor) : outcome cursor :=
  match k with
  | O => Ok c
  | S k' => match c with Eof _ => Panic PIndex | Cons _ _ t => seek_cur k' t end
  end.

(** go/vimlparser.go:3331-3333  seek_end(0). *)
Fixpoint seek_end0 (c : cursor) : cursor :=
  match c with Eof _ => c | Cons _ _ t => seek_end0 t end.

(** go/vimlparser.go:3364-3377  getn(n), n >= 0. *)
Fixpoint getn (n : nat) (c : cursor) : text * cursor :=
  match n with
  | O => ([], c)
  | S n' => match c with
            | Cons (R r) _ t => let '(s, c') := getn n' t in (r :: s, c')
            | _ => ([], c)
            end
  end.

(** go/vimlparser.go:3364-3377  getn(-1). *)
Fixpoint getn_all (c : cursor) : text * cursor :=
  match c with
  | Cons (R r) _ t => let '(s, c') := getn_all t in (r :: s, c')
  | _ => ([], c)
  end.

(** go/vimlparser.go:3357-3362  peekn; :3379-3381 peekline. *)
Definition peekn (n : nat) (c : cursor) : text := fst (getn n c).
Definition peekline (c : cursor) : text := fst (getn_all c).

(** peekn(1) seen as an element: "" (at a line end or at the end of file) is
    distinguished from a rune. *)
Definition peek1 (c : cursor) : option N := match c with Cons (R r) _ _ => Some r | _ => None end.
Definition o_is (o : option N) (r : N) : bool := match o with Some x => x =? r | None => false end.
Definition o_in (f : N -> bool) (o : option N) : bool := match o with Some x => f x | None => false end.
Definition o_text (o : option N) : text := match o with Some x => [x] | None => [] end.

(** go/vimlparser.go:3383-3387  readline. *)
Definition readline (c : cursor) : text * cursor :=
  let '(s, c1) := getn_all c in (s, snd (get c1)).

(** go/vimlparser.go:3389-3402  getstr: the cells from [b] (n of them), line ends as
    line feeds. *)
Fixpoint getstr_n (n : nat) (b : cursor) : text :=
  match n with
  | O => []
  | S n' => match b with
            | Eof _ => []
            | Cons x _ t => (match x with EOL => 10 | R r => r end) :: getstr_n n' t
            end
  end.
Definition getstr (b e : cursor) : text := getstr_n (clen b - clen e) b.

(** The loops "for f(peekn(1)) { r += getn(1) }" of read_alpha, read_alnum, ...
    (go/vimlparser.go:3408-3514). *)
Fixpoint read_while (f : N -> bool) (c : cursor) : text * cursor :=
  match c with
  | Cons (R r) _ t => if f r then let '(s, c') := read_while f t in (r :: s, c') else ([], c)
  | _ => ([], c)
  end.

Definition read_alpha := read_while isalpha.       (* :3408-3414 *)
Definition read_alnum := read_while isalnum.       (* :3416-3422 *)
Definition read_digit := read_while isdigit.       (* :3424-3430 *)
Definition read_odigit := read_while isodigit.     (* :3432-3438 *)
Definition read_xdigit := read_while isxdigit.     (* :3457-3463 *)
Definition read_bdigit := read_while (fun r => (r =? C "0") || (r =? C "1")).  (* :3465-3471 *)
Definition read_word := read_while iswordc.        (* :3482-3488 *)
Definition read_white := read_while iswhite.       (* :3490-3496 *)
Definition read_nonwhite := read_while (fun r => negb (iswhite r)).  (* :3498-3506 *)
Definition read_name := read_while isnamec.        (* :3508-3514 *)

(** go/vimlparser.go:3473-3480  read_integer. *)
Definition read_integer (c : cursor) : text * cursor :=
  if o_in (fun x => (x =? C "-") || (x =? C "+")) (peek1 c) then
    let '(s, c1) := getn 1 c in
    let '(d, c2) := read_digit c1 in (s ++ d, c2)
  else read_digit c.

(** go/vimlparser.go:3516-3520  skip_white; :3522-3530 skip_white_and_colon. *)
Definition skip_while (f : N -> bool) (c : cursor) : cursor := snd (read_while f c).
Definition skip_white := skip_while iswhite.
Definition skip_white_and_colon := skip_while (fun r => iswhite r || (r =? C ":")).

(** go/vimlparser.go:3440-3455  read_blob. Each turn looks at two characters. *)
Fixpoint read_blob (c : cursor) : outcome (text * cursor) :=
  match c with
  | Cons (R a) _ ((Cons (R b) _ t2) as t1) =>
    if isxdigit a && isxdigit b then
      let* '(s, c') := read_blob t2 in Ok (a :: b :: s, c')
    else if (a =? C ".") && isxdigit b then
      let* '(s, c') := read_blob t1 in Ok (a :: s, c')
    else if isxdigit a && negb (isxdigit b) then
      raise (T "E973: Blob literal should have an even number of hex characters:" ++ [a; b])
            (getpos c)
    else Ok ([], c)
  | _ => Ok ([], c)
  end.
