(** The data structure of StringReader as it is in Go: a buffer, an array of positions
    and an index, with the methods that work on the index. The other files use the
    suffix of the buffer instead; IndexProof.v shows that it makes no difference. *)
From Verif Require Import Base Utf8 CharClass Reader Vnode Tokenizer.

(** go/type.go:177-181  StringReader. Arrays are lists; the positions have no index yet. *)
Record sreader := mkSR { sr_i : nat; sr_pos : list pos; sr_buf : list cell }.
Definition set_i (i : nat) (r : sreader) : sreader := mkSR i (sr_pos r) (sr_buf r).

(** The local variables of __init__: buf, pos, col and offset. *)
Record init_state := mkInit { is_buf : list cell; is_pos : list pos; is_col : N; is_off : N }.

(** go/type.go:200-206: one character of a first line; [lnum] is the 0-based line. *)
Definition init_char (lnum : N) (s : init_state) (r : N) : init_state :=
  mkInit (is_buf s ++ [R r]) (is_pos s ++ [mkPos 0 (lnum + 1) (is_col s + 1) (is_off s)])
    (is_col s + rune_len r) (is_off s + rune_len r).
(** go/type.go:210-222: one character of a continuation line, with the variable skip. *)
Definition init_cont_char (lnum : N) (ss : bool * init_state) (r : N) : bool * init_state :=
  let '(skip, s) := ss in
  if skip then (negb (r =? 92), mkInit (is_buf s) (is_pos s) (is_col s + rune_len r) (is_off s + rune_len r))
  else (false, mkInit (is_buf s ++ [R r]) (is_pos s ++ [mkPos 0 (lnum + 2) (is_col s + 1) 0])
                 (is_col s + rune_len r) (is_off s + rune_len r)).
(** go/type.go:207-225: the loop over continuation lines; [lines] are those after the
    line [lnum]. Returns the rest of the lines and the new line number. *)
Fixpoint init_conts (lines : list text) (lnum : N) (s : init_state) : list text * N * init_state :=
  match lines with
  | l :: rest =>
    if re_continuation l then
      let s1 := snd (fold_left (init_cont_char lnum) l (true, mkInit (is_buf s) (is_pos s) 0 (is_off s))) in
      init_conts rest (lnum + 1) (mkInit (is_buf s1) (is_pos s1) (is_col s1) (is_off s1 + 1))
    else (lines, lnum, s)
  | [] => (lines, lnum, s)
  end.
(** go/type.go:198-230: the loop over the lines. The fuel is the number of lines. *)
Fixpoint init_lines (fuel : nat) (lines : list text) (lnum : N) (s : init_state) : N * init_state :=
  match fuel with
  | O => (lnum, s)
  | S f =>
    match lines with
    | [] => (lnum, s)
    | l :: rest =>
      let s1 := fold_left (init_char lnum) l (mkInit (is_buf s) (is_pos s) 0 (is_off s)) in
      let '(rest', lnum', s2) := init_conts rest lnum s1 in
      init_lines f rest' (lnum' + 1)
        (mkInit (is_buf s2 ++ [EOL]) (is_pos s2 ++ [mkPos 0 (lnum' + 1) (is_col s2 + 1) (is_off s2)])
           (is_col s2) (is_off s2 + 1))
    end
  end.
(** go/type.go:189-234  StringReader.__init__. *)
Definition init_reader (lines : list text) : sreader :=
  let '(lnum, s) := init_lines (length lines) lines 0 (mkInit [] [] 0 0) in
  mkSR 0 (is_pos s ++ [mkPos 0 (lnum + 1) 0 (is_off s)]) (is_buf s).

(** go/type.go:236-240  getpos. *)
Definition with_index (i : N) (p : pos) : pos := mkPos i (p_lnum p) (p_col p) (p_off p).
Definition i_getpos (r : sreader) : outcome pos :=
  match nth_error (sr_pos r) (sr_i r) with
  | Some p => Ok (with_index (N.of_nat (sr_i r)) p)
  | None => Panic PIndex
  end.

(** go/vimlparser.go:3315-3333  eof, tell, seek_set, seek_cur, seek_end. *)
Definition i_eof (r : sreader) : bool := Nat.leb (length (sr_buf r)) (sr_i r).
Definition i_tell (r : sreader) : nat := sr_i r.
Definition i_seek_set (i : nat) (r : sreader) : sreader := set_i i r.
Definition i_seek_cur (k : nat) (r : sreader) : sreader := set_i (sr_i r + k) r.
Definition i_seek_end (k : nat) (r : sreader) : sreader := set_i (length (sr_buf r) + k) r.

(** go/vimlparser.go:3335-3355  p, peek, get. *)
Definition i_at (k : nat) (r : sreader) : outcome ch :=
  match nth_error (sr_buf r) k with Some x => Ok (ch_of_cell x) | None => Panic PIndex end.
Definition i_p (k : nat) (r : sreader) : outcome ch :=
  if i_eof r then Ok CEof else i_at (sr_i r + k) r.
Definition i_peek (r : sreader) : outcome ch := if i_eof r then Ok CEof else i_at (sr_i r) r.
Definition i_get (r : sreader) : outcome (ch * sreader) :=
  if i_eof r then Ok (CEof, r)
  else let* x := i_at (sr_i r) r in Ok (x, set_i (sr_i r + 1) r).

(** go/vimlparser.go:3364-3377  getn: n is None for -1. The fuel is the number of cells
    left. *)
Fixpoint i_getn_loop (fuel : nat) (n : option nat) (j : nat) (r : sreader) (acc : text) : text * sreader :=
  match fuel with
  | O => (acc, r)
  | S f =>
    if Nat.ltb (sr_i r) (length (sr_buf r)) && (match n with None => true | Some m => Nat.ltb j m end) then
      match nth_error (sr_buf r) (sr_i r) with
      | Some (R x) => i_getn_loop f n (S j) (set_i (sr_i r + 1) r) (acc ++ [x])
      | _ => (acc, r)
      end
    else (acc, r)
  end.
Definition i_getn (n : option nat) (r : sreader) : text * sreader :=
  i_getn_loop (length (sr_buf r) - sr_i r) n 0 r [].
(** go/vimlparser.go:3357-3362  peekn; :3379-3387  peekline, readline. *)
Definition i_peekn (n : option nat) (r : sreader) : text := fst (i_getn n r).
Definition i_readline (r : sreader) : outcome (text * sreader) :=
  let '(s, r1) := i_getn None r in let* '(_, r2) := i_get r1 in Ok (s, r2).

(** go/vimlparser.go:3389-3402  getstr, with the indices of the two positions. *)
Fixpoint i_getstr_loop (n : nat) (i : nat) (r : sreader) (acc : text) : text :=
  match n with
  | O => acc
  | S n' =>
    match nth_error (sr_buf r) i with
    | None => acc
    | Some x => i_getstr_loop n' (S i) r (acc ++ [match x with EOL => 10 | R y => y end])
    end
  end.
Definition i_getstr (b e : nat) (r : sreader) : text := i_getstr_loop (e - b) b r [].

(** go/vimlparser.go:3408-3514: the loops "for f(peekn(1)) { r += getn(1) }", and
    :3516-3530 with seek_cur(1) instead. *)
Fixpoint i_read_loop (fuel : nat) (f : N -> bool) (r : sreader) (acc : text) : text * sreader :=
  match fuel with
  | O => (acc, r)
  | S n =>
    match i_peekn (Some 1%nat) r with
    | [x] => if f x then let '(s, r') := i_getn (Some 1%nat) r in i_read_loop n f r' (acc ++ s) else (acc, r)
    | _ => (acc, r)
    end
  end.
Definition i_read_while (f : N -> bool) (r : sreader) : text * sreader :=
  i_read_loop (S (length (sr_buf r) - sr_i r)) f r [].
Fixpoint i_skip_loop (fuel : nat) (f : N -> bool) (r : sreader) : sreader :=
  match fuel with
  | O => r
  | S n =>
    match i_peekn (Some 1%nat) r with
    | [x] => if f x then i_skip_loop n f (i_seek_cur 1 r) else r
    | _ => r
    end
  end.
Definition i_skip_while (f : N -> bool) (r : sreader) : sreader :=
  i_skip_loop (S (length (sr_buf r) - sr_i r)) f r.

(** * The suffix of the buffer that the model of the parser uses *)
Fixpoint cursor_from (i : N) (buf : list cell) (ps : list pos) : cursor :=
  match buf, ps with
  | x :: b, p :: q => Cons x (with_index i p) (cursor_from (i + 1) b q)
  | _, p :: _ => Eof (with_index i p)
  | _, [] => Eof (mkPos i 0 0 0)
  end.
Definition suffix (r : sreader) : cursor :=
  cursor_from (N.of_nat (sr_i r)) (skipn (sr_i r) (sr_buf r)) (skipn (sr_i r) (sr_pos r)).
(** The place of a suffix in the buffer. *)
Definition place (r : sreader) (c : cursor) : nat := (length (sr_buf r) - clen c)%nat.

(** * The token cache *)

(** go/vimlparser.go:2013-2274  get2: the model of Tokenizer.v at the suffix. *)
Definition i_get2 (r : sreader) : outcome (token * sreader) :=
  let* '(t, c) := get2 (suffix r) in Ok (t, set_i (place r c) r).

(** map[int][]interface{}: the index after the token, and the token. *)
Definition tcache := list (nat * (nat * token)).
Fixpoint cache_find (k : nat) (m : tcache) : option (nat * token) :=
  match m with
  | [] => None
  | (k', v) :: m' => if Nat.eqb k k' then Some v else cache_find k m'
  end.

(** go/vimlparser.go:1999-2011  ExprTokenizer.get. *)
Definition c_get (m : tcache) (r : sreader) : outcome (token * sreader * tcache) :=
  match cache_find (i_tell r) m with
  | Some (j, t) => Ok (t, i_seek_set j r, m)
  | None =>
    let pos := i_tell r in
    let* '(t, r1) := i_get2 (i_skip_while iswhite r) in
    Ok (t, r1, (pos, (i_tell r1, t)) :: m)
  end.
(** go/vimlparser.go:1992-1997  ExprTokenizer.peek. *)
Definition c_peek (m : tcache) (r : sreader) : outcome (token * sreader * tcache) :=
  let pos := i_tell r in
  let* '(t, r1, m1) := c_get m r in Ok (t, i_seek_set pos r1, m1).

(** A history of requests to one tokenizer; everything else that moves the reader between
    them counts as a seek. A panic ends the history, it unwinds up to ParseFile or
    ParseExpr. *)
Inductive request := QGet | QPeek | QSeek (i : nat).
Fixpoint run_cached (h : list request) (m : tcache) (r : sreader) : outcome (list token * nat) :=
  match h with
  | [] => Ok ([], i_tell r)
  | QGet :: h' => let* '(t, r1, m1) := c_get m r in
                  let* '(ts, i) := run_cached h' m1 r1 in Ok (t :: ts, i)
  | QPeek :: h' => let* '(t, r1, m1) := c_peek m r in
                   let* '(ts, i) := run_cached h' m1 r1 in Ok (t :: ts, i)
  | QSeek i :: h' => run_cached h' m (i_seek_set i r)
  end.

(** The requests without a cache, on the suffix of the buffer as in Tokenizer.v. *)
Definition plain_at (r : sreader) (i : nat) : outcome (token * nat) :=
  let* '(t, c) := tget (suffix (set_i i r)) in Ok (t, place r c).
Fixpoint run_plain (h : list request) (r : sreader) (i : nat) : outcome (list token * nat) :=
  match h with
  | [] => Ok ([], i)
  | QGet :: h' => let* '(t, j) := plain_at r i in
                  let* '(ts, k) := run_plain h' r j in Ok (t :: ts, k)
  | QPeek :: h' => let* '(t, _) := plain_at r i in
                   let* '(ts, k) := run_plain h' r i in Ok (t :: ts, k)
  | QSeek j :: h' => run_plain h' r j
  end.
