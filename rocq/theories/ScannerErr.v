(** readlines with the errors of the reader and of the scanner kept apart: vimlparser.go:88-95
    with bufio.Scanner, as in [Scanner], where only the presence of an error counts. *)
From Coq Require Import List NArith.
From Verif Require Import Base Utf8 Reader Ast Export ExprParser CmdParser Api Scanner.
Import ListNotations.
Open Scope nat_scope.

(** io.EOF, an error of the reader's own (any number of different ones), io.ErrNoProgress
    and bufio.ErrTooLong. *)
Inductive read_error := EndOfFile | ReaderError (k : N) | NoProgress | TooLong.

(** An io.Reader as in [Scanner], and the error with which it ends. *)
Record erdr := mkErdr { er_rdr : rdr; er_final : read_error }.

(** One call of Read; an error is the final one ([Scanner.read1]). *)
Definition e_read1 (room : nat) (r : erdr) : list N * option read_error * erdr :=
  let '(out, err, r') := read1 room (er_rdr r) in
  (out, if err then Some (er_final r) else None, mkErdr r' (er_final r)).

(** bufio: the inner loop of Scanner.Scan ([Scanner.fill]): s.setErr(err) for an error of
    Read, s.setErr(io.ErrNoProgress) after 100 empty reads. *)
Fixpoint e_fill (loops room : nat) (r : erdr) : list N * option read_error * erdr :=
  let '(out, err, r') := e_read1 room r in
  match err with
  | Some e => (out, Some e, r')
  | None =>
    match out with
    | _ :: _ => (out, None, r')
    | [] => match loops with O => ([], Some NoProgress, r') | S k => e_fill k room r' end
    end
  end.

(** bufio.Scanner with s.err ([Scanner.scanner]). *)
Record escanner := mkEscanner {
  eb_data : list N; eb_start : nat; eb_cap : nat; eb_err : option read_error; eb_rdr : erdr }.

(** bufio: whether an error is set. *)
Definition is_set (e : option read_error) : bool := match e with Some _ => true | None => false end.

(** [Scanner.shift], [Scanner.grow], [Scanner.refill]. *)
Definition e_shift (s : escanner) : escanner :=
  let '(mkEscanner data start cap err r) := s in
  if (0 <? start) && ((start + length data =? cap) || (Nat.div cap 2 <? start))
  then mkEscanner data 0 cap err r else s.
Definition e_grow (s : escanner) : option escanner :=
  let '(mkEscanner data start cap err r) := s in
  if start + length data =? cap
  then if max_size <=? cap then None
       else let new := match cap * 2 with 0 => start_size | n => n end in
            Some (mkEscanner data 0 (Nat.min new max_size) err r)
  else Some s.
Definition e_refill (s : escanner) : escanner :=
  let '(mkEscanner data start cap _ r) := s in
  let '(out, err, r') := e_fill 100 (cap - (start + length data)) r in
  mkEscanner (data ++ out) start cap err r'.

(** vimlparser.go:88-95  readlines ([Scanner.scan_all]): the lines, and the error that is set
    when the loop ends, which readlines does not ask for. *)
Fixpoint e_scan_all (fuel : nat) (s : escanner) : option (list (list N) * option read_error) :=
  match fuel with
  | O => None
  | S k =>
    match split_line (eb_data s) (is_set (eb_err s)) with
    | Some (line, rest) =>
      option_map (fun x => (line :: fst x, snd x))
        (e_scan_all k (mkEscanner rest (eb_start s + (length (eb_data s) - length rest))
                                  (eb_cap s) (eb_err s) (eb_rdr s)))
    | None =>
      if is_set (eb_err s) then Some ([], eb_err s)
      else match e_grow (e_shift s) with
           | None => Some ([], Some TooLong)
           | Some s' => e_scan_all k (e_refill s')
           end
    end
  end.

(** bufio.NewScanner(r) and the loop. *)
Definition e_readlines (r : erdr) : option (list (list N) * option read_error) :=
  e_scan_all (2 * length (r_rest (er_rdr r)) + 3) (mkEscanner [] 0 0 None r).

(** bufio: Scanner.Err, which is nil if the error is io.EOF. *)
Definition scanner_err (e : option read_error) : option read_error :=
  match e with Some EndOfFile => None | _ => e end.

(** vimlparser.go:35-61  ParseFile and :64-87 ParseExpr, reading from such a reader. *)
Definition ParseFile_reading (r : erdr) (filename : list N) (opt : option parse_option) : api_result node :=
  let neovim := match opt with Some o => o_neovim o | None => false end in
  match e_readlines r with
  | Some (ls, _) => recovered filename (parse_to_ast neovim (new_reader (map decode ls)) filename)
  | None => NoResult
  end.
Definition ParseExpr_reading (r : erdr) : api_result (option node) :=
  match e_readlines r with
  | Some (ls, _) => recovered [] (parse_expr_to_ast (new_reader (map decode ls)))
  | None => NoResult
  end.
