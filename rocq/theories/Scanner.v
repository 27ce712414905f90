(** readlines at the level of single calls of Read: vimlparser.go:88-95 with bufio.Scanner
    and bufio.ScanLines (Go's bufio/scan.go, which is not part of /repo and is modelled from
    its source). [Reader.readlines] is the same function seen from the whole input. *)
From Coq Require Import List NArith.
From Verif Require Import Base Utf8 Reader Ast Export ExprParser CmdParser Api.
Import ListNotations.
Open Scope nat_scope.

(** An io.Reader: the bytes it still has, the number of bytes it is willing to deliver in
    each of the next calls of Read (as many as there is room for when the list is used up),
    and whether it reports its end (io.EOF or another error) together with the last bytes or
    in a call of its own. The documentation of io.Reader allows both, and calls that deliver
    nothing. Read counts below zero or above the room are not modelled. *)
Record rdr := mkRdr { r_rest : list N; r_sizes : list nat; r_eager : bool }.

(** One call of Read with a slice of [room] bytes: the bytes delivered, and whether an error
    comes with them. *)
Definition read1 (room : nat) (r : rdr) : list N * bool * rdr :=
  match r_sizes r with
  | 0 :: more => ([], false, mkRdr (r_rest r) more (r_eager r))
  | sizes =>
    let want := match sizes with [] => room | k :: _ => Nat.min k room end in
    let rest := skipn want (r_rest r) in
    let r' := mkRdr rest (tl sizes) (r_eager r) in
    match r_rest r with
    | [] => ([], true, r')
    | _ => (firstn want (r_rest r), match rest with [] => r_eager r | _ => false end, r')
    end
  end.

(** bufio: the inner loop of Scanner.Scan. Reads that deliver nothing are repeated, 100 times
    at most (maxConsecutiveEmptyReads); after that the scanner gives up with
    io.ErrNoProgress. *)
Fixpoint fill (loops room : nat) (r : rdr) : list N * bool * rdr :=
  let '(out, err, r') := read1 room r in
  if err then (out, true, r')
  else match out with
       | _ :: _ => (out, false, r')
       | [] => match loops with O => ([], true, r') | S k => fill k room r' end
       end.

(** bufio.Scanner: the bytes buf[start:end], start, len(buf), whether err is set, and r. *)
Record scanner := mkScanner {
  b_data : list N; b_start : nat; b_cap : nat; b_err : bool; b_rdr : rdr }.

(** bytes.IndexByte(data, '\n') with the data before and after it. *)
Fixpoint cut_lf (data : list N) : option (list N * list N) :=
  match data with
  | [] => None
  | b :: t => if (b =? 10)%N then Some ([], t)
              else match cut_lf t with Some (l, r) => Some (b :: l, r) | None => None end
  end.

(** bufio: dropCR. *)
Definition drop_cr (l : list N) : list N := drop_cr_rev (rev' l).

(** bufio.ScanLines(data, atEOF): the token and the data behind it, None when there is no
    token (yet). *)
Definition split_line (data : list N) (at_eof : bool) : option (list N * list N) :=
  match cut_lf data with
  | Some (l, rest) => Some (drop_cr l, rest)
  | None => match data with
            | [] => None
            | _ => if at_eof then Some (drop_cr data, []) else None
            end
  end.

Definition start_size : nat := 64 * 64.       (* startBufSize = 4096 *)
Definition max_size : nat := 256 * 256.       (* MaxScanTokenSize = 65536 *)

(** bufio: shift the data to the beginning of the buffer if there is lots of empty space or
    space is needed. *)
Definition shift (s : scanner) : scanner :=
  let '(mkScanner data start cap err r) := s in
  if (0 <? start) && ((start + length data =? cap) || (Nat.div cap 2 <? start))
  then mkScanner data 0 cap err r else s.

(** bufio: resize a full buffer; None is ErrTooLong. *)
Definition grow (s : scanner) : option scanner :=
  let '(mkScanner data start cap err r) := s in
  if start + length data =? cap
  then if max_size <=? cap then None
       else let new := match cap * 2 with 0 => start_size | n => n end in
            Some (mkScanner data 0 (Nat.min new max_size) err r)
  else Some s.

(** bufio: read some input into buf[end:len(buf)]. *)
Definition refill (s : scanner) : scanner :=
  let '(mkScanner data start cap _ r) := s in
  let '(out, err, r') := fill 100 (cap - (start + length data)) r in
  mkScanner (data ++ out) start cap err r'.

(** vimlparser.go:88-95  readlines: the for loop over Scanner.Scan, with the loop inside Scan.
    The split function is called when there are data or an error; without a token the
    scanner stops after an error and reads more otherwise. An error of the scanner or of
    the reader is not looked at. None: the fuel ran out, which is excluded by theorem. *)
Fixpoint scan_all (fuel : nat) (s : scanner) : option (list (list N)) :=
  match fuel with
  | O => None
  | S k =>
    match split_line (b_data s) (b_err s) with
    | Some (line, rest) =>
      option_map (cons line)
        (scan_all k (mkScanner rest (b_start s + (length (b_data s) - length rest))
                               (b_cap s) (b_err s) (b_rdr s)))
    | None =>
      if b_err s then Some []
      else match grow (shift s) with
           | None => Some []
           | Some s' => scan_all k (refill s')
           end
    end
  end.

(** bufio.NewScanner(r) and the loop. *)
Definition readlines_from (r : rdr) : option (list (list N)) :=
  scan_all (2 * length (r_rest r) + 3) (mkScanner [] 0 0 false r).

(** vimlparser.go:35-61  ParseFile and :64-87 ParseExpr, reading from such a reader. *)
Definition ParseFile_from (r : rdr) (filename : list N) (opt : option parse_option) : api_result node :=
  let neovim := match opt with Some o => o_neovim o | None => false end in
  match readlines_from r with
  | Some ls => recovered filename (parse_to_ast neovim (new_reader (map decode ls)) filename)
  | None => NoResult
  end.
Definition ParseExpr_from (r : rdr) : api_result (option node) :=
  match readlines_from r with
  | Some ls => recovered [] (parse_expr_to_ast (new_reader (map decode ls)))
  | None => NoResult
  end.
