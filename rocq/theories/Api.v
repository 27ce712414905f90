(** The public functions ParseFile and ParseExpr. *)
From Verif Require Import Base Utf8 Reader Vnode Token Ast ExprParser CmdParser Export.

(** vimlparser.go:13-19  ErrVimlParser, and the other error values: fmt.Errorf("%v", r)
    of a recovered panic value (:50, :79). *)
Inductive go_error :=
| ErrVimlParser (filename : list N) (offset line column : N) (msg : text)
| ErrOther (k : panic_kind).

(** What a call delivers. [NoResult] is a call that does not return; it is excluded by
    theorem. *)
Inductive api_result (A : Type) :=
| Returned (a : A)
| Failed (e : go_error)
| NoResult.
Arguments Returned {A} a.
Arguments Failed {A} e.
Arguments NoResult {A}.

(** The deferred functions at vimlparser.go:36-52 and :65-80. *)
Definition recovered {A} (file : list N) (o : outcome A) : api_result A :=
  match o with
  | Ok a => Returned a
  | PErr e => Failed (ErrVimlParser file (e_off e) (e_line e) (e_col e) (e_msg e))
  | Panic k => Failed (ErrOther k)
  | OutOfFuel => NoResult
  end.

(** vimlparser.go:29-31  ParseOption; a nil pointer is None. *)
Record parse_option := mkOption { o_neovim : bool }.

(** internal.NewStringReader(readlines(r)): vimlparser.go:54-55. *)
Definition open_source (src : source) : cursor := new_reader (map decode (readlines src)).

(** vimlparser.go:35-61  ParseFile. *)
Definition ParseFile (src : source) (filename : list N) (opt : option parse_option) : api_result node :=
  let neovim := match opt with Some o => o_neovim o | None => false end in
  recovered filename (parse_to_ast neovim (open_source src) filename).

(** vimlparser.go:64-87  ParseExpr. *)
Definition ParseExpr (src : source) : api_result (option node) :=
  recovered [] (parse_expr_to_ast (open_source src)).

(** vimlparser.go:21-26  ErrVimlParser.Error. *)
Definition error_string (e : go_error) : option text :=
  match e with
  | ErrVimlParser [] _ l c m =>
    Some (T "vimlparser: " ++ m ++ T ": line " ++ dec l ++ T " col " ++ dec c)
  | ErrVimlParser f _ l c m =>
    Some (decode f ++ T ":" ++ dec l ++ T ":" ++ dec c ++ T ": vimlparser: " ++ m)
  | ErrOther _ => None
  end.
