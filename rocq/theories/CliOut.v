(** The command line tool cmd/vimlparser with an os.Stdout on which writes can fail. *)
From Verif Require Import Base Utf8 Reader Vnode Ast Api Compiler CompilerObj Cli.

(** os.Stdout: what the calls of Write answer, the first, the second, and so on. *)
Definition device := nat -> writer.

(** cmd/vimlparser/main.go:51-68  parseFile: the calls of Write it makes and the error it
    returns. json.Encoder.Encode encodes first and then makes one call, whose count it does
    not look at. The panic of bytes.Buffer about a wrong count is some panic here; os.File
    gives no wrong count. *)
Definition parse_out (json : node -> option text) (fl : flags) (file : list N) (src : source) (w : writer)
  : outcome (list (list N) * option complaint) :=
  match ParseFile src file (Some (mkOption (f_neovim fl))) with
  | Failed e => Ok ([], Some (CParse e))
  | NoResult => OutOfFuel
  | Returned n =>
    if f_json fl then
      match json n with
      | None => Ok ([], Some CWrite)
      | Some s => Ok ([encode s], if snd (w (encode s)) then Some CWrite else None)
      end
    else
      match snd (compiler_compile (new_compiler (T "  ")) w n) with
      | (calls, Nil) => Ok (calls, None)
      | (calls, NodeError) | (calls, WriterError) | (calls, ShortWrite) => Ok (calls, Some CWrite)
      | (_, Panicked k) => Panic k
      | (_, BadCount) => Panic PIndex
      | (_, Endless) => OutOfFuel
      end
  end.

(** What the process leaves behind, in bytes, and the number of calls of Write on os.Stdout
    so far. Messages that cannot be written to os.Stderr are lost: the results of
    fmt.Fprintln at main.go:24, 35 and 43 are not looked at. *)
Record out_result := mkOut { y_status : N; y_out : list N; y_err : list complaint; y_usage : bool; y_calls : nat }.

(** What the calls put on the device. *)
Definition landed (w : writer) (calls : list (list N)) : list N := flat_map (fun bs => firstn (fst (w bs)) bs) calls.
Definition after_calls (dev : device) (acc : out_result) (calls : list (list N)) (e : option complaint) : out_result :=
  mkOut (match e with None => y_status acc | Some _ => 1 end) (y_out acc ++ landed (dev (y_calls acc)) calls)
    (y_err acc ++ match e with None => [] | Some e => [e] end) (y_usage acc) (y_calls acc + length calls).

(** cmd/vimlparser/main.go:32-46: the loop over the files; [first] is i == 0. parseFile makes
    at most one call of Write, so that one writer will do for a file. *)
Fixpoint files_out (json : node -> option text) (fl : flags) (w : world) (dev : device) (first : bool) (files : list (list N))
  (acc : out_result) : outcome out_result :=
  match files with
  | [] => Ok acc
  | f :: rest =>
    match w_open w f with
    | None => files_out json fl w dev false rest
                (mkOut 1 (y_out acc) (y_err acc ++ [COpen f]) (y_usage acc || first) (y_calls acc))
    | Some src =>
      let* '(calls, e) := parse_out json fl f src (dev (y_calls acc)) in
      files_out json fl w dev false rest (after_calls dev acc calls e)
    end
  end.

(** cmd/vimlparser/main.go:17-49  main. *)
Definition main_out (json : node -> option text) (fl : flags) (w : world) (dev : device) (args : list (list N)) : outcome out_result :=
  let start := mkOut 0 [] [] false 0 in
  match args with
  | [] => let* '(calls, e) := parse_out json fl [] (w_stdin w) (dev 0%nat) in Ok (after_calls dev start calls e)
  | _ => files_out json fl w dev true args start
  end.
