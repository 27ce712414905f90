(** The command line tool cmd/vimlparser. *)
From Verif Require Import Base Utf8 Reader Vnode Ast Api Compiler.

(** What the tool sees of its environment: os.Open (None if it fails) and os.Stdin.
    Writing to os.Stdout and os.Stderr is taken to succeed. *)
Record world := mkWorld { w_open : list N -> option source; w_stdin : source }.

(** The flags -neovim and -json (cmd/vimlparser/main.go:14-15). [json] stands for
    encoding/json with four blanks as indentation, None if the encoder fails. *)
Record flags := mkFlags { f_neovim : bool; f_json : bool }.

(** A line on os.Stderr: an error of os.Open, of ParseFile or of the output. *)
Inductive complaint := COpen (file : list N) | CParse (e : go_error) | CWrite.

(** cmd/vimlparser/main.go:51-68  parseFile: what it writes and the error it returns. A
    panic is not recovered here; the model records it as [Panic]. *)
Definition cli_parse (json : node -> option text) (fl : flags) (file : list N) (src : source)
  : outcome (text * option complaint) :=
  match ParseFile src file (Some (mkOption (f_neovim fl))) with
  | Failed e => Ok ([], Some (CParse e))
  | NoResult => OutOfFuel
  | Returned n =>
    if f_json fl then Ok (match json n with Some s => (s, None) | None => ([], Some CWrite) end)
    else
      let* c := compile_with (T "  ") n in
      Ok (if c_err c then ([], Some CWrite) else (c_out c, None))
  end.

(** What the process leaves behind: its exit status, os.Stdout, os.Stderr, and whether
    the usage message was written. *)
Record cli_result := mkCli { x_status : N; x_out : text; x_err : list complaint; x_usage : bool }.

(** cmd/vimlparser/main.go:32-46: the loop over the files; [first] is i == 0. *)
Fixpoint cli_files (json : node -> option text) (fl : flags) (w : world) (first : bool) (files : list (list N))
  (acc : cli_result) : outcome cli_result :=
  match files with
  | [] => Ok acc
  | f :: rest =>
    match w_open w f with
    | None => cli_files json fl w false rest
                (mkCli 1 (x_out acc) (x_err acc ++ [COpen f]) (x_usage acc || first))
    | Some src =>
      let* '(s, e) := cli_parse json fl f src in
      cli_files json fl w false rest
        (match e with
         | None => mkCli (x_status acc) (x_out acc ++ s) (x_err acc) (x_usage acc)
         | Some e => mkCli 1 (x_out acc ++ s) (x_err acc ++ [e]) (x_usage acc)
         end)
    end
  end.

(** cmd/vimlparser/main.go:17-49  main. *)
Definition cli_main (json : node -> option text) (fl : flags) (w : world) (args : list (list N)) : outcome cli_result :=
  match args with
  | [] => let* '(s, e) := cli_parse json fl [] (w_stdin w) in
          Ok (match e with
              | None => mkCli 0 s [] false
              | Some e => mkCli 1 s [e] false
              end)
  | _ => cli_files json fl w true args (mkCli 0 [] [] false)
  end.
