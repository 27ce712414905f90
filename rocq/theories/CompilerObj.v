(** The Compiler as an object with state, and the writers it and the printer write to:
    compiler/compiler.go:16-64, 86-93, 152-180, 253-339, printer/printer.go:27-37. *)
From Verif Require Import Base Utf8 Vnode Token Ast Export RefCompiler Compiler Printer.

(** The fields indent and buffer of a Compiler (compiler/compiler.go:25-28). c.indent-- is
    only ever executed after a c.indent++, so that a natural number will do. *)
Record cstate := mkCState { k_indent : nat; k_buffer : text }.

(** A call on the Compiler: the state it leaves behind, also when it panics, and what it
    returns. *)
Definition M (A : Type) := cstate -> cstate * outcome A.
Definition ret {A} (x : A) : M A := fun s => (s, Ok x).
Definition lift {A} (r : outcome A) : M A := fun s => (s, r).
Definition andthen {A B} (m : M A) (f : A -> M B) : M B := fun s =>
  match m s with
  | (s', Ok x) => f x s'
  | (s', PErr e) => (s', PErr e)
  | (s', Panic k) => (s', Panic k)
  | (s', OutOfFuel) => (s', OutOfFuel)
  end.
Notation "'do*' x ':=' m 'in' k" := (andthen m (fun x => k))
  (at level 200, x name, m at level 100, k at level 200).
Notation "'do*' ' p ':=' m 'in' k" := (andthen m (fun p => k))
  (at level 200, p strict pattern, m at level 100, k at level 200).

Section Obj.
Context (unit : text).   (* Config.Indent *)

(** compiler/compiler.go:51-54  fprint of a formatted string, and :47-49 fprintln. *)
Definition m_fprint (s : text) : M Datatypes.unit := fun k =>
  (mkCState (k_indent k) (k_buffer k ++ concat (repeat unit (k_indent k)) ++ s), Ok tt).
Definition m_fprintln (s : text) : M Datatypes.unit := m_fprint (s ++ [10]).
(** compiler/compiler.go:60-64 and 56-58: trimLineBreak and writeString(")\n"). *)
Definition m_close : M Datatypes.unit := fun k => (mkCState (k_indent k) (trim_line_break (k_buffer k) ++ [41; 10]), Ok tt).
(** c.indent++ and c.indent--. *)
Definition m_inc : M Datatypes.unit := fun k => (mkCState (S (k_indent k)) (k_buffer k), Ok tt).
Definition m_dec : M Datatypes.unit := fun k => (mkCState (pred (k_indent k)) (k_buffer k), Ok tt).

Section Lists.
Context (f : node -> M (bool * node)) (g : node -> M node).
(** compiler/compiler.go:74-79, 86-93: statements until the first error. *)
Fixpoint m_list (l : list node) : M (bool * list node) :=
  match l with
  | [] => ret (false, [])
  | x :: t =>
    do* '(err, x') := f x in
    if err then ret (true, x' :: t) else do* '(err', t') := m_list t in ret (err', x' :: t')
  end.
(** The ElseIf and Catch lists. *)
Fixpoint m_parts (l : list node) : M (list node) :=
  match l with
  | [] => ret []
  | x :: t => do* x' := g x in do* t' := m_parts t in ret (x' :: t')
  end.
End Lists.

(** compiler/compiler.go:66-372: compile, compileExcommand and the functions for the
    statements, with the changes of c.indent in the order of the code. The functions without
    a body do not change it; their texts are those of [Compiler.comp]. *)
Fixpoint m_comp (n : node) : M (bool * node) :=
  let body := fun l => do* '(_, l') := m_list m_comp l in ret l' in
  match n with
  | NFile p b => do* '(err, b') := m_list m_comp b in ret (err, NFile p b')
  | NFunction p e b name ps da a en =>
    do* _ := m_fprint (T "(function (" ++ compile_oexpr name) in
    let ps' := cut_dots ps in
    do* _ := (if is_nil ps then ret tt
             else do* _ := m_fprint [32] in
                  m_fprint (join [32] (param_texts 0 (length ps') (length da) (map ident_name ps') da
                                       ++ if ends_dots ps then [T ". ..."] else []))) in
    do* _ := m_fprintln (T ")") in
    do* _ := m_inc in do* b' := body b in do* _ := m_close in do* _ := m_dec in
    ret (false, NFunction p e b' name ps' da a en)
  | NIf p e b c eis el en =>
    do* cn := lift (cmd_name e) in
    do* _ := m_fprintln (T "(" ++ cn ++ [32] ++ compile_oexpr c) in
    do* _ := m_inc in do* b' := body b in do* _ := m_dec in
    do* eis' := m_parts (fun x =>
      match x with
      | NElseIf p e b c =>
        do* cn := lift (cmd_name e) in
        do* _ := m_fprintln (T " " ++ cn ++ [32] ++ compile_oexpr c) in
        do* _ := m_inc in do* b' := body b in do* _ := m_dec in ret (NElseIf p e b' c)
      | _ => lift (Panic PType)
      end) eis in
    do* el' := match el with
      | None => ret None
      | Some (NElse p e b) =>
        do* cn := lift (cmd_name e) in do* _ := m_fprintln (T " " ++ cn) in
        do* _ := m_inc in do* b' := body b in do* _ := m_dec in ret (Some (NElse p e b'))
      | Some _ => lift (Panic PType)
      end in
    do* _ := m_close in ret (false, NIf p e b' c eis' el' en)
  | NWhile p e b c en =>
    do* cn := lift (cmd_name e) in
    do* _ := m_fprintln (T "(" ++ cn ++ [32] ++ compile_oexpr c) in
    do* _ := m_inc in do* b' := body b in do* _ := m_close in do* _ := m_dec in ret (false, NWhile p e b' c en)
  | NFor p e b l ls rs r en =>
    do* cn := lift (cmd_name e) in
    do* _ := m_fprintln (T "(" ++ cn ++ [32] ++ compile_lhs l ls rs ++ [32] ++ compile_oexpr r) in
    do* _ := m_inc in do* b' := body b in do* _ := m_close in do* _ := m_dec in ret (false, NFor p e b' l ls rs r en)
  | NTry p e b cs fi en =>
    do* cn := lift (cmd_name e) in
    do* _ := m_fprintln (T "(" ++ cn) in
    do* _ := m_inc in do* b' := body b in
    do* cs' := m_parts (fun x =>
      match x with
      | NCatch p e b pat =>
        do* _ := m_dec in do* cn := lift (cmd_name e) in
        do* _ := m_fprintln (T " " ++ cn ++ if is_nil pat then [] else T " /" ++ pat ++ T "/") in
        do* _ := m_inc in do* b' := body b in ret (NCatch p e b' pat)
      | _ => lift (Panic PType)
      end) cs in
    do* fi' := match fi with
      | None => ret None
      | Some (NFinally p e b) =>
        do* _ := m_dec in do* cn := lift (cmd_name e) in do* _ := m_fprintln (T " " ++ cn) in
        do* _ := m_inc in do* b' := body b in ret (Some (NFinally p e b'))
      | Some _ => lift (Panic PType)
      end in
    do* _ := m_close in do* _ := m_dec in ret (false, NTry p e b' cs' fi' en)
  | _ => fun s =>
    match comp unit (k_indent s) n (k_buffer s) with
    | Ok (buf, err, n') => (mkCState (k_indent s) buf, Ok (err, n'))
    | PErr e => (s, PErr e) | Panic k => (s, Panic k) | OutOfFuel => (s, OutOfFuel)
    end
  end.
End Obj.

(** An io.Writer during one call: given the bytes, how many it says it has taken and whether
    it returns an error. *)
Definition writer := list N -> nat * bool.

(** What a call of Compile or Fprint ends with: nil, or the error about a node, or the error
    of the writer, or io.ErrShortWrite; or a panic (of the compiler or printer, or of
    bytes.Buffer about a writer that takes more than it is given). *)
Inductive ending := Nil | NodeError | WriterError | ShortWrite | Panicked (k : panic_kind) | BadCount | Endless.
(** The calls of Write that were made, in order, and the end. *)
Definition effect := (list (list N) * ending)%type.

(** io.Copy(w, buffer), that is bytes.Buffer.WriteTo: no call if there is nothing to write. *)
Definition write_to (w : writer) (bs : list N) : effect :=
  match bs with
  | [] => ([], Nil)
  | _ => let (m, err) := w bs in
         ([bs], if (length bs <? m)%nat then BadCount else if err then WriterError
                else if (m =? length bs)%nat then Nil else ShortWrite)
  end.

(** A Compiler: its Config and its state. *)
Record compiler := mkCompiler { o_unit : text; o_state : cstate }.
(** &Compiler{Config: Config{Indent: unit}} *)
Definition new_compiler (unit : text) : compiler := mkCompiler unit (mkCState 0 []).

(** compiler/compiler.go:36-45  ( *Compiler ).Compile. *)
Definition compiler_compile (c : compiler) (w : writer) (n : node) : compiler * effect :=
  match m_comp (o_unit c) n (mkCState (k_indent (o_state c)) []) with
  | (s, Ok (err, _)) =>
    (mkCompiler (o_unit c) s, if err then ([], NodeError) else write_to w (encode (k_buffer s)))
  | (s, Panic k) => (mkCompiler (o_unit c) s, ([], Panicked k))
  | (s, _) => (mkCompiler (o_unit c) s, ([], Endless))
  end.

(** printer/printer.go:27-37  Fprint; output.Write is called also with nothing to write, and
    the count it returns is not looked at. *)
Definition fprint_to (w : writer) (n : node) : effect :=
  match Fprint n with
  | Ok (Printed s) => ([encode s], if snd (w (encode s)) then WriterError else Nil)
  | Ok NotImplemented => ([], NodeError)
  | Panic k => ([], Panicked k)
  | _ => ([], Endless)
  end.
