(** Basic vocabulary of the model: text, positions, outcomes. *)
From Coq Require Export List NArith ZArith Bool.
From Coq Require Ascii String.
Export (notations) Ascii String.
Export ListNotations.
#[export] Set Warnings "-notation-overridden".
Open Scope list_scope.
Open Scope N_scope.

(** A Go string built by the parser is a concatenation of [string(rune)] values;
    it is represented by the list of its code points. The bytes of the Go string
    are the UTF-8 encoding of this list (see [Utf8.encode]). *)
Definition text := list N.

Definition text_of_string (s : String.string) : text := map Ascii.N_of_ascii (String.list_ascii_of_string s).

(** [T "abc"] is the literal text, [C "x"] the code of a character (both are
    evaluated when the definition using them is elaborated). *)
Notation "'T' s" := (ltac:(let x := eval vm_compute in (text_of_string s%string) in exact x))
  (at level 10, s at level 9, only parsing).
Notation "'C' s" := (ltac:(let x := eval vm_compute in (Ascii.N_of_ascii s%char) in exact x))
  (at level 10, s at level 9, only parsing).

Fixpoint text_eqb (a b : text) : bool :=
  match a, b with
  | [], [] => true
  | x :: a', y :: b' => (x =? y) && text_eqb a' b'
  | _, _ => false
  end.

Definition is_nil {A} (l : list A) : bool := match l with [] => true | _ => false end.

Fixpoint mem_N (x : N) (l : list N) : bool :=
  match l with [] => false | y :: l' => (x =? y) || mem_N x l' end.

Fixpoint mem_text (x : text) (l : list text) : bool :=
  match l with [] => false | y :: l' => text_eqb x y || mem_text x l' end.

(** strings.Index(a, b) == 0: b is a prefix of a. *)
Fixpoint is_prefix (b a : text) : bool :=
  match b, a with
  | [], _ => true
  | x :: b', y :: a' => (x =? y) && is_prefix b' a'
  | _ :: _, [] => false
  end.

Fixpoint lastn_opt {A} (l : list A) : option A :=
  match l with [] => None | [x] => Some x | _ :: l' => lastn_opt l' end.

(** go/type.go:89-94  struct pos. *)
Record pos := mkPos { p_i : N; p_lnum : N; p_col : N; p_off : N }.

(** go/type.go:324-329  struct ParseError. *)
Record parse_error := mkErr { e_off : N; e_line : N; e_col : N; e_msg : text }.

(** go/type.go:335-337  Err: the Offset field receives pos.i, the index in the
    reader's buffer. *)
Definition Err_ (msg : text) (p : pos) : parse_error :=
  mkErr (p_i p) (p_lnum p) (p_col p) msg.

(** Go panics whose value is not a ParseError. *)
Inductive panic_kind :=
| PIndex          (* runtime error: index out of range *)
| PNil            (* runtime error: nil dereference *)
| PType           (* failed type assertion *)
| PStr2nr (s : text)      (* viml_str2nr: strconv.ParseInt error (go/vimlfunc.go:141-147) *)
| PNotReached     (* panic("NOT REACHED") *)
| PUnknownParser  (* panic("unknown parser: ...") *)
| PUnknownToken.  (* printer: unexpected token / node type *)

Inductive outcome (A : Type) :=
| Ok (a : A)
| PErr (e : parse_error)       (* panic( *ParseError ) *)
| Panic (k : panic_kind)       (* any other panic *)
| OutOfFuel.                   (* artefact of the model; excluded by theorem *)
Arguments Ok {A} a.
Arguments PErr {A} e.
Arguments Panic {A} k.
Arguments OutOfFuel {A}.

Definition bind {A B} (m : outcome A) (k : A -> outcome B) : outcome B :=
  match m with
  | Ok a => k a
  | PErr e => PErr e
  | Panic p => Panic p
  | OutOfFuel => OutOfFuel
  end.

Notation "'let*' x ':=' m 'in' k" := (bind m (fun x => k))
  (at level 200, x name, m at level 100, k at level 200).
Notation "'let*' ' p ':=' m 'in' k" := (bind m (fun p => k))
  (at level 200, p strict pattern, m at level 100, k at level 200).

Definition raise {A} (msg : text) (p : pos) : outcome A := PErr (Err_ msg p).
