(** What Go's fmt.Fprintf writes for a format and no arguments, said by the forms of the
    pieces of the format (documentation of package fmt, "Printing" and "Format errors").
    As in [Compiler.sprintf0] the verb forms with "*" and "[" are not told from other verbs. *)
From Verif Require Import Base Compiler.

(** Flags, then a width, then a precision. *)
Definition verb_spec (s : text) : Prop := exists flags width prec, s = flags ++ width ++ prec /\
  Forall (fun c => In c (T "#0+- ")) flags /\ Forall (fun c => In c (T "0123456789")) width /\
  (prec = [] \/ exists ds, prec = C "." :: ds /\ Forall (fun c => In c (T "0123456789")) ds).

Inductive formatted : text -> text -> Prop :=
| fm_end : formatted [] []
| fm_plain c f o : c <> C "%" -> formatted f o -> formatted (c :: f) (c :: o)
| fm_percent s f o : verb_spec s -> formatted f o -> formatted (C "%" :: s ++ C "%" :: f) (C "%" :: o)
| fm_verb s v f o : verb_spec s -> ~ verb_spec (s ++ [v]) -> v <> C "%" -> formatted f o ->
    formatted (C "%" :: s ++ v :: f) (T "%!" ++ [v] ++ T "(MISSING)" ++ o)
| fm_none s : verb_spec s -> formatted (C "%" :: s) (T "%!(NOVERB)").
