(** Property theorems: totality and errors. *)
From Verif Require Import Base CharClass Reader Ast Script Api ApiExpr ApiFile.

(** C02: ParseExpr returns an expression or an ErrVimlParser, for every input: no other
    panic, no divergence. *)
Theorem C02_ParseExpr_total : forall src : source,
  (exists n, ParseExpr src = Returned (Some n) /\ is_expr n = true) \/
  (exists off line col msg, ParseExpr src = Failed (ErrVimlParser [] off line col msg)).
Proof. exact ParseExpr_total. Qed.
Print Assumptions C02_ParseExpr_total.

(** Both cases occur. *)
Example C02_value : exists n, ParseExpr (mkSource (T "a + f(1)[2]") false) = Returned (Some n).
Proof. eexists; vm_compute; reflexivity. Qed.
Example C02_error : exists o l c m,
  ParseExpr (mkSource (T "a + f(1") false) = Failed (ErrVimlParser [] o l c m).
Proof. do 4 eexists; vm_compute; reflexivity. Qed.

(** C01: ParseFile reaches a result on every input ([NoResult] is a call that does not
    return). *)
Theorem C01_ParseFile_terminates : forall (src : source) (file : list N) (opt : option parse_option),
  ParseFile src file opt <> NoResult.
Proof. exact ParseFile_returns. Qed.
Print Assumptions C01_ParseFile_terminates.
Example C01_case : exists p b, ParseFile (mkSource (T "while 1|if x|break|endif|endwhile") false) [] None
  = Returned (NFile p b).
Proof. do 2 eexists; vm_compute; reflexivity. Qed.

(** C03: ParseFile returns a file, an ErrVimlParser carrying the given file name, or the
    error of a decimal number above 2147483647; no other panic, on any input. *)
Theorem C03_ParseFile_errors : forall (src : source) (file : list N) (opt : option parse_option),
  (exists p body, ParseFile src file opt = Returned (NFile p body)) \/
  (exists off line col msg, ParseFile src file opt = Failed (ErrVimlParser file off line col msg)) \/
  (exists s, Forall (fun d => isdigit d = true) s /\ s <> [] /\ 2147483647 < decimal s /\
     ParseFile src file opt = Failed (ErrOther (PStr2nr s))).
Proof. exact ParseFile_errors. Qed.
Print Assumptions C03_ParseFile_errors.
(** The other two cases occur. *)
Example C03_error : exists o l c m, ParseFile (mkSource (T "while 1") false) (T "f.vim") None
  = Failed (ErrVimlParser (T "f.vim") o l c m).
Proof. do 4 eexists; vm_compute; reflexivity. Qed.
Example C03_overflow : ParseFile (mkSource (T "lockvar 2147483648 x") false) [] None
  = Failed (ErrOther (PStr2nr (T "2147483648"))).
Proof. vm_compute; reflexivity. Qed.
