(** The expression printer: package printer. *)
From Verif Require Import Base Vnode Token Ast.

(** printer/opprec.go:11-73  opprec. *)
Definition binprec (op : gtok) : option nat :=
  match op with
  | TOROR => Some 2%nat
  | TANDAND => Some 3%nat
  | TEQEQ | TEQEQCI | TEQEQCS | TNEQ | TNEQCI | TNEQCS | TGT | TGTCI | TGTCS | TGTEQ | TGTEQCI
  | TGTEQCS | TLT | TLTCI | TLTCS | TLTEQ | TLTEQCI | TLTEQCS | TMATCHCS | TNOMATCH | TNOMATCHCI
  | TNOMATCHCS | TIS | TISCI | TISCS | TISNOT | TISNOTCI | TISNOTCS => Some 4%nat
  | TPLUS | TMINUS | TDOT => Some 5%nat
  | TSTAR | TSLASH | TPERCENT => Some 6%nat
  | _ => None
  end.
Definition opprec (n : node) : outcome nat :=
  match n with
  | NTernary _ _ _ _ | NParen _ _ => Ok 1%nat
  | NBinary _ _ op _ => match binprec op with Some p => Ok p | None => Panic PUnknownToken end
  | NUnary _ op _ => match op with TNOT | TMINUS | TPLUS => Ok 7%nat | _ => Panic PUnknownToken end
  | NSubscript _ _ _ | NSlice _ _ _ _ | NCall _ _ _ | NDot _ _ _ | NMethod _ _ _ _ => Ok 8%nat
  | NBasicLit _ _ _ | NIdent _ _ | NList _ _ | NDict _ _ | NCurlyName _ _ | NHeredoc _ _ _ _ => Ok 9%nat
  | _ => Panic PUnknownToken
  end.

Definition is_paren (n : node) : bool := match n with NParen _ _ => true | _ => false end.

(** printer/expr.go:10-85  expr, expr1, binaryExpr, unaryExpr. The text printed is returned.
    The recursive call p.expr(x) on the node itself inside parentheses is unfolded: with
    prec1 = 0 the test prec < prec1 is false. A nil operand is the case "default". *)
Fixpoint print_expr (n : node) (prec1 : nat) : outcome text :=
  let px := fun o pr => match o with None => Panic PUnknownToken | Some x => print_expr x pr end in
  match n with
  | NBinary l _ op r =>
    let* prec := opprec n in
    let* s := (let* a := px l prec in
               let* b := px r (S prec) in
               Ok (a ++ [32] ++ token_string op ++ [32] ++ b)) in
    if (prec <? prec1)%nat then Ok (token_string TPOPEN ++ s ++ token_string TPCLOSE) else Ok s
  | NUnary _ op x =>
    let* prec := opprec n in
    let* s := (let* a := px x prec in Ok (token_string op ++ a)) in
    if (prec <? prec1)%nat then Ok (token_string TPOPEN ++ s ++ token_string TPCLOSE) else Ok s
  | NSubscript _ l r =>
    let* prec := opprec n in
    let* a := px l prec in
    let* b := px r 0%nat in
    Ok (a ++ token_string TSQOPEN ++ b ++ token_string TSQCLOSE)
  | NBasicLit _ _ v => Ok v
  | NIdent _ s => Ok s
  | NParen _ x =>
    let* a := px x 0%nat in
    match x with
    | Some (NParen _ _) => Ok a
    | _ => Ok (token_string TPOPEN ++ a ++ token_string TPCLOSE)
    end
  | _ => Panic PUnknownToken
  end.

(** What Fprint delivers: the text written, or an error value. *)
Inductive fprint_result := Printed (s : text) | NotImplemented.

(** printer/printer.go:27-37 Fprint, :64-84 printNode, file, stmt; writing to the output is
    assumed to succeed. A panic is not recovered. *)
Definition Fprint (n : node) : outcome fprint_result :=
  if is_expr n then let* s := print_expr n 0 in Ok (Printed s) else Ok NotImplemented.
