(** Specification: the tokens and the expression grammar of Vim script, as a relation
    between a place in the text, a tree and the place after the expression. It is
    written after ":help expression-syntax" and independently of the parser functions;
    the only model definitions it uses are the trees and the character classes. *)
From Verif Require Import Base CharClass Reader Vnode Cursor.

(** * Tokens *)

Definition cmp_symbol (o : cmpop) : text :=
  match o with
  | OEq => T "==" | ONeq => T "!=" | OGt => T ">" | OGtEq => T ">=" | OLt => T "<"
  | OLtEq => T "<=" | OMatch => T "=~" | ONoMatch => T "!~" | OIs => T "is" | OIsNot => T "isnot"
  end.
Definition mode_symbol (m : cmode) : text :=
  match m with MNone => [] | MCi => T "?" | MCs => T "#" end.

(** The spelling of the tokens that have a single one. *)
Definition spelling (k : tok) : option text :=
  match k with
  | KCmp o m => Some (cmp_symbol o ++ mode_symbol m)
  | KOrOr => Some (T "||") | KAndAnd => Some (T "&&") | KPlus => Some (T "+")
  | KMinus => Some (T "-") | KDot => Some (T ".") | KStar => Some (T "*")
  | KSlash => Some (T "/") | KPercent => Some (T "%") | KNot => Some (T "!")
  | KQuestion => Some (T "?") | KColon => Some (T ":") | KPOpen => Some (T "(")
  | KPClose => Some (T ")") | KSqOpen => Some (T "[") | KSqClose => Some (T "]")
  | KCOpen => Some (T "{") | KCClose => Some (T "}") | KComma => Some (T ",")
  | KSQuote => Some (T "'") | KDQuote => Some (T """") | KEq => Some (T "=")
  | KOr => Some (T "|") | KSemicolon => Some (T ";") | KBacktick => Some (T "`")
  | KDotDotDot => Some (T "...") | KSharp => Some (T "#") | KArrow => Some (T "->")
  | KLitCOpen => Some (T "#{") | KDotDot => Some (T "..")
  | KEof | KEol | KSpace | KNumber | KOption | KIdent | KEnv | KReg | KBlob => None
  end.

(** One or more characters of a class. *)
Definition some_of (f : N -> bool) (s : text) : Prop := s <> [] /\ forallb f s = true.
Definition isbdigit (r : N) : bool := (r =? C "0") || (r =? C "1").

Inductive number_text : text -> Prop :=
| num_int s : some_of isdigit s -> number_text s
| num_frac a b : some_of isdigit a -> some_of isdigit b -> number_text (a ++ T "." ++ b)
| num_exp a b e sg x : some_of isdigit a -> some_of isdigit b ->
    In e [C "e"; C "E"] -> In sg [[]; T "-"; T "+"] -> some_of isdigit x ->
    number_text (a ++ T "." ++ b ++ e :: sg ++ x)
| num_hex x s : In x [C "x"; C "X"] -> some_of isxdigit s -> number_text (C "0" :: x :: s)
| num_bin x s : In x [C "b"; C "B"] -> some_of isbdigit s -> number_text (C "0" :: x :: s).

(** Pairs of hexadecimal digits, with single dots between them; the last dot may be
    followed by nothing. *)
Inductive blob_text : text -> Prop :=
| blob_nil : blob_text []
| blob_pair a b s : isxdigit a = true -> isxdigit b = true -> blob_text s -> blob_text (a :: b :: s)
| blob_dot s : blob_text s -> hd_error s <> Some (C ".") -> blob_text (C "." :: s).

(** [s] is a token of kind [k]. *)
Definition lexeme (k : tok) (s : text) : Prop :=
  match spelling k with
  | Some w => s = w
  | None =>
    match k with
    | KNumber => number_text s
    | KBlob => exists z b, In z [C "z"; C "Z"] /\ blob_text b /\ hd_error b <> Some (C ".") /\
                           s = C "0" :: z :: b
    | KIdent => exists r w, s = r :: w /\ isnamec1 r = true /\ forallb isnamec w = true
    | KOption => exists sc w, In sc [[]; T "g:"; T "l:"] /\ forallb iswordc w = true /\
                              s = C "&" :: sc ++ w
    | KEnv => exists w, forallb iswordc w = true /\ s = C "$" :: w
    | KReg => exists w, (length w <= 1)%nat /\ s = C "@" :: w
    | _ => False
    end
  end.

(** [blank c d]: only blanks between [c] and [d], and no blank at [d]. *)
Definition blank (c d : cursor) : Prop :=
  exists ws, spells ws c d /\ forallb iswhite ws = true /\
             (forall r, peek1 d = Some r -> iswhite r = false).

(** [token_at c t c']: after optional blanks, [t] is a token of the text at [c], it
    carries the position of its first character, and [c'] is the place behind it. *)
Definition token_at (c : cursor) (t : token) (c' : cursor) : Prop :=
  exists d, blank c d /\ tp t = getpos d /\
    match tk t with
    | KEof => is_eof d = true /\ c' = d /\ tv t = T "<EOF>"
    | KEol => (exists p, d = Cons EOL p c') /\ tv t = T "<EOL>"
    | k => spells (tv t) d c' /\ lexeme k (tv t)
    end.

(** A token of kind [k] at position [p]. *)
Definition tok_at (k : tok) (c : cursor) (p : pos) (c' : cursor) : Prop :=
  exists t, token_at c t c' /\ tk t = k /\ tp t = p.

(** * Expressions *)

(** Binary operators of each level; ":help expr2" to "expr6". *)
Definition level_op (l : nat) (k : tok) : option binop :=
  match l, k with
  | 2%nat, KOrOr => Some BOr
  | 3%nat, KAndAnd => Some BAnd
  | 5%nat, KPlus => Some BAdd
  | 5%nat, KMinus => Some BSub
  | 5%nat, KDot => Some BConcat
  | 5%nat, KDotDot => Some BConcat
  | 6%nat, KStar => Some BMul
  | 6%nat, KSlash => Some BDiv
  | 6%nat, KPercent => Some BRem
  | _, _ => None
  end.

Definition prefix_op (k : tok) : option unop :=
  match k with KNot => Some UNot | KMinus => Some UMinus | KPlus => Some UPlus | _ => None end.

(** Single-token operands. *)
Definition simple_lit (k : tok) : option litkind :=
  match k with
  | KNumber => Some LNumber | KBlob => Some LBlob | KOption => Some LOption
  | KEnv => Some LEnv | KReg => Some LReg | _ => None
  end.

(** The body of a double-quoted string: no bare double quote, backslash escapes the
    next character. *)
Inductive dq_body : text -> Prop :=
| dq_nil : dq_body []
| dq_char r s : r <> C """" -> r <> 92 -> dq_body s -> dq_body (r :: s)
| dq_esc r s : dq_body s -> dq_body (92 :: r :: s).

(** The body of a single-quoted string: quotes are doubled. *)
Inductive sq_body : text -> Prop :=
| sq_nil : sq_body []
| sq_char r s : r <> C "'" -> sq_body s -> sq_body (r :: s)
| sq_quote s : sq_body s -> sq_body (C "'" :: C "'" :: s).

Definition string_text (s : text) : Prop :=
  (exists b, dq_body b /\ s = T """" ++ b ++ T """") \/
  (exists b, sq_body b /\ s = T "'" ++ b ++ T "'").

(** A key of a #{} dictionary. *)
Definition litkey_text (s : text) : Prop :=
  some_of (fun r => isalnum r || (r =? C "_") || (r =? C "-")) s.

(** Lambda parameters: distinct plain names, then possibly "...". *)
Definition is_param (v : vnode) : Prop :=
  match v with VIdent _ s => isargname s = true | _ => False end.
Definition is_rest (v : vnode) : Prop :=
  match v with VIdent _ s => s = T "..." | _ => False end.
Definition name_of (v : vnode) : text := match v with VIdent _ s => s | _ => [] end.
Definition lambda_params (vs : list vnode) : Prop :=
  exists ps rest, vs = ps ++ rest /\ Forall is_param ps /\ NoDup (map name_of ps) /\
    (rest = [] \/ exists v, rest = [v] /\ is_rest v).

(** The parameters of a lambda and the arrow, read from [c] up to [c']. *)
Inductive dparams : cursor -> list vnode -> cursor -> Prop :=
| dp_nil c p c' : tok_at KArrow c p c' -> dparams c [] c'
| dp_last c t c1 p c' : token_at c t c1 -> tk t = KIdent ->
    tok_at KArrow c1 p c' -> dparams c [VIdent (tp t) (tv t)] c'
| dp_cons c t c1 p c2 vs c' : token_at c t c1 -> tk t = KIdent ->
    tok_at KComma c1 p c2 -> dparams c2 vs c' ->
    dparams c (VIdent (tp t) (tv t) :: vs) c'
| dp_rest c t c1 p c' : token_at c t c1 -> tk t = KDotDotDot ->
    tok_at KArrow c1 p c' -> dparams c [VIdent (tp t) (tv t)] c'.

(** "<SID>" in any case. *)
Definition is_sid (s : text) : Prop := equalci s (T "<SID>") = true.

(** A name without braces starts with a letter or an underscore, or it is "<SID>". *)
Definition name_text (s : text) : Prop :=
  (exists r w, s = r :: w /\ isnamec1 r = true /\ forallb isnamec w = true) \/ is_sid s.

(** To the left of a member access. *)
Definition dot_base (v : vnode) : Prop :=
  match v with
  | VIdent _ _ | VCurlyName _ _ | VDict _ _ | VSubscript _ _ _ | VCall _ _ _ | VDot _ _ _ => True
  | _ => False
  end.

Definition no_blank (c : cursor) : Prop := forall r, peek1 c = Some r -> iswhite r = false.

(** [dexpr l c v c']: the text from [c] to [c'] is an expression of level [l] (1 is the
    lowest precedence, 9 an operand) and [v] is its tree. *)
Inductive dexpr : nat -> cursor -> vnode -> cursor -> Prop :=
| d_up l c v c' : (1 <= l <= 8)%nat -> dexpr (S l) c v c' -> dexpr l c v c'
| d_ternary c a c1 p c2 b c3 q c4 e c' :
    dexpr 2 c a c1 -> tok_at KQuestion c1 p c2 -> dexpr 1 c2 b c3 ->
    tok_at KColon c3 q c4 -> dexpr 1 c4 e c' -> dexpr 1 c (VTernary p a b e) c'
| d_binary l o c a c1 k p c2 b c' :
    dexpr l c a c1 -> tok_at k c1 p c2 -> level_op l k = Some o -> dexpr (S l) c2 b c' ->
    dexpr l c (VBin o p a b) c'
| d_compare c a c1 o m p c2 b c' :
    dexpr 5 c a c1 -> tok_at (KCmp o m) c1 p c2 -> dexpr 5 c2 b c' ->
    dexpr 4 c (VBin (BCmp o m) p a b) c'
| d_unary c k o p c1 a c' :
    tok_at k c p c1 -> prefix_op k = Some o -> dexpr 7 c1 a c' -> dexpr 7 c (VUn o p a) c'
| d_subscript c a c1 p c2 b c3 q c' :
    dexpr 8 c a c1 -> no_blank c1 -> tok_at KSqOpen c1 p c2 -> dexpr 1 c2 b c3 ->
    tok_at KSqClose c3 q c' -> dexpr 8 c (VSubscript p a b) c'
| d_slice c a c1 p c2 x c3 q c4 y c5 r c' :
    dexpr 8 c a c1 -> no_blank c1 -> tok_at KSqOpen c1 p c2 -> dopt c2 x c3 ->
    tok_at KColon c3 q c4 -> dopt c4 y c5 -> tok_at KSqClose c5 r c' ->
    dexpr 8 c (VSlice p a x y) c'
| d_method c a c1 p c2 f c3 q c4 args c' :
    dexpr 8 c a c1 -> tok_at KArrow c1 p c2 -> dexpr 9 c2 f c3 ->
    tok_at KPOpen c3 q c4 -> dlist KPClose c4 args c' -> (length args <= 20)%nat ->
    dexpr 8 c (VMethod q a (VCall q f args)) c'
| d_call c a c1 p c2 args c' :
    dexpr 8 c a c1 -> tok_at KPOpen c1 p c2 -> dlist KPClose c2 args c' ->
    (length args <= 20)%nat -> dexpr 8 c (VCall p a args) c'
| d_dot c a c1 p c2 s c' :
    dexpr 8 c a c1 -> dot_base a -> no_blank c1 -> tok_at KDot c1 p c2 ->
    spells s c2 c' -> some_of iswordc s -> ch_in isnamec (peek c') = false ->
    dexpr 8 c (VDot p a (VIdent (getpos c2) s)) c'
| d_lit c t c' k : token_at c t c' -> simple_lit (tk t) = Some k ->
    (tv t = T "@" -> peek1 c' = None) ->      (* a bare @ only ends a line *)
    dexpr 9 c (VLit k (tp t) (tv t)) c'
| d_string c d s c' : blank c d -> spells s d c' -> string_text s ->
    dexpr 9 c (VLit LString (getpos d) s) c'
| d_list c p c1 vs c' : tok_at KSqOpen c p c1 -> dlist KSqClose c1 vs c' ->
    dexpr 9 c (VList p vs) c'
| d_dict (lit : bool) c p c1 kvs c' :
    tok_at (if lit then KLitCOpen else KCOpen) c p c1 -> dentries lit c1 kvs c' ->
    dexpr 9 c (VDict p kvs) c'
| d_lambda (lit : bool) c p c1 ps c2 body c3 q c' :
    tok_at (if lit then KLitCOpen else KCOpen) c p c1 -> dparams c1 ps c2 -> lambda_params ps ->
    dexpr 1 c2 body c3 -> tok_at KCClose c3 q c' -> dexpr 9 c (VLambda p ps body) c'
| d_paren c p c1 v c2 q c' : tok_at KPOpen c p c1 -> dexpr 1 c1 v c2 ->
    tok_at KPClose c2 q c' -> dexpr 9 c (VParen p v) c'
| d_name c d s c' q : blank c d -> dname d [VCurlyPart q s] c' -> name_text s ->
    dexpr 9 c (VIdent (getpos d) s) c'
| d_curly c d ps c' : blank c d -> dname d ps c' ->
    (forall q s, ps <> [VCurlyPart q s]) -> ps <> [] -> dexpr 9 c (VCurlyName (getpos d) ps) c'

(** An optional expression. *)
with dopt : cursor -> option vnode -> cursor -> Prop :=
| do_none c : dopt c None c
| do_some c v c' : dexpr 1 c v c' -> dopt c (Some v) c'

(** Comma-separated expressions up to the closing token [k]; a trailing comma is
    allowed. *)
with dlist : tok -> cursor -> list vnode -> cursor -> Prop :=
| dl_nil k c p c' : tok_at k c p c' -> dlist k c [] c'
| dl_last k c v c1 p c' : dexpr 1 c v c1 -> tok_at k c1 p c' -> dlist k c [v] c'
| dl_cons k c v c1 p c2 vs c' : dexpr 1 c v c1 -> tok_at KComma c1 p c2 ->
    dlist k c2 vs c' -> dlist k c (v :: vs) c'

(** Dictionary entries up to the closing brace. *)
with dentries : bool -> cursor -> list (vnode * vnode) -> cursor -> Prop :=
| de_nil l c p c' : tok_at KCClose c p c' -> dentries l c [] c'
| de_last l c k c1 p c2 v c3 q c' : dkey l c k c1 -> tok_at KColon c1 p c2 ->
    dexpr 1 c2 v c3 -> tok_at KCClose c3 q c' -> dentries l c [(k, v)] c'
| de_cons l c k c1 p c2 v c3 q c4 kvs c' : dkey l c k c1 -> tok_at KColon c1 p c2 ->
    dexpr 1 c2 v c3 -> tok_at KComma c3 q c4 -> dentries l c4 kvs c' ->
    dentries l c ((k, v) :: kvs) c'

(** A dictionary key: an expression, or a bare word in a #{} dictionary. The recorded
    position of a bare word is that of its second character. *)
with dkey : bool -> cursor -> vnode -> cursor -> Prop :=
| dk_expr c v c' : dexpr 1 c v c' -> dkey false c v c'
| dk_lit c d r x p t s c' : blank c d -> d = Cons x p t -> spells (r :: s) d c' ->
    litkey_text (r :: s) ->
    dkey true c (VLit LString (getpos t) (T "'" ++ (r :: s) ++ T "'")) c'

(** A name, possibly with braces: a sequence of parts without blanks. *)
with dname : cursor -> list vnode -> cursor -> Prop :=
| dn_plain c ps c' : dparts c ps c' -> dname c ps c'
| dn_sid c s c1 ps c' : spells s c c1 -> is_sid s -> dparts c1 ps c' ->
    dname c (VCurlyPart (getpos c) s :: ps) c'
with dparts : cursor -> list vnode -> cursor -> Prop :=
| dq_end c : dparts c [] c
| dq_word c s c1 ps c' : spells s c c1 -> some_of isnamec s -> dparts c1 ps c' ->
    dparts c (VCurlyPart (getpos c) s :: ps) c'
| dq_brace c c1 v c2 p c3 ps c' : spells (T "{") c c1 -> dexpr 1 c1 v c2 ->
    tok_at KCClose c2 p c3 -> dparts c3 ps c' ->
    dparts c (VCurlyExpr (getpos c1) v :: ps) c'.

Scheme dexpr_ind' := Induction for dexpr Sort Prop
with dopt_ind' := Induction for dopt Sort Prop
with dlist_ind' := Induction for dlist Sort Prop
with dentries_ind' := Induction for dentries Sort Prop
with dkey_ind' := Induction for dkey Sort Prop
with dname_ind' := Induction for dname Sort Prop
with dparts_ind' := Induction for dparts Sort Prop.
Combined Scheme dexpr_mutind from dexpr_ind', dopt_ind', dlist_ind', dentries_ind',
  dkey_ind', dname_ind', dparts_ind'.

(** * Targets of :let, :for, :unlet and :lockvar *)

(** [dlval c v c']: names, options, environment variables and registers, with
    subscripts, slices and members. *)
Inductive dlval : cursor -> vnode -> cursor -> Prop :=
| lv_lit c t c' k : token_at c t c' -> In (tk t) [KOption; KEnv; KReg] ->
    simple_lit (tk t) = Some k -> dlval c (VLit k (tp t) (tv t)) c'
| lv_name c d s c' q : blank c d -> dname d [VCurlyPart q s] c' -> name_text s ->
    dlval c (VIdent (getpos d) s) c'
| lv_curly c d ps c' : blank c d -> dname d ps c' ->
    (forall q s, ps <> [VCurlyPart q s]) -> ps <> [] -> dlval c (VCurlyName (getpos d) ps) c'
| lv_subscript c a c1 p c2 b c3 q c' :
    dlval c a c1 -> no_blank c1 -> tok_at KSqOpen c1 p c2 -> dexpr 1 c2 b c3 ->
    tok_at KSqClose c3 q c' -> dlval c (VSubscript p a b) c'
| lv_slice c a c1 p c2 x c3 q c4 y c5 r c' :
    dlval c a c1 -> no_blank c1 -> tok_at KSqOpen c1 p c2 -> dopt c2 x c3 ->
    tok_at KColon c3 q c4 -> dopt c4 y c5 -> tok_at KSqClose c5 r c' ->
    dlval c (VSlice p a x y) c'
| lv_dot c a c1 p c2 s c' :
    dlval c a c1 -> dot_base a -> no_blank c1 -> tok_at KDot c1 p c2 ->
    spells s c2 c' -> some_of iswordc s -> ch_in isnamec (peek c') = false ->
    dlval c (VDot p a (VIdent (getpos c2) s)) c'.
