(** Specification: how an expression of the syntax tree package can be written, as a
    relation between trees and texts. It is the grammar of ":help expression-syntax",
    with blanks wherever two words would run together. It mentions neither the tokenizer
    nor the parser. *)
From Verif Require Import Base CharClass Vnode Token Ast Grammar Join.

(** A tree without its positions and file names. *)
Definition nowhere (p : apos) : apos := mkAPos 0 0 0 [].
Definition unplaced : node -> node := map_node nowhere.

(** Blanks. *)
Definition gap (w : text) : Prop := forallb iswhite w = true.
Definition gap1 (w : text) : Prop := gap w /\ w <> [].

(** The binary operators: precedence level, spelling, token of the tree. *)
Definition infix_ops : list (nat * text * gtok) :=
  [ (2, T "||", TOROR); (3, T "&&", TANDAND);
    (4, T "==", TEQEQ); (4, T "==?", TEQEQCI); (4, T "==#", TEQEQCS);
    (4, T "!=", TNEQ); (4, T "!=?", TNEQCI); (4, T "!=#", TNEQCS);
    (4, T ">", TGT); (4, T ">?", TGTCI); (4, T ">#", TGTCS);
    (4, T ">=", TGTEQ); (4, T ">=?", TGTEQCI); (4, T ">=#", TGTEQCS);
    (4, T "<", TLT); (4, T "<?", TLTCI); (4, T "<#", TLTCS);
    (4, T "<=", TLTEQ); (4, T "<=?", TLTEQCI); (4, T "<=#", TLTEQCS);
    (4, T "=~", TMATCH); (4, T "=~?", TMATCHCI); (4, T "=~#", TMATCHCS);
    (4, T "!~", TNOMATCH); (4, T "!~?", TNOMATCHCI); (4, T "!~#", TNOMATCHCS);
    (4, T "is", TIS); (4, T "is?", TISCI); (4, T "is#", TISCS);
    (4, T "isnot", TISNOT); (4, T "isnot?", TISNOTCI); (4, T "isnot#", TISNOTCS);
    (5, T "+", TPLUS); (5, T "-", TMINUS); (5, T ".", TDOT); (5, T "..", TDOT);
    (6, T "*", TSTAR); (6, T "/", TSLASH); (6, T "%", TPERCENT) ]%nat.

(** Binary operators associate to the left, except comparisons, which do not associate. *)
Definition left_level (l : nat) : nat := match l with 4%nat => 5%nat | _ => l end.

Definition prefix_ops : list (text * gtok) := [ (T "!", TNOT); (T "-", TMINUS); (T "+", TPLUS) ].

(** The literals. *)
Definition lit_text (k : gtok) (s : text) : Prop :=
  match k with
  | TNUMBER => number_text s
  | TBLOB => exists z b, In z [C "z"; C "Z"] /\ blob_text b /\ hd_error b <> Some (C ".") /\
                         last b 0 <> C "." /\ s = C "0" :: z :: b
  | TSTRING => string_text s
  | TOPTION => exists sc w, In sc [[]; T "g:"; T "l:"] /\ forallb iswordc w = true /\ s = C "&" :: sc ++ w
  | TENV => exists w, forallb iswordc w = true /\ s = C "$" :: w
  | TREG => exists w, (length w <= 1)%nat /\ s = C "@" :: w
  | _ => False
  end.

(** What a member can be selected from. *)
Definition has_members (n : node) : bool :=
  match n with
  | NIdent _ _ | NCurlyName _ _ | NDict _ _ | NSubscript _ _ _ | NCall _ _ _ | NDot _ _ _ => true
  | _ => false
  end.

(** ** Words that run together *)

(** The operand at the right end of a tree. *)
Fixpoint rightmost (n : node) : node :=
  match n with
  | NTernary _ _ _ (Some a) | NBinary _ _ _ (Some a) | NUnary _ _ (Some a) => rightmost a
  | _ => n
  end.

(** Whether the character [r], written directly after the operand [n], would be read as a
    part of it. The names [is] and [isnot] are also operators, which a question mark
    could follow. *)
Definition sticks (n : node) (r : N) : bool :=
  match n with
  | NIdent _ s => isnamec r || (r =? C "{") || (mem_text s [T "is"; T "isnot"] && (r =? C "?"))
  | NCurlyName _ _ => isnamec r || (r =? C "{")
  | NDot _ _ _ => isnamec r
  | NBasicLit _ TNUMBER _ | NBasicLit _ TBLOB _ => isalnum r || (r =? C ".")
  | NBasicLit _ TOPTION s => iswordc r || (r =? C ":") || (text_eqb s (T "&") && (r =? C "&"))
  | NBasicLit _ TENV _ => iswordc r
  | NBasicLit _ TSTRING s => (hd 0 s =? C "'") && (r =? C "'")
  | _ => false
  end.

(** [s] does not start with a character of the class [f]. *)
Definition head_not (f : N -> bool) (s : text) : Prop :=
  match s with r :: _ => f r = false | [] => True end.

(** After [n], the blanks [w] keep it apart from [s]. *)
Definition follows (n : node) (w s : text) : Prop :=
  w <> [] \/ head_not (sticks (rightmost n)) s.

(** Whether the character [r] directly after the operator [sp] makes another operator or
    a name of it. *)
Definition lengthens (sp : text) (r : N) : bool :=
  (mem_text sp [T "=="; T "!="; T ">"; T ">="; T "<"; T "<="; T "=~"; T "!~"; T "is"; T "isnot"] &&
   mem_N r (T "?#")) ||
  (mem_text sp [T "is"; T "isnot"] && iswordc r).

(** Whether [n] starts with a name and a method call on it. After an opening brace that
    is the start of a lambda. *)
Fixpoint method_on_name (n : node) : bool :=
  match n with
  | NMethod (Some (NIdent _ _)) _ _ _ => true
  | NMethod (Some a) _ _ _ | NTernary _ (Some a) _ _ | NBinary (Some a) _ _ _ | NSubscript _ (Some a) _
  | NSlice (Some a) _ _ _ | NCall (Some a) _ _ | NDot (Some a) _ _ => method_on_name a
  | _ => false
  end.

(** What can be written first after an opening brace, in a dictionary or a name. (The
    names starting with [is#] are left out: the parser looks ahead by two words and
    takes such a name for several.) *)
Definition brace_head (n : node) (s : text) : Prop :=
  method_on_name n = false /\ (forall s', s <> T "is#" ++ s') /\ (forall s', s <> T "isnot#" ++ s').

(** A key of a literal dictionary that does not look like a blob. The parser reads every
    key as a word first, and rejects a malformed blob there. *)
Definition no_blob (s : text) : Prop :=
  forall d z s', In d [T "0"; T "-0"] -> In z [C "z"; C "Z"] -> s <> d ++ z :: s'.

(** The parameters of a lambda. A comma follows its name directly. *)
Inductive written_params : list node -> text -> Prop :=
| wm_nil w : gap w -> written_params [] w
| wm_rest p w1 w2 : gap w1 -> gap w2 -> written_params [NIdent p (T "...")] (w1 ++ T "..." ++ w2)
| wm_last p s w1 w2 : isargname s = true -> ~ In s [T "is"; T "isnot"] -> gap w1 -> gap w2 ->
    written_params [NIdent p s] (w1 ++ s ++ w2)
| wm_cons p s w1 ps sp : isargname s = true -> ~ In s [T "is"; T "isnot"] -> gap w1 -> written_params ps sp ->
    written_params (NIdent p s :: ps) (w1 ++ s ++ T "," ++ sp).

Definition param_name (n : node) : text := match n with NIdent _ s => s | _ => [] end.

(** [written e l n s]: [s] is a text for [n] at precedence level [l], 1 being the lowest
    and 9 that of operands. If [e] is true, the text can only be written at the end of a
    line: it ends with a register without a name. The positions of [n] are arbitrary. *)
Inductive written : bool -> nat -> node -> text -> Prop :=
| wr_up e l n s : (1 <= l <= 8)%nat -> written e (S l) n s -> written e l n s
| wr_ternary e p a b d sa sb sd w1 w2 w3 w4 :
    written false 2 a sa -> written false 1 b sb -> written e 1 d sd ->
    gap w1 -> gap w2 -> gap w3 -> gap w4 -> follows a w1 (T "?") -> follows b w3 (T ":") ->
    written e 1 (NTernary p (Some a) (Some b) (Some d))
            (sa ++ w1 ++ T "?" ++ w2 ++ sb ++ w3 ++ T ":" ++ w4 ++ sd)
(** A dot before a word is an operator only after a blank, or after what has no members. *)
| wr_binary e l sp t p a b sa sb w1 w2 :
    In (l, sp, t) infix_ops -> written false (left_level l) a sa -> written e (S l) b sb ->
    gap w1 -> gap w2 -> follows a w1 sp -> head_not (lengthens sp) (w2 ++ sb) ->
    (sp = T "." -> w1 = [] -> has_members (rightmost a) = true -> head_not iswordc (w2 ++ sb)) ->
    written e l (NBinary (Some a) p t (Some b)) (sa ++ w1 ++ sp ++ w2 ++ sb)
| wr_unary e sp t p a sa w :
    In (sp, t) prefix_ops -> written e 7 a sa -> gap w ->
    written e 7 (NUnary p t (Some a)) (sp ++ w ++ sa)
| wr_subscript e p a b sa sb w1 w2 :
    written false 8 a sa -> written false 1 b sb -> gap w1 -> gap w2 ->
    written e 8 (NSubscript p (Some a) (Some b)) (sa ++ T "[" ++ w1 ++ sb ++ w2 ++ T "]")
| wr_slice e p a x y sa sx sy :
    written false 8 a sa -> written_bound true x sx -> written_bound false y sy ->
    written e 8 (NSlice (Some a) p x y) (sa ++ T "[" ++ sx ++ T ":" ++ sy ++ T "]")
| wr_method e p a f xs sa sf sx w1 w2 w3 :
    written false 8 a sa -> written false 9 f sf -> written_items xs sx ->
    (length xs <= 20)%nat -> gap w1 -> gap w2 -> gap w3 ->
    written e 8 (NMethod (Some a) (Some f) p xs)
            (sa ++ w1 ++ T "->" ++ w2 ++ sf ++ w3 ++ T "(" ++ sx ++ T ")")
| wr_call e p a xs sa sx w :
    written false 8 a sa -> written_items xs sx -> (length xs <= 20)%nat -> gap w ->
    written e 8 (NCall (Some a) p xs) (sa ++ w ++ T "(" ++ sx ++ T ")")
| wr_dot e p q a sa s :
    written false 8 a sa -> has_members a = true -> some_of iswordc s ->
    written e 8 (NDot (Some a) p (Some (NIdent q s))) (sa ++ T "." ++ s)
| wr_lit e p k s : lit_text k s -> (s = T "@" -> e = true) -> written e 9 (NBasicLit p k s) s
| wr_list e p xs sx : written_items xs sx -> written e 9 (NList p xs) (T "[" ++ sx ++ T "]")
| wr_paren e p a sa w1 w2 : written false 1 a sa -> gap w1 -> gap w2 ->
    written e 9 (NParen p (Some a)) (T "(" ++ w1 ++ sa ++ w2 ++ T ")")
| wr_name e p s : name_text s -> written e 9 (NIdent p s) s
| wr_dict e (lit : bool) p kvs sx : written_pairs lit true kvs sx ->
    written e 9 (NDict p kvs) ((if lit then T "#{" else T "{") ++ sx ++ T "}")
| wr_lambda e p ps a sp sa w1 w2 :
    written_params ps sp -> NoDup (map param_name ps) -> written false 1 a sa -> gap w1 -> gap w2 ->
    written e 9 (NLambda p ps (Some a)) (T "{" ++ sp ++ T "->" ++ w1 ++ sa ++ w2 ++ T "}")
(** A name with braces starts with a word, with "<SID>" or with a brace. *)
| wr_curly_word e p q r w ps sp : isnamec1 r = true -> forallb isnamec w = true ->
    written_parts true ps sp -> ps <> [] ->
    written e 9 (NCurlyName p (NCurlyLit q (r :: w) :: ps)) ((r :: w) ++ sp)
| wr_curly_sid e p q s ps sp : is_sid s -> written_parts false ps sp -> ps <> [] ->
    written e 9 (NCurlyName p (NCurlyLit q s :: ps)) (s ++ sp)
| wr_curly_brace e p q a sa w1 w2 ps sp :
    written false 1 a sa -> gap w1 -> gap w2 -> brace_head a sa -> written_parts false ps sp ->
    written e 9 (NCurlyName p (NCurlyExpr q (Some a) :: ps)) (T "{" ++ w1 ++ sa ++ w2 ++ T "}" ++ sp)

(** Expressions between brackets, separated by commas; a trailing comma is allowed. *)
with written_items : list node -> text -> Prop :=
| wi_nil w : gap w -> written_items [] w
| wi_last n s w1 w2 : written false 1 n s -> gap w1 -> gap w2 -> written_items [n] (w1 ++ s ++ w2)
| wi_cons n s xs sx w1 w2 : written false 1 n s -> gap w1 -> gap w2 -> written_items xs sx ->
    written_items (n :: xs) (w1 ++ s ++ w2 ++ T "," ++ sx)

(** A bound of a slice, or nothing. *)
with written_bound : bool -> option node -> text -> Prop :=
| wb_none fst w : gap w -> written_bound fst None w
| wb_some (fst : bool) n s w1 w2 : written false 1 n s -> gap w1 -> gap w2 ->
    (fst = true -> follows n w2 (T ":")) -> written_bound fst (Some n) (w1 ++ s ++ w2)

(** The entries of a dictionary, separated by commas; a trailing comma is allowed. The
    second argument tells whether the opening brace comes before. *)
with written_pairs : bool -> bool -> list (option node * option node) -> text -> Prop :=
| wp_nil lit fst w : gap w -> written_pairs lit fst [] w
| wp_last lit fst k v s : written_pair lit fst k v s -> written_pairs lit fst [(Some k, Some v)] s
| wp_cons lit fst k v s kvs sx : written_pair lit fst k v s -> written_pairs lit false kvs sx ->
    written_pairs lit fst ((Some k, Some v) :: kvs) (s ++ T "," ++ sx)

(** A key, a colon and a value. The keys of a literal dictionary are bare words; the
    tree has them in quotes. After the first one a blank is needed: the word with the
    colon could be a name. *)
with written_pair : bool -> bool -> node -> node -> text -> Prop :=
| wk_expr (fst : bool) k v sk sv w1 w2 w3 w4 : written false 1 k sk -> written false 1 v sv ->
    gap w1 -> gap w2 -> gap w3 -> gap w4 -> follows k w2 (T ":") -> (fst = true -> brace_head k sk) ->
    written_pair false fst k v (w1 ++ sk ++ w2 ++ T ":" ++ w3 ++ sv ++ w4)
| wk_word (fst : bool) p v sk sv w1 w2 w3 w4 : litkey_text sk -> written false 1 v sv ->
    gap w1 -> gap w2 -> gap w3 -> gap w4 ->
    no_blob sk -> (fst = true -> isnamec1 (hd 0 sk) = true -> w2 ++ w3 <> []) ->
    written_pair true fst (NBasicLit p TSTRING (T "'" ++ sk ++ T "'")) v (w1 ++ sk ++ w2 ++ T ":" ++ w3 ++ sv ++ w4)

(** The further parts of a name with braces; the first argument tells whether a word
    comes before. *)
with written_parts : bool -> list node -> text -> Prop :=
| wq_nil b : written_parts b [] []
| wq_word p s ps sp : some_of isnamec s -> written_parts true ps sp ->
    written_parts false (NCurlyLit p s :: ps) (s ++ sp)
| wq_brace b p a sa w1 w2 ps sp : written false 1 a sa -> gap w1 -> gap w2 -> written_parts false ps sp ->
    written_parts b (NCurlyExpr p (Some a) :: ps) (T "{" ++ w1 ++ sa ++ w2 ++ T "}" ++ sp).

Scheme written_ind' := Induction for written Sort Prop
with written_items_ind' := Induction for written_items Sort Prop
with written_bound_ind' := Induction for written_bound Sort Prop
with written_pairs_ind' := Induction for written_pairs Sort Prop
with written_pair_ind' := Induction for written_pair Sort Prop
with written_parts_ind' := Induction for written_parts Sort Prop.
Combined Scheme written_mutind from written_ind', written_items_ind', written_bound_ind',
  written_pairs_ind', written_pair_ind', written_parts_ind'.

(** Whether a text is empty: the end of the line follows at once. *)
Definition nothing (w : text) : bool := match w with [] => true | _ => false end.

(** * What printing an expression changes *)

(** The tree without doubled parentheses. *)
Fixpoint single_parens (n : node) : node :=
  match n with
  | NBinary l p op r => NBinary (option_map single_parens l) p op (option_map single_parens r)
  | NUnary p op x => NUnary p op (option_map single_parens x)
  | NSubscript p l r => NSubscript p (option_map single_parens l) (option_map single_parens r)
  | NParen p x =>
    match option_map single_parens x with
    | Some (NParen q y) => NParen q y
    | o => NParen p o
    end
  | _ => n
  end.

(** A blob that ends with a dot. *)
Definition dotted_blob (n : node) : Prop := exists p s, n = NBasicLit p TBLOB (s ++ T ".").
