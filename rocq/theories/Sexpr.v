(** Specification of the S-expressions written for expressions (the format of
    vim-vimlparser), and of quoted text. *)
From Verif Require Import Base Vnode Token Ast Nodes.

(** An S-expression: an atom, a parenthesized group, or parts written without blanks. *)
Inductive sx := Atom (s : text) | Group (l : list sx) | Glued (l : list sx).

Fixpoint spaced (l : list text) : text :=
  match l with
  | [] => []
  | [x] => x
  | x :: l' => x ++ [32] ++ spaced l'
  end.
Fixpoint sx_text (x : sx) : text :=
  match x with
  | Atom s => s
  | Group l => T "(" ++ spaced (map sx_text l) ++ T ")"
  | Glued l => concat (map sx_text l)
  end.

(** The name of an operator: its spelling, and "concat" for the concatenation. *)
Definition op_name (t : gtok) : text :=
  match t with TDOT => T "concat" | _ => match op_text t with s :: _ => s | [] => [] end end.
(** Tabs and line ends in the quoted lines of a here-document. *)
Definition visible (c : N) : text :=
  if c =? 10 then T "\n" else if c =? 9 then T "\t" else if c =? 13 then T "\r" else [c].
Definition quoted (s : text) : sx := Atom (T """" ++ s ++ T """").
Definition lit_text (n : node) : text := match n with NBasicLit _ _ s => s | _ => [] end.

(** The S-expression of an expression; "nil" for an absent bound of a slice. *)
Inductive sexp : node -> sx -> Prop :=
| se_ternary p c l r x y z : sexp c x -> sexp l y -> sexp r z ->
    sexp (NTernary p (Some c) (Some l) (Some r)) (Group [Atom (T "?:"); x; y; z])
| se_binary l p t r x y : sexp l x -> sexp r y ->
    sexp (NBinary (Some l) p t (Some r)) (Group [Atom (op_name t); x; y])
| se_unary p t a x : sexp a x -> sexp (NUnary p t (Some a)) (Group [Atom (op_name t); x])
| se_subscript p l r x y : sexp l x -> sexp r y ->
    sexp (NSubscript p (Some l) (Some r)) (Group [Atom (T "subscript"); x; y])
| se_slice l p lo hi x y z : sexp l x -> bound lo y -> bound hi z ->
    sexp (NSlice (Some l) p lo hi) (Group [Atom (T "slice"); x; y; z])
| se_method l m p args x y zs : sexp l x -> sexp m y -> Forall2 sexp args zs ->
    sexp (NMethod (Some l) (Some m) p args) (Group [Atom (T "method"); x; Group (y :: zs)])
| se_call f p args x zs : sexp f x -> Forall2 sexp args zs -> sexp (NCall (Some f) p args) (Group (x :: zs))
| se_dot l p r x y : sexp l x -> sexp r y -> sexp (NDot (Some l) p (Some r)) (Group [Atom (T "dot"); x; y])
| se_lit p k s : sexp (NBasicLit p k s) (Atom s)
| se_ident p s : sexp (NIdent p s) (Atom s)
| se_list p vs xs : Forall2 sexp vs xs -> sexp (NList p vs) (Group (Atom (T "list") :: xs))
| se_dict p es xs : Forall2 (fun e x => exists k v y z, e = (Some k, Some v) /\ x = Group [y; z] /\ sexp k y /\ sexp v z) es xs ->
    sexp (NDict p es) (Group (Atom (T "dict") :: xs))
| se_curly p ps xs : Forall2 sexp ps xs -> sexp (NCurlyName p ps) (Glued xs)
| se_curlylit p s : sexp (NCurlyLit p s) (Atom s)
| se_curlyexpr p a x : sexp a x -> sexp (NCurlyExpr p (Some a)) (Glued [Atom (T "{"); x; Atom (T "}")])
| se_lambda p ps a xs x : Forall2 sexp ps xs -> sexp a x ->
    sexp (NLambda p ps (Some a)) (Group [Atom (T "lambda"); Group xs; x])
| se_paren p a x : sexp a x -> sexp (NParen p (Some a)) x
| se_heredoc p fs m b :
    sexp (NHeredoc p fs m b)
      (Group [Atom (T "heredoc"); Group (Atom (T "list") :: map (fun n => quoted (lit_text n)) fs); quoted m;
              Group (Atom (T "list") :: map (fun n => quoted (flat_map visible (lit_text n))) b)])
with bound : option node -> sx -> Prop :=
| bo_none : bound None (Atom (T "nil"))
| bo_some n x : sexp n x -> bound (Some n) x.

(** Text between double quotes: the backslashes and double quotes in it have a backslash in
    front. *)
Definition protect (c : N) : text := if (c =? C "\") || (c =? C """") then [C "\"; c] else [c].
Definition protected (s : text) : text := T """" ++ flat_map protect s ++ T """".

(** A function whose last parameter is "...", and trees without one. *)
Definition variadic (n : node) : Prop :=
  match n with NFunction _ _ _ _ ps _ _ _ => exists ps' p, ps = ps' ++ [NIdent p (T "...")] | _ => False end.
Definition no_variadic (n : node) : Prop := forall m, within n m -> ~ variadic m.

(** What package printer knows: the operators other than =~ and =~?, subscripts, literals,
    names and parentheses. *)
Definition printable1 (n : node) : Prop :=
  match n with
  | NBinary _ _ t _ => t <> TMATCH /\ t <> TMATCHCI
  | NUnary _ _ _ | NSubscript _ _ _ | NBasicLit _ _ _ | NIdent _ _ | NParen _ _ => True
  | _ => False
  end.
Definition printable (n : node) : Prop := forall m, within n m -> printable1 m.
