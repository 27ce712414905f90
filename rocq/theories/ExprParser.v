(** ExprParser and LvalueParser. *)
From Verif Require Import Base CharClass Reader Vnode Tokenizer.

Definition MAX_FUNC_ARGS : nat := 20.   (* go/vimlparser.go:173 *)

(** Decimal rendering of a number (fmt %d). *)
Fixpoint dec_loop (fuel : nat) (n : N) (acc : text) : text :=
  match fuel with
  | O => acc
  | S f => let acc' := (C "0" + n mod 10) :: acc in
           if n / 10 =? 0 then acc' else dec_loop f (n / 10) acc'
  end.
Definition dec (n : N) : text := dec_loop (S (N.to_nat (N.log2 n))) n [].

(** panic(Err(viml_printf("unexpected token: %s", token.value), token.pos)) *)
Definition unexpected_token {A} (t : token) : outcome A :=
  raise (T "unexpected token: " ++ tv t) (tp t).

Section Exprs.

(** The recursive occurrences of parse_expr1. *)
Context (e1 : cursor -> outcome (vnode * cursor)).

(** go/vimlparser.go:3172-3201: the loop of parse_curly_parts. *)
Fixpoint curly_loop (n : nat) (c : cursor) : outcome (list vnode * cursor) :=
  match n with
  | O => OutOfFuel
  | S n' =>
    if ch_in isnamec (peek c) then
      let '(s, c1) := read_name c in
      let* '(ps, c2) := curly_loop n' c1 in
      Ok (VCurlyPart (getpos c) s :: ps, c2)
    else if ch_is (peek c) (C "{") then
      let c1 := snd (get c) in
      let* '(v, c2) := e1 c1 in
      let c3 := skip_white c2 in
      let* x := p_ 0 c3 in
      if negb (ch_is x (C "}")) then raise (T "unexpected token: " ++ ch_text x) (getpos c3)
      else
        let* c4 := seek_cur 1 c3 in
        let* '(ps, c5) := curly_loop n' c4 in
        Ok (VCurlyExpr (getpos c1) v :: ps, c5)
    else Ok ([], c)
  end.

(** go/vimlparser.go:3159-3203  parse_curly_parts. *)
Definition parse_curly_parts (c : cursor) : outcome (list vnode * cursor) :=
  if ch_is (peek c) (C "<") && equalci (peekn 5 c) (T "<SID>") then
    let '(s, c1) := getn 5 c in
    let* '(ps, c2) := curly_loop (S (clen c1)) c1 in
    Ok (VCurlyPart (getpos c) s :: ps, c2)
  else curly_loop (S (clen c)) c.

(** go/vimlparser.go:3142-3157  parse_identifier. *)
Definition parse_identifier (c0 : cursor) : outcome (vnode * cursor) :=
  let c := skip_white c0 in
  let* '(ps, c1) := parse_curly_parts c in
  match ps with
  | [VCurlyPart _ s] => Ok (VIdent (getpos c) s, c1)
  | _ => Ok (VCurlyName (getpos c) ps, c1)
  end.

(** The node types accepted to the left of "." (go/vimlparser.go:3095). *)
Definition dot_left_ok (lft : vnode) : bool :=
  match lft with
  | VIdent _ _ | VCurlyName _ _ | VDict _ _ | VSubscript _ _ _ | VCall _ _ _ | VDot _ _ _ => true
  | _ => false
  end.

(** go/vimlparser.go:3094-3115  parse_dot; None is the nil result, after which the
    caller restores the position. *)
Definition parse_dot (t : token) (lft : vnode) (c : cursor) : outcome (option (vnode * cursor)) :=
  if negb (dot_left_ok lft) then Ok None
  else
    let* x := p_ 0 c in
    if negb (ch_in iswordc x) then Ok None
    else
      let '(name, c1) := read_word c in
      let* y := p_ 0 c1 in
      if ch_in isnamec y then Ok None
      else Ok (Some (VDot (tp t) lft (VIdent (getpos c) name), c1)).

(** go/vimlparser.go:2844-2858: the loop of parse_rlist; also returns the last token. *)
Fixpoint rlist_loop (n : nat) (c : cursor) : outcome (list vnode * token * cursor) :=
  match n with
  | O => OutOfFuel
  | S n' =>
    let* '(v, c1) := e1 c in
    let* '(t, c2) := tget c1 in
    match tk t with
    | KComma =>
      let* '(t2, c3) := tget c2 in
      if tok_eqb (tk t2) KPClose then Ok ([v], t, c3)
      else let* '(vs, t', c4) := rlist_loop n' c2 in Ok (v :: vs, t', c4)
    | KPClose => Ok ([v], t, c2)
    | _ => unexpected_token t
    end
  end.

(** go/vimlparser.go:2838-2865  parse_rlist. *)
Definition parse_rlist (c : cursor) : outcome (list vnode * cursor) :=
  let* '(t, c1) := tget c in
  if tok_eqb (tk t) KPClose then Ok ([], c1)
  else
    let* '(vs, t', c2) := rlist_loop (S (clen c)) c in
    if Nat.ltb MAX_FUNC_ARGS (length vs)
    then raise (T "E740: Too many arguments for function") (tp t')
    else Ok (vs, c2).

(** go/vimlparser.go:2912-2927: the loop of a list literal. *)
Fixpoint list_loop (n : nat) (c : cursor) : outcome (list vnode * cursor) :=
  match n with
  | O => OutOfFuel
  | S n' =>
    let* '(v, c1) := e1 c in
    let* '(t, c2) := tget c1 in
    match tk t with
    | KComma =>
      let* '(t2, c3) := tget c2 in
      if tok_eqb (tk t2) KSqClose then Ok ([v], c3)
      else let* '(vs, c4) := list_loop n' c2 in Ok (v :: vs, c4)
    | KSqClose => Ok ([v], c2)
    | _ => unexpected_token t
    end
  end.

(** go/vimlparser.go:2904-2928: list literal, after "[". *)
Definition parse_list (p : pos) (c : cursor) : outcome (vnode * cursor) :=
  let* '(t, c1) := tget c in
  if tok_eqb (tk t) KSqClose then Ok (VList p [], c1)
  else let* '(vs, c2) := list_loop (S (clen c)) c in Ok (VList p vs, c2).

(** go/vimlparser.go:2949-2997: the parameter loop of a lambda. [t] is the current
    token, [c] the cursor after it, [named] the names seen so far. None is the
    fallback to a dictionary. *)
Fixpoint lambda_loop (n : nat) (named : list text) (t : token) (c : cursor)
  : outcome (option (list vnode * cursor)) :=
  match n with
  | O => OutOfFuel
  | S n' =>
    match tk t with
    | KArrow => Ok (Some ([], c))
    | KIdent =>
      if negb (isargname (tv t)) then raise (T "E125: Illegal argument: " ++ tv t) (tp t)
      else if mem_text (tv t) named then
        raise (T "E853: Duplicate argument name: " ++ tv t) (tp t)
      else
        let* x := p_ 0 c in
        let* bad := (if ch_in iswhite x then
                       let* t1 := tpeek c in Ok (tok_eqb (tk t1) KComma)
                     else Ok false) in
        if bad : bool then
          raise (T "E475: Invalid argument: White space is not allowed before comma") (getpos c)
        else
          let var := VIdent (tp t) (tv t) in
          let* '(t1, c1) := tget c in
          match tk t1 with
          | KComma =>
            let* '(t2, c2) := tget c1 in
            if tok_eqb (tk t2) KArrow then Ok (Some ([var], c2))
            else
              let* r := lambda_loop n' (tv t :: named) t2 c2 in
              Ok (match r with Some (vs, c3) => Some (var :: vs, c3) | None => None end)
          | KArrow => Ok (Some ([var], c1))
          | _ => raise (T "unexpected token: " ++ tv t1 ++ T ", type: " ++ dec (tok_num (tk t1))) (tp t1)
          end
    | KDotDotDot =>
      let* '(t1, c1) := tget c in
      if tok_eqb (tk t1) KArrow then Ok (Some ([VIdent (tp t) (tv t)], c1))
      else unexpected_token t1
    | _ => Ok None
    end
  end.

(** go/vimlparser.go:3017-3050: the loop of a dictionary literal. [empty] tells
    whether node.value is still empty; [start] is the cursor at the opening brace,
    used when the text turns out to be a curly-braces name. *)
Fixpoint dict_loop (n : nat) (lit empty : bool) (start : cursor) (c : cursor)
  : outcome ((list (vnode * vnode) + vnode) * cursor) :=
  match n with
  | O => OutOfFuel
  | S n' =>
    let* '(key, c1) := (if lit : bool then parse_dict_literal_key c else e1 c) in
    let* '(t, c2) := tget c1 in
    match tk t with
    | KCClose =>
      if negb empty then unexpected_token t
      else let* '(v, c3) := parse_identifier start in Ok (inr v, c3)
    | KColon =>
      let* '(val, c3) := e1 c2 in
      let* '(t2, c4) := tget c3 in
      match tk t2 with
      | KComma =>
        let* '(t3, c5) := tget c4 in
        if tok_eqb (tk t3) KCClose then Ok (inl [(key, val)], c5)
        else
          let* '(r, c6) := dict_loop n' lit false start c4 in
          match r with
          | inl kvs => Ok (inl ((key, val) :: kvs), c6)
          | inr v => Ok (inr v, c6)
          end
      | KCClose => Ok (inl [(key, val)], c4)
      | _ => unexpected_token t2
      end
    | _ => unexpected_token t
    end
  end.

(** go/vimlparser.go:3007-3051: dictionary (or curly-braces name), after "{". *)
Definition parse_dict (lit : bool) (p : pos) (start c : cursor) : outcome (vnode * cursor) :=
  let* '(t, c1) := tget c in
  if tok_eqb (tk t) KCClose then Ok (VDict p [], c1)
  else
    let* '(r, c2) := dict_loop (S (clen c)) lit true start c in
    match r with
    | inl kvs => Ok (VDict p kvs, c2)
    | inr v => Ok (v, c2)
    end.

(** go/vimlparser.go:2929-3051: lambda, dictionary or curly-braces name, after "{". *)
Definition parse_brace (lit : bool) (p : pos) (start c : cursor) : outcome (vnode * cursor) :=
  let* '(t, c1) := tget c in
  let* lambda :=
    (match tk t with
     | KArrow => Ok true
     | KSQuote | KDQuote => Ok false
     | _ => let* t2 := tpeek c1 in
            Ok (tok_eqb (tk t2) KArrow || tok_eqb (tk t2) KComma)
     end) in
  if lambda : bool then
    let* r := lambda_loop (S (S (clen c1))) [] t c1 in
    match r with
    | Some (vs, c2) =>
      let* '(body, c3) := e1 c2 in
      let* '(t2, c4) := tget c3 in
      if negb (tok_eqb (tk t2) KCClose) then unexpected_token t2
      else Ok (VLambda p vs body, c4)
    | None => parse_dict lit p start c
    end
  else parse_dict lit p start c.

(** go/vimlparser.go:2882-3089  parse_expr9. *)
Definition parse_expr9 (c : cursor) : outcome (vnode * cursor) :=
  let* '(t, c1) := tget c in
  match tk t with
  | KNumber => Ok (VLit LNumber (tp t) (tv t), c1)
  | KBlob => Ok (VLit LBlob (tp t) (tv t), c1)
  | KDQuote => let* '(s, c2) := get_dstring c in
               Ok (VLit LString (tp t) (T """" ++ s ++ T """"), c2)
  | KSQuote => let* '(s, c2) := get_sstring c in
               Ok (VLit LString (tp t) (T "'" ++ s ++ T "'"), c2)
  | KSqOpen => parse_list (tp t) c1
  | KCOpen => parse_brace false (tp t) c c1
  | KLitCOpen => parse_brace true (tp t) c c1
  | KPOpen =>
    let* '(v, c2) := e1 c1 in
    let* '(t2, c3) := tget c2 in
    if negb (tok_eqb (tk t2) KPClose) then unexpected_token t2
    else Ok (VParen (tp t) v, c3)
  | KOption => Ok (VLit LOption (tp t) (tv t), c1)
  | KIdent => parse_identifier c
  | KCmp OLt MNone =>
    if equalci (peekn 4 c1) (T "SID>") then parse_identifier c else unexpected_token t
  | KCmp OIs MNone | KCmp OIs MCs | KCmp OIsNot MNone | KCmp OIsNot MCs => parse_identifier c
  | KEnv => Ok (VLit LEnv (tp t) (tv t), c1)
  | KReg => Ok (VLit LReg (tp t) (tv t), c1)
  | _ => unexpected_token t
  end.

(** go/vimlparser.go:2763-2771, 2780-2788 (and 3227-3234, 3243-3250): the part of a
    slice after the colon. *)
Definition slice_tail (p : pos) (lft : vnode) (r0 : option vnode) (c : cursor)
  : outcome (vnode * cursor) :=
  let* t := tpeek c in
  let* '(r1, c1) :=
    (if negb (tok_eqb (tk t) KSqClose) then
       let* '(v, c') := e1 c in Ok (Some v, c')
     else Ok (None, c)) in
  let* '(t2, c2) := tget c1 in
  if negb (tok_eqb (tk t2) KSqClose) then unexpected_token t2
  else Ok (VSlice p lft r0 r1, c2).

(** go/vimlparser.go:2756-2800 (and 3219-3262): subscript or slice, after "[". *)
Definition parse_subscript (p : pos) (lft : vnode) (c : cursor) : outcome (vnode * cursor) :=
  let* '(t, c1) := tget c in
  if tok_eqb (tk t) KColon then slice_tail p lft None c1
  else
    let* '(rgt, c2) := e1 c in
    let* '(t2, c3) := tget c2 in
    if tok_eqb (tk t2) KColon then slice_tail p lft (Some rgt) c3
    else if negb (tok_eqb (tk t2) KSqClose) then unexpected_token t2
    else Ok (VSubscript p lft rgt, c3).

(** go/vimlparser.go:2751-2835: the loop of parse_expr8. *)
Fixpoint expr8_loop (n : nat) (lft : vnode) (c : cursor) : outcome (vnode * cursor) :=
  match n with
  | O => OutOfFuel
  | S n' =>
    let white := ch_in iswhite (peek c) in
    let* '(t, c1) := tget c in
    match tk t with
    | KSqOpen =>
      if white then Ok (lft, c)
      else let* '(l2, c2) := parse_subscript (tp t) lft c1 in expr8_loop n' l2 c2
    | KArrow =>
      let* '(f, c2) := parse_expr9 c1 in
      let* '(t2, c3) := tget c2 in
      if negb (tok_eqb (tk t2) KPOpen) then raise (T "E107: Missing parentheses: lambda") (tp t2)
      else
        let* '(args, c4) := parse_rlist c3 in
        expr8_loop n' (VMethod (tp t2) lft (VCall (tp t2) f args)) c4
    | KPOpen =>
      let* '(args, c2) := parse_rlist c1 in
      expr8_loop n' (VCall (tp t) lft args) c2
    | KDot =>
      if white then Ok (lft, c)
      else
        let* r := parse_dot t lft c1 in
        match r with
        | Some (l2, c2) => expr8_loop n' l2 c2
        | None => Ok (lft, c)
        end
    | _ => Ok (lft, c)
    end
  end.

(** go/vimlparser.go:2749-2836  parse_expr8. *)
Definition parse_expr8 (c : cursor) : outcome (vnode * cursor) :=
  let* '(lft, c1) := parse_expr9 c in expr8_loop (S (clen c1)) lft c1.

(** go/vimlparser.go:2717-2740  parse_expr7. *)
Fixpoint expr7_loop (n : nat) (c : cursor) : outcome (vnode * cursor) :=
  match n with
  | O => OutOfFuel
  | S n' =>
    let* '(t, c1) := tget c in
    match tk t with
    | KNot => let* '(v, c2) := expr7_loop n' c1 in Ok (VUn UNot (tp t) v, c2)
    | KMinus => let* '(v, c2) := expr7_loop n' c1 in Ok (VUn UMinus (tp t) v, c2)
    | KPlus => let* '(v, c2) := expr7_loop n' c1 in Ok (VUn UPlus (tp t) v, c2)
    | _ => parse_expr8 c
    end
  end.
Definition parse_expr7 (c : cursor) : outcome (vnode * cursor) := expr7_loop (S (clen c)) c.

(** The common loop of parse_expr2, 3, 5 and 6: left-associative operators [ops] over
    operands parsed by [sub]. *)
Fixpoint bin_loop (sub : cursor -> outcome (vnode * cursor)) (ops : tok -> option binop)
  (n : nat) (lft : vnode) (c : cursor) : outcome (vnode * cursor) :=
  match n with
  | O => OutOfFuel
  | S n' =>
    let* '(t, c1) := tget c in
    match ops (tk t) with
    | Some o =>
      let* '(rgt, c2) := sub c1 in
      bin_loop sub ops n' (VBin o (tp t) lft rgt) c2
    | None => Ok (lft, c)
    end
  end.

Definition bin_level (sub : cursor -> outcome (vnode * cursor)) (ops : tok -> option binop)
  (c : cursor) : outcome (vnode * cursor) :=
  let* '(lft, c1) := sub c in bin_loop sub ops (S (clen c1)) lft c1.

(** Operators of parse_expr6 (:2688-2705), parse_expr5 (:2646-2671), parse_expr3
    (:2418), parse_expr2 (:2398). *)
Definition ops6 (k : tok) : option binop :=
  match k with KStar => Some BMul | KSlash => Some BDiv | KPercent => Some BRem | _ => None end.
Definition ops5 (k : tok) : option binop :=
  match k with
  | KPlus => Some BAdd | KMinus => Some BSub | KDotDot => Some BConcat | KDot => Some BConcat
  | _ => None
  end.
Definition ops3 (k : tok) : option binop := match k with KAndAnd => Some BAnd | _ => None end.
Definition ops2 (k : tok) : option binop := match k with KOrOr => Some BOr | _ => None end.

(** go/vimlparser.go:2683-2712  parse_expr6. *)
Definition parse_expr6 := bin_level parse_expr7 ops6.
(** go/vimlparser.go:2641-2678  parse_expr5. *)
Definition parse_expr5 := bin_level parse_expr6 ops5.

(** go/vimlparser.go:2447-2635  parse_expr4: at most one comparison. *)
Definition parse_expr4 (c : cursor) : outcome (vnode * cursor) :=
  let* '(lft, c1) := parse_expr5 c in
  let* '(t, c2) := tget c1 in
  match tk t with
  | KCmp o m =>
    let* '(rgt, c3) := parse_expr5 c2 in
    Ok (VBin (BCmp o m) (tp t) lft rgt, c3)
  | _ => Ok (lft, c1)
  end.

(** go/vimlparser.go:2413-2430  parse_expr3. *)
Definition parse_expr3 := bin_level parse_expr4 ops3.
(** go/vimlparser.go:2393-2410  parse_expr2. *)
Definition parse_expr2 := bin_level parse_expr3 ops2.

(** go/vimlparser.go:2371-2390  parse_expr1. *)
Definition expr1_body (c : cursor) : outcome (vnode * cursor) :=
  let* '(lft, c1) := parse_expr2 c in
  let* '(t, c2) := tget c1 in
  if tok_eqb (tk t) KQuestion then
    let* '(l, c3) := e1 c2 in
    let* '(t2, c4) := tget c3 in
    if negb (tok_eqb (tk t2) KColon) then unexpected_token t2
    else
      let* '(r, c5) := e1 c4 in
      Ok (VTernary (tp t) lft l r, c5)
  else Ok (lft, c1).

(** go/vimlparser.go:3283-3313  parse_lv9. *)
Definition parse_lv9 (c : cursor) : outcome (vnode * cursor) :=
  let* '(t, c1) := tget c in
  match tk t with
  | KCOpen => parse_identifier c
  | KOption => Ok (VLit LOption (tp t) (tv t), c1)
  | KIdent => parse_identifier c
  | KCmp OLt MNone =>
    if equalci (peekn 4 c1) (T "SID>") then parse_identifier c else unexpected_token t
  | KEnv => Ok (VLit LEnv (tp t) (tv t), c1)
  | KReg => Ok (VLit LReg (tp t) (tv t), c1)
  | _ => unexpected_token t
  end.

(** go/vimlparser.go:3214-3274: the loop of parse_lv8. *)
Fixpoint lv8_loop (n : nat) (lft : vnode) (c : cursor) : outcome (vnode * cursor) :=
  match n with
  | O => OutOfFuel
  | S n' =>
    let white := ch_in iswhite (peek c) in
    let* '(t, c1) := tget c in
    match tk t with
    | KSqOpen =>
      if white then Ok (lft, c)
      else let* '(l2, c2) := parse_subscript (tp t) lft c1 in lv8_loop n' l2 c2
    | KDot =>
      if white then Ok (lft, c)
      else
        let* r := parse_dot t lft c1 in
        match r with
        | Some (l2, c2) => lv8_loop n' l2 c2
        | None => Ok (lft, c)
        end
    | _ => Ok (lft, c)
    end
  end.

(** go/vimlparser.go:3212-3276  parse_lv8. *)
Definition parse_lv8 (c : cursor) : outcome (vnode * cursor) :=
  let* '(lft, c1) := parse_lv9 c in lv8_loop (S (clen c1)) lft c1.

End Exprs.

(** go/vimlparser.go:2371-2390  parse_expr1, with the nesting depth as fuel. *)
Fixpoint parse_expr1 (fuel : nat) (c : cursor) : outcome (vnode * cursor) :=
  match fuel with
  | O => OutOfFuel
  | S f => expr1_body (parse_expr1 f) c
  end.

(** go/vimlparser.go:2366-2368  ExprParser.parse. The fuel is one more than the
    number of remaining cells. *)
Definition parse_expr (c : cursor) : outcome (vnode * cursor) := parse_expr1 (S (clen c)) c.

(** go/vimlparser.go:3205-3207  LvalueParser.parse. *)
Definition parse_lvalue_ (c : cursor) : outcome (vnode * cursor) :=
  parse_lv8 (parse_expr1 (S (clen c))) c.
