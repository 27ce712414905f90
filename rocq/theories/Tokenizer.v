(** ExprTokenizer. *)
From Verif Require Import Base CharClass Reader Vnode.

(** Comparison operator spelled [s] (of [k] characters) followed by its case
    modifier: the nested if of go/vimlparser.go:2079-2144. *)
Definition tok_cmp (o : cmpop) (k : nat) (s : text) (c : cursor) : outcome (token * cursor) :=
  let* x := p_ k c in
  if ch_is x (C "?") then
    let* c' := seek_cur (S k) c in Ok (mkTok (KCmp o MCi) (s ++ T "?") (getpos c), c')
  else if ch_is x (C "#") then
    let* c' := seek_cur (S k) c in Ok (mkTok (KCmp o MCs) (s ++ T "#") (getpos c), c')
  else
    let* c' := seek_cur k c in Ok (mkTok (KCmp o MNone) s (getpos c), c').

(** r.seek_cur(len(s)); return self.token(k, s, pos). *)
Definition tok_fix (k : tok) (s : text) (c : cursor) : outcome (token * cursor) :=
  let* c' := seek_cur (length s) c in Ok (mkTok k s (getpos c), c').

(** go/vimlparser.go:2037-2047: decimal number, with optional fraction and exponent. *)
Definition get2_number (c : cursor) : outcome (token * cursor) :=
  let '(s, c1) := read_digit c in
  let* x0 := p_ 0 c1 in
  let* frac := (if ch_is x0 (C ".") then
                  let* x1 := p_ 1 c1 in Ok (ch_in isdigit x1)
                else Ok false) in
  if frac : bool then
    let '(s2, c2) := getn 1 c1 in
    let '(s3, c3) := read_digit c2 in
    let* y0 := p_ 0 c3 in
    let* expo :=
      (if ch_is y0 (C "E") || ch_is y0 (C "e") then
         let* y1 := p_ 1 c3 in
         if ch_in isdigit y1 then Ok true
         else if ch_is y1 (C "-") || ch_is y1 (C "+") then
           let* y2 := p_ 2 c3 in Ok (ch_in isdigit y2)
         else Ok false
       else Ok false) in
    if expo : bool then
      let '(s4, c4) := getn 2 c3 in
      let '(s5, c5) := read_digit c4 in
      Ok (mkTok KNumber (s ++ s2 ++ s3 ++ s4 ++ s5) (getpos c), c5)
    else Ok (mkTok KNumber (s ++ s2 ++ s3) (getpos c), c3)
  else Ok (mkTok KNumber s (getpos c), c1).

(** go/vimlparser.go:2025-2047: tokens starting with a digit [r]. *)
Definition get2_digit (r : N) (c : cursor) : outcome (token * cursor) :=
  if r =? C "0" then
    let* x1 := p_ 1 c in
    if ch_is x1 (C "X") || ch_is x1 (C "x") then
      let* x2 := p_ 2 c in
      if ch_in isxdigit x2 then
        let '(s, c1) := getn 3 c in
        let '(s2, c2) := read_xdigit c1 in
        Ok (mkTok KNumber (s ++ s2) (getpos c), c2)
      else get2_number c
    else if ch_is x1 (C "B") || ch_is x1 (C "b") then
      let* x2 := p_ 2 c in
      if ch_is x2 (C "0") || ch_is x2 (C "1") then
        let '(s, c1) := getn 3 c in
        let '(s2, c2) := read_bdigit c1 in
        Ok (mkTok KNumber (s ++ s2) (getpos c), c2)
      else get2_number c
    else if ch_is x1 (C "Z") || ch_is x1 (C "z") then
      let* x2 := p_ 2 c in
      if negb (ch_is x2 (C ".")) then
        let '(s, c1) := getn 2 c in
        let* '(s2, c2) := read_blob c1 in
        Ok (mkTok KBlob (s ++ s2) (getpos c), c2)
      else get2_number c
    else get2_number c
  else get2_number c.

(** go/vimlparser.go:2070-2072: identifier. *)
Definition get2_ident (c : cursor) : outcome (token * cursor) :=
  let '(s, c1) := read_name c in Ok (mkTok KIdent s (getpos c), c1).

(** p(k), p(k+1), ... are the characters of [s]; evaluated left to right with short
    circuit. *)
Fixpoint p_match (k : nat) (s : text) (c : cursor) : outcome bool :=
  match s with
  | [] => Ok true
  | r :: s' => let* x := p_ k c in
               if ch_is x r then p_match (S k) s' c else Ok false
  end.

(** go/vimlparser.go:2048-2072: tokens starting with [A-Za-z_]. *)
Definition get2_word (r : N) (c : cursor) : outcome (token * cursor) :=
  if r =? C "i" then
    let* x1 := p_ 1 c in
    if ch_is x1 (C "s") then
      let* x2 := p_ 2 c in
      if negb (ch_in iswordc x2) then tok_cmp OIs 2 (T "is") c
      else
        let* b := p_match 2 (T "not") c in
        if b : bool then
          let* x5 := p_ 5 c in
          if negb (ch_in iswordc x5) then tok_cmp OIsNot 5 (T "isnot") c
          else get2_ident c
        else get2_ident c
    else get2_ident c
  else get2_ident c.

(** go/vimlparser.go:2013-2274  get2. *)
Definition get2 (c : cursor) : outcome (token * cursor) :=
  match peek c with
  | CEof => Ok (mkTok KEof (T "<EOF>") (getpos c), c)
  | CEol => let* c' := seek_cur 1 c in Ok (mkTok KEol (T "<EOL>") (getpos c), c')
  | CR r =>
    if iswhite r then
      let '(s, c1) := read_white c in Ok (mkTok KSpace s (getpos c), c1)
    else if isdigit r then get2_digit r c
    else if isnamec1 r then get2_word r c
    else if r =? C "|" then                                  (* :2073, :2262 *)
      let* x := p_ 1 c in
      if ch_is x (C "|") then tok_fix KOrOr (T "||") c else tok_fix KOr (T "|") c
    else if r =? C "&" then                                  (* :2076, :2251 *)
      let* x := p_ 1 c in
      if ch_is x (C "&") then tok_fix KAndAnd (T "&&") c
      else
        let* scoped := (if ch_is x (C "g") || ch_is x (C "l") then
                          let* y := p_ 2 c in Ok (ch_is y (C ":"))
                        else Ok false) in
        let '(s, c1) := getn (if scoped : bool then 3 else 1) c in
        let '(s2, c2) := read_word c1 in
        Ok (mkTok KOption (s ++ s2) (getpos c), c2)
    else if r =? C "=" then                                  (* :2079, :2123, :2259 *)
      let* x := p_ 1 c in
      if ch_is x (C "=") then tok_cmp OEq 2 (T "==") c
      else if ch_is x (C "~") then tok_cmp OMatch 2 (T "=~") c
      else tok_fix KEq (T "=") c
    else if r =? C "!" then                                  (* :2090, :2134, :2200 *)
      let* x := p_ 1 c in
      if ch_is x (C "=") then tok_cmp ONeq 2 (T "!=") c
      else if ch_is x (C "~") then tok_cmp ONoMatch 2 (T "!~") c
      else tok_fix KNot (T "!") c
    else if r =? C ">" then                                  (* :2101, :2145 *)
      let* x := p_ 1 c in
      if ch_is x (C "=") then tok_cmp OGtEq 2 (T ">=") c
      else tok_cmp OGt 1 (T ">") c
    else if r =? C "<" then                                  (* :2112, :2156 *)
      let* x := p_ 1 c in
      if ch_is x (C "=") then tok_cmp OLtEq 2 (T "<=") c
      else tok_cmp OLt 1 (T "<") c
    else if r =? C "+" then tok_fix KPlus (T "+") c
    else if r =? C "-" then
      let* x := p_ 1 c in
      if ch_is x (C ">") then tok_fix KArrow (T "->") c else tok_fix KMinus (T "-") c
    else if r =? C "." then
      let* x := p_ 1 c in
      if ch_is x (C ".") then
        let* y := p_ 2 c in
        if ch_is y (C ".") then tok_fix KDotDotDot (T "...") c else tok_fix KDotDot (T "..") c
      else tok_fix KDot (T ".") c
    else if r =? C "*" then tok_fix KStar (T "*") c
    else if r =? C "/" then tok_fix KSlash (T "/") c
    else if r =? C "%" then tok_fix KPercent (T "%") c
    else if r =? C "?" then tok_fix KQuestion (T "?") c
    else if r =? C ":" then tok_fix KColon (T ":") c
    else if r =? C "#" then
      let* x := p_ 1 c in
      if ch_is x (C "{") then tok_fix KLitCOpen (T "#{") c else tok_fix KSharp (T "#") c
    else if r =? C "(" then tok_fix KPOpen (T "(") c
    else if r =? C ")" then tok_fix KPClose (T ")") c
    else if r =? C "[" then tok_fix KSqOpen (T "[") c
    else if r =? C "]" then tok_fix KSqClose (T "]") c
    else if r =? C "{" then tok_fix KCOpen (T "{") c
    else if r =? C "}" then tok_fix KCClose (T "}") c
    else if r =? C "," then tok_fix KComma (T ",") c
    else if r =? C "'" then tok_fix KSQuote (T "'") c
    else if r =? C """" then tok_fix KDQuote (T """") c
    else if r =? C "$" then
      let '(s, c1) := getn 1 c in
      let '(s2, c2) := read_word c1 in
      Ok (mkTok KEnv (s ++ s2) (getpos c), c2)
    else if r =? C "@" then
      let '(s, c1) := getn 2 c in Ok (mkTok KReg s (getpos c), c1)
    else if r =? C ";" then tok_fix KSemicolon (T ";") c
    else if r =? C "`" then tok_fix KBacktick (T "`") c
    else raise (T "unexpected character: " ++ [r]) (getpos c)
  end.

(** go/vimlparser.go:1999-2011  get, without the cache (see [TokenCache] for the
    cached version and the proof that the cache is transparent). *)
Definition tget (c : cursor) : outcome (token * cursor) := get2 (skip_white c).

(** go/vimlparser.go:1992-1997  peek. *)
Definition tpeek (c : cursor) : outcome token := let* '(t, _) := tget c in Ok t.

(** go/vimlparser.go:2284-2300: the loop of get_sstring, after the opening quote. *)
Fixpoint sstring_loop (c : cursor) : outcome (text * cursor) :=
  match c with
  | Eof p => raise (T "unexpected EOL") p
  | Cons EOL p _ => raise (T "unexpected EOL") p
  | Cons (R r) _ t =>
    if r =? C "'" then
      match t with
      | Cons (R r2) _ t2 =>
        if r2 =? C "'" then
          let* '(s, c') := sstring_loop t2 in Ok (T "''" ++ s, c')
        else Ok ([], t)
      | _ => Ok ([], t)
      end
    else let* '(s, c') := sstring_loop t in Ok (r :: s, c')
  end.

(** go/vimlparser.go:2276-2302  get_sstring. *)
Definition get_sstring (c0 : cursor) : outcome (text * cursor) :=
  let c := skip_white c0 in
  let* x := p_ 0 c in
  if negb (ch_is x (C "'")) then raise (T "unexpected character: " ++ ch_text x) (getpos c)
  else let* c1 := seek_cur 1 c in sstring_loop c1.

(** go/vimlparser.go:2312-2332: the loop of get_dstring, after the opening quote. *)
Fixpoint dstring_loop (c : cursor) : outcome (text * cursor) :=
  match c with
  | Eof p => raise (T "unexpectd EOL") p
  | Cons EOL p _ => raise (T "unexpectd EOL") p
  | Cons (R r) _ t =>
    if r =? C """" then Ok ([], t)
    else if r =? 92 then
      match t with
      | Eof p => raise (T "ExprTokenizer: unexpected EOL") p
      | Cons EOL p _ => raise (T "ExprTokenizer: unexpected EOL") p
      | Cons (R r2) _ t2 => let* '(s, c') := dstring_loop t2 in Ok (r :: r2 :: s, c')
      end
    else let* '(s, c') := dstring_loop t in Ok (r :: s, c')
  end.

(** go/vimlparser.go:2304-2334  get_dstring. *)
Definition get_dstring (c0 : cursor) : outcome (text * cursor) :=
  let c := skip_white c0 in
  let* x := p_ 0 c in
  if negb (ch_is x (C """")) then raise (T "unexpected character: " ++ ch_text x) (getpos c)
  else let* c1 := seek_cur 1 c in dstring_loop c1.

Definition is_litkey (r : N) : bool := isalnum r || (r =? C "_") || (r =? C "-").

(** go/vimlparser.go:2346-2356: the loop of parse_dict_literal_key. *)
Fixpoint litkey_loop (c : cursor) : outcome (text * cursor) :=
  match c with
  | Eof p => raise (T "unexpectd EOL") p
  | Cons EOL p _ => raise (T "unexpectd EOL") p
  | Cons (R r) _ t =>
    if negb (is_litkey r) then Ok ([], c)
    else let* '(s, c') := litkey_loop t in Ok (r :: s, c')
  end.

(** go/vimlparser.go:2336-2359  parse_dict_literal_key. The node position is taken
    after the first character of the key (:2344-2345). *)
Definition parse_dict_literal_key (c0 : cursor) : outcome (vnode * cursor) :=
  let c := skip_white c0 in
  match peek c with
  | CR r =>
    if is_litkey r then
      let* c1 := seek_cur 1 c in
      let* '(s, c2) := litkey_loop c1 in
      Ok (VLit LString (getpos c1) (T "'" ++ r :: s ++ T "'"), c2)
    else raise (T "unexpected character: " ++ [r]) (getpos c)
  | x => raise (T "unexpected character: " ++ ch_text x) (getpos c)
  end.
