(** Character classes and the regular expressions of go/vimlfunc.go. *)
From Verif Require Import Base.

Definition between (lo hi r : N) : bool := (lo <=? r) && (r <=? hi).

(** go/vimlparser.go:228-230  isupper, :232-234  islower. *)
Definition isupper (r : N) : bool := between (C "A") (C "Z") r.
Definition islower (r : N) : bool := between (C "a") (C "z") r.
(** go/vimlparser.go:175-177  isalpha. *)
Definition isalpha (r : N) : bool := isupper r || islower r.
(** go/vimlparser.go:183-185  isdigit. *)
Definition isdigit (r : N) : bool := between (C "0") (C "9") r.
(** go/vimlparser.go:179-181  isalnum. *)
Definition isalnum (r : N) : bool := isdigit r || isalpha r.
(** go/vimlparser.go:187-189  isodigit. *)
Definition isodigit (r : N) : bool := between (C "0") (C "7") r.
(** go/vimlparser.go:191-193  isxdigit. *)
Definition isxdigit (r : N) : bool :=
  isdigit r || between (C "A") (C "F") r || between (C "a") (C "f") r.
(** go/vimlparser.go:195-197  iswordc; :224-226 isidc is the same class. *)
Definition iswordc (r : N) : bool := isalnum r || (r =? C "_").
(** go/vimlparser.go:199-201  iswordc1; :211-213 isnamec1 is the same class. *)
Definition iswordc1 (r : N) : bool := isalpha r || (r =? C "_").
Definition isnamec1 := iswordc1.
(** go/vimlparser.go:203-205  iswhite. *)
Definition iswhite (r : N) : bool := (r =? C " ") || (r =? 9).
(** go/vimlparser.go:207-209  isnamec. *)
Definition isnamec (r : N) : bool := iswordc r || (r =? C ":") || (r =? C "#").

(** RE2 [\s]: tab, line feed, form feed, carriage return, space. *)
Definition re_space (r : N) : bool :=
  (r =? 9) || (r =? 10) || (r =? 12) || (r =? 13) || (r =? 32).

(** go/vimlparser.go:215-217  isargname: ^[A-Za-z_][0-9A-Za-z_]*$ *)
Definition isargname (s : text) : bool :=
  match s with [] => false | c :: t => iswordc1 c && forallb iswordc t end.

(** One of the scope letters v g s l a b w t. *)
Definition isscope (r : N) : bool :=
  mem_N r (T "vgslabwt").

(** [A-Za-z_][0-9A-Za-z_#]* *)
Definition isvarbody (s : text) : bool :=
  match s with
  | [] => false
  | c :: t => iswordc1 c && forallb (fun x => iswordc x || (x =? C "#")) t
  end.

(** go/vimlparser.go:219-221  isvarname:
    ^[vgslabwt]:$|^([vgslabwt]:)?[A-Za-z_][0-9A-Za-z_#]*$ *)
Definition isvarname (s : text) : bool :=
  isvarbody s ||
  match s with
  | [a; b] => isscope a && (b =? C ":")
  | a :: b :: t => isscope a && (b =? C ":") && isvarbody t
  | _ => false
  end.

(** go/vimlfunc.go:14  [@*!=><&~#] *)
Definition is_special_cmd (r : N) : bool := mem_N r (T "@*!=><&~#").

(** go/vimlfunc.go:44  ^[A-Z] *)
Definition starts_upper (s : text) : bool :=
  match s with c :: _ => isupper c | [] => false end.

(** ASCII word character, as in RE2 \b. *)
Definition word_at (s : text) : bool := match s with c :: _ => iswordc c | [] => false end.

(** \bW\b somewhere in s, for a word W (go/vimlfunc.go:15-22): [prev] tells whether
    the character before s is a word character. *)
Fixpoint has_word_from (prev : bool) (w s : text) : bool :=
  (negb prev && is_prefix w s && negb (word_at (skipn (length w) s))) ||
  match s with
  | [] => false
  | c :: t => has_word_from (iswordc c) w t
  end.
Definition has_word (w s : text) : bool := has_word_from false w s.

(** go/vimlfunc.go:28  ^d(elete|elet|ele|el|e)[lp]$ *)
Definition re_delete_lp (s : text) : bool :=
  mem_text s
   (flat_map (fun x => [x ++ T "l"; x ++ T "p"])
     [T "delete"; T "delet"; T "dele"; T "del"; T "de"]).

(** go/vimlfunc.go:29  ^s(c[^sr][^i][^p]|g|i[^mlg]|I|r[^e]), on the next 5 characters. *)
Definition re_s_repeat (s : text) : bool :=
  match s with
  | 115 :: t =>
    match t with
    | 99 :: x :: y :: z :: _ =>
        negb ((x =? C "s") || (x =? C "r")) && negb (y =? C "i") && negb (z =? C "p")
    | 103 :: _ => true
    | 105 :: x :: _ => negb ((x =? C "m") || (x =? C "l") || (x =? C "g"))
    | 73 :: _ => true
    | 114 :: x :: _ => negb (x =? C "e")
    | _ => false
    end
  | _ => false
  end.

(** go/vimlfunc.go:52  ^\s*\\ : the line starts with blanks and a backslash. *)
Fixpoint re_continuation (s : text) : bool :=
  match s with
  | [] => false
  | c :: t => (c =? 92) || (re_space c && re_continuation t)
  end.

(** strings.ToLower restricted to what the comparisons with ASCII constants in
    viml_equalci (go/vimlfunc.go:86-88) can observe: ASCII letters, U+0130 (whose
    lower case is i) and U+212A (k). Other runes map to a non-ASCII rune or to
    themselves; they are left unchanged. *)
Definition to_lower (r : N) : N :=
  if isupper r then r + 32 else if r =? 304 then C "i" else if r =? 8490 then C "k" else r.
Definition equalci (a b : text) : bool := text_eqb (map to_lower a) (map to_lower b).
