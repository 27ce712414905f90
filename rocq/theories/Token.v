(** Generated from token/token.go. *)
From Verif Require Import Base ExprParser.

(** token/token.go:12-82  the Token constants. *)
Inductive gtok :=
| TILLEGAL | TEOF | TEOL | TSPACE | TOROR | TANDAND | TEQEQ | TEQEQCI
| TEQEQCS | TNEQ | TNEQCI | TNEQCS | TGT | TGTCI | TGTCS | TGTEQ
| TGTEQCI | TGTEQCS | TLT | TLTCI | TLTCS | TLTEQ | TLTEQCI | TLTEQCS
| TMATCH | TMATCHCI | TMATCHCS | TNOMATCH | TNOMATCHCI | TNOMATCHCS | TIS | TISCI
| TISCS | TISNOT | TISNOTCI | TISNOTCS | TPLUS | TMINUS | TDOT | TSTAR
| TSLASH | TPERCENT | TNOT | TQUESTION | TCOLON | TPOPEN | TPCLOSE | TSQOPEN
| TSQCLOSE | TCOPEN | TCCLOSE | TCOMMA | TNUMBER | TBLOB | TSQUOTE | TDQUOTE
| TOPTION | TIDENTIFIER | TENV | TREG | TEQ | TOR | TSEMICOLON | TBACKTICK
| TDOTDOTDOT | TSHARP | TARROW | TSTRING.

(** The numeric value (iota) of a constant. *)
Definition gtok_num (t : gtok) : N :=
  match t with
  | TILLEGAL => 0
  | TEOF => 1
  | TEOL => 2
  | TSPACE => 3
  | TOROR => 4
  | TANDAND => 5
  | TEQEQ => 6
  | TEQEQCI => 7
  | TEQEQCS => 8
  | TNEQ => 9
  | TNEQCI => 10
  | TNEQCS => 11
  | TGT => 12
  | TGTCI => 13
  | TGTCS => 14
  | TGTEQ => 15
  | TGTEQCI => 16
  | TGTEQCS => 17
  | TLT => 18
  | TLTCI => 19
  | TLTCS => 20
  | TLTEQ => 21
  | TLTEQCI => 22
  | TLTEQCS => 23
  | TMATCH => 24
  | TMATCHCI => 25
  | TMATCHCS => 26
  | TNOMATCH => 27
  | TNOMATCHCI => 28
  | TNOMATCHCS => 29
  | TIS => 30
  | TISCI => 31
  | TISCS => 32
  | TISNOT => 33
  | TISNOTCI => 34
  | TISNOTCS => 35
  | TPLUS => 36
  | TMINUS => 37
  | TDOT => 38
  | TSTAR => 39
  | TSLASH => 40
  | TPERCENT => 41
  | TNOT => 42
  | TQUESTION => 43
  | TCOLON => 44
  | TPOPEN => 45
  | TPCLOSE => 46
  | TSQOPEN => 47
  | TSQCLOSE => 48
  | TCOPEN => 49
  | TCCLOSE => 50
  | TCOMMA => 51
  | TNUMBER => 52
  | TBLOB => 53
  | TSQUOTE => 54
  | TDQUOTE => 55
  | TOPTION => 56
  | TIDENTIFIER => 57
  | TENV => 58
  | TREG => 59
  | TEQ => 60
  | TOR => 61
  | TSEMICOLON => 62
  | TBACKTICK => 63
  | TDOTDOTDOT => 64
  | TSHARP => 65
  | TARROW => 66
  | TSTRING => 67
  end.

(** token/token.go:84-154  the array tokens, in the order of the constants. *)
Definition tokens : list text := [
  T "ILLEGAL";
  T "<EOF>";
  T "<EOL>";
  T "<SPACE>";
  T "||";
  T "&&";
  T "==";
  T "==?";
  T "==#";
  T "!=";
  T "!=?";
  T "!=#";
  T ">";
  T ">?";
  T ">#";
  T ">=";
  T ">=?";
  T ">=#";
  T "<";
  T "<?";
  T "<#";
  T "<=";
  T "<=?";
  T "<=#";
  T "=~";
  T "=~?";
  T "=~#";
  T "!~";
  T "!~?";
  T "!~#";
  T "is";
  T "is?";
  T "is#";
  T "isnot";
  T "isnot?";
  T "isnot#";
  T "+";
  T "-";
  T ".";
  T "*";
  T "/";
  T "%";
  T "!";
  T "?";
  T ":";
  T "(";
  T ")";
  T "[";
  T "]";
  T "{";
  T "}";
  T ",";
  T "<NUMBER>";
  T "<BLOB>";
  T "'";
  T """";
  T "<&OPTION>";
  T "<IDENTIFIER>";
  T "<$ENV>";
  T "<@REG>";
  T "=";
  T "|";
  T ";";
  T "`";
  T "...";
  T "#";
  T "->";
  T "<STRING>"].

Definition all_gtok : list gtok :=
  [TILLEGAL; TEOF; TEOL; TSPACE; TOROR; TANDAND; TEQEQ; TEQEQCI;
   TEQEQCS; TNEQ; TNEQCI; TNEQCS; TGT; TGTCI; TGTCS; TGTEQ;
   TGTEQCI; TGTEQCS; TLT; TLTCI; TLTCS; TLTEQ; TLTEQCI; TLTEQCS;
   TMATCH; TMATCHCI; TMATCHCS; TNOMATCH; TNOMATCHCI; TNOMATCHCS; TIS; TISCI;
   TISCS; TISNOT; TISNOTCI; TISNOTCS; TPLUS; TMINUS; TDOT; TSTAR;
   TSLASH; TPERCENT; TNOT; TQUESTION; TCOLON; TPOPEN; TPCLOSE; TSQOPEN;
   TSQCLOSE; TCOPEN; TCCLOSE; TCOMMA; TNUMBER; TBLOB; TSQUOTE; TDQUOTE;
   TOPTION; TIDENTIFIER; TENV; TREG; TEQ; TOR; TSEMICOLON; TBACKTICK;
   TDOTDOTDOT; TSHARP; TARROW; TSTRING].

(** strconv.Itoa. *)
Definition itoa (z : Z) : text :=
  match z with
  | Z0 => T "0"
  | Zpos p => dec (Npos p)
  | Zneg p => T "-" ++ dec (Npos p)
  end.

(** token/token.go:157-166  Token.String, for any int. *)
Definition token_string_Z (z : Z) : text :=
  let s := (if (0 <=? z)%Z && (z <? Z.of_nat (length tokens))%Z
            then nth (Z.to_nat z) tokens [] else []) in
  if is_nil s then T "token(" ++ itoa z ++ T ")" else s.
Definition token_string (t : gtok) : text := token_string_Z (Z.of_N (gtok_num t)).
