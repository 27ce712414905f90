(** The table of patterns of go/vimlfunc.go and the places where the parser consults it. *)
From Verif Require Import Base CharClass CmdParser Regex.

(** go/vimlfunc.go:12-72  patVim2Go: the Vim pattern and the Go pattern that replaces it. *)
Definition patVim2Go : list (text * text) :=
  [
   (T "[0-9a-zA-Z]", T "[0-9a-zA-Z]");
   (T "[@*!=><&~#]", T "[@*!=><&~#]");
   (T "\<ARGOPT\>", T "\bARGOPT\b");
   (T "\<BANG\>", T "\bBANG\b");
   (T "\<EDITCMD\>", T "\bEDITCMD\b");
   (T "\<NOTRLCOM\>", T "\bNOTRLCOM\b");
   (T "\<TRLBAR\>", T "\bTRLBAR\b");
   (T "\<USECTRLV\>", T "\bUSECTRLV\b");
   (T "\<USERCMD\>", T "\bUSERCMD\b");
   (T "\<\(XFILE\|FILES\|FILE1\)\>", T "\b(XFILE|FILES|FILE1)\b");
   (T "\S", T "\S");
   (T "\a", T "[A-Za-z]");
   (T "\d", T "\d");
   (T "\h", T "[A-Za-z_]");
   (T "\s", T "\s");
   (T "\v^d%[elete][lp]$", T "^d(elete|elet|ele|el|e)[lp]$");
   (T "\v^s%(c[^sr][^i][^p]|g|i[^mlg]|I|r[^e])", T "^s(c[^sr][^i][^p]|g|i[^mlg]|I|r[^e])");
   (T "\w", T "[0-9A-Za-z_]");
   (T "\w\|[:#]", T "[0-9A-Za-z_]|[:#]");
   (T "\x", T "[0-9A-Fa-f]");
   (T "^++", T "^\+\+");
   (T "^++bad=\(keep\|drop\|.\)\>", T "^\+\+bad=(keep|drop|.)\b");
   (T "^++bad=drop", T "^\+\+bad=drop");
   (T "^++bad=keep", T "^\+\+bad=keep");
   (T "^++bin\>", T "^\+\+bin\b");
   (T "^++edit\>", T "^\+\+edit\b");
   (T "^++enc=\S", T "^\+\+enc=\S");
   (T "^++encoding=\S", T "^\+\+encoding=\S");
   (T "^++ff=\(dos\|unix\|mac\)\>", T "^\+\+ff=(dos|unix|mac)\b");
   (T "^++fileformat=\(dos\|unix\|mac\)\>", T "^\+\+fileformat=(dos|unix|mac)\b");
   (T "^++nobin\>", T "^\+\+nobin\b");
   (T "^[A-Z]", T "^[A-Z]");
   (T "^\$\w\+", T "^\$[0-9A-Za-z_]+");
   (T "^\(!\|global\|vglobal\)$", T "^(!|global|vglobal)$");
   (T "^\(WHILE\|FOR\)$", T "^(WHILE|FOR)$");
   (T "^\(vimgrep\|vimgrepadd\|lvimgrep\|lvimgrepadd\)$", T "^(vimgrep|vimgrepadd|lvimgrep|lvimgrepadd)$");
   (T "^\d", T "^\d");
   (T "^\h", T "^[A-Za-z_]");
   (T "^\s", T "^\s");
   (T "^\s*\\", T "^\s*\\");
   (T "^[ \t]$", T "^[ \t]$");
   (T "^[A-Za-z]$", T "^[A-Za-z]$");
   (T "^[0-9A-Za-z]$", T "^[0-9A-Za-z]$");
   (T "^[0-9]$", T "^[0-9]$");
   (T "^[0-9A-Fa-f]$", T "^[0-9A-Fa-f]$");
   (T "^[0-9A-Za-z_]$", T "^[0-9A-Za-z_]$");
   (T "^[A-Za-z_]$", T "^[A-Za-z_]$");
   (T "^[0-9A-Za-z_:#]$", T "^[0-9A-Za-z_:#]$");
   (T "^[A-Za-z_][0-9A-Za-z_]*$", T "^[A-Za-z_][0-9A-Za-z_]*$");
   (T "^[A-Z]$", T "^[A-Z]$");
   (T "^[a-z]$", T "^[a-z]$");
   (T "^[vgslabwt]:$\|^\([vgslabwt]:\)\?[A-Za-z_][0-9A-Za-z_#]*$", T "^[vgslabwt]:$|^([vgslabwt]:)?[A-Za-z_][0-9A-Za-z_#]*$");
   (T "^[0-7]$", T "^[0-7]$");
   (T "^[0-9A-Fa-f][0-9A-Fa-f]$", T "^[0-9A-Fa-f][0-9A-Fa-f]$");
   (T "^\.[0-9A-Fa-f]$", T "^\.[0-9A-Fa-f]$");
   (T "^[0-9A-Fa-f][^0-9A-Fa-f]$", T "^[0-9A-Fa-f][^0-9A-Fa-f]$");
   (T "^[^a-z]\S\+$", T "^[^a-z]\S+$")].

(** go/vimlfunc.go:90-95  viml_eqregh: the Go pattern stored for [pat], if there is one;
    a panic otherwise. *)
Fixpoint find_pattern (pat : text) (l : list (text * text)) : option text :=
  match l with
  | [] => None
  | (k, v) :: l' => if text_eqb k pat then Some v else find_pattern pat l'
  end.
Definition pattern_of (pat : text) : option text := find_pattern pat patVim2Go.

(** A test of a single character. *)
Definition single (f : N -> bool) (s : text) : bool := match s with [c] => f c | _ => false end.
(** A test of a pair of characters. *)
Definition pair (f g : N -> bool) (s : text) : bool := match s with [c; d] => f c && g d | _ => false end.

(** All calls of viml_eqregh: the pattern in the call and the function that stands for the
    test in the model. *)
Definition parser_tests : list (text * (text -> bool)) :=
  [(T "^[A-Za-z]$", single isalpha);            (* go/vimlparser.go:176 *)
   (T "^[0-9A-Za-z]$", single isalnum);         (* :180 *)
   (T "^[0-9]$", single isdigit);               (* :184 *)
   (T "^[0-7]$", single isodigit);              (* :188 *)
   (T "^[0-9A-Fa-f]$", single isxdigit);        (* :192 *)
   (T "^[0-9A-Za-z_]$", single iswordc);        (* :196, :225 *)
   (T "^[A-Za-z_]$", single iswordc1);          (* :200, :212 *)
   (T "^[ \t]$", single iswhite);               (* :204 *)
   (T "^[0-9A-Za-z_:#]$", single isnamec);      (* :208 *)
   (T "^[A-Za-z_][0-9A-Za-z_]*$", isargname);   (* :216 *)
   (T "^[vgslabwt]:$\|^\([vgslabwt]:\)\?[A-Za-z_][0-9A-Za-z_#]*$", isvarname); (* :220 *)
   (T "^[A-Z]$", single isupper);               (* :229 *)
   (T "^[a-z]$", single islower);               (* :233 *)
   (T "\<BANG\>", has_word (T "BANG"));         (* :663 *)
   (T "\<USERCMD\>", has_word (T "USERCMD"));   (* :663 *)
   (T "\<ARGOPT\>", has_word (T "ARGOPT"));     (* :670 *)
   (T "\<EDITCMD\>", has_word (T "EDITCMD"));   (* :703 *)
   (T "\v^s%(c[^sr][^i][^p]|g|i[^mlg]|I|r[^e])", re_s_repeat); (* :818 *)
   (T "[@*!=><&~#]", existsb is_special_cmd);   (* :821 *)
   (T "\v^d%[elete][lp]$", re_delete_lp);       (* :829 *)
   (T "^[A-Z]", starts_upper);                  (* :862 *)
   (T "^++bin\>", re_lit_b (T "++bin"));        (* :880 *)
   (T "^++nobin\>", re_lit_b (T "++nobin"));    (* :883 *)
   (T "^++edit\>", re_lit_b (T "++edit"));      (* :886 *)
   (T "^++ff=\(dos\|unix\|mac\)\>", re_lit_ff (T "++ff="));                 (* :889 *)
   (T "^++fileformat=\(dos\|unix\|mac\)\>", re_lit_ff (T "++fileformat=")); (* :892 *)
   (T "^++enc=\S", re_lit_S (T "++enc="));            (* :895 *)
   (T "^++encoding=\S", re_lit_S (T "++encoding="));  (* :898 *)
   (T "^++bad=\(keep\|drop\|.\)\>", re_bad);          (* :901 *)
   (T "^++bad=keep", is_prefix (T "++bad=keep"));     (* :903 *)
   (T "^++bad=drop", is_prefix (T "++bad=drop"));     (* :905 *)
   (T "^++", is_prefix (T "++"));                     (* :910 *)
   (T "\<TRLBAR\>", has_word (T "TRLBAR"));           (* :989 *)
   (T "\<\(XFILE\|FILES\|FILE1\)\>",
    fun s => has_word (T "XFILE") s || has_word (T "FILES") s || has_word (T "FILE1") s); (* :1038 *)
   (T "\<NOTRLCOM\>", has_word (T "NOTRLCOM"));       (* :1046, :1059 *)
   (T "\<USECTRLV\>", has_word (T "USECTRLV"));       (* :1049; has_cpo_bar is false, so the answer is not used *)
   (T "^[0-9A-Fa-f][0-9A-Fa-f]$", pair isxdigit isxdigit);                          (* :3444 *)
   (T "^\.[0-9A-Fa-f]$", pair (N.eqb (C ".")) isxdigit);                            (* :3446 *)
   (T "^[0-9A-Fa-f][^0-9A-Fa-f]$", pair isxdigit (fun c => negb (isxdigit c)));     (* :3448 *)
   (T "^\s*\\", re_continuation)].                    (* go/type.go:207 *)
