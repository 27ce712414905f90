(** The project's own test files (test/*.vim with the expected output test/*.ok), run
    through the model: a check that the model follows the code. Generated from /repo/test.
    test_xxx_colonsharp is skipped by the project, too. *)
From Verif Require Import Base Utf8 Reader Vnode ExprParser CmdParser Token Ast Export Api RefCompiler Compiler.

Definition bytes_of_string := text_of_string.
Definition strip_nl (s : text) : text := trim_nl (rev (trim_nl (rev s))).
Definition file (s : String.string) : source := mkSource (bytes_of_string s) false.

(** The output of the internal compiler, or the message of the error. *)
Definition ref_output (neovim : bool) (s : String.string) : option text :=
  match (let* v := vim_parse neovim (open_source (file s)) in rc_compile v) with
  | Ok l => Some (join [10] l)
  | PErr e => Some (T "vimlparser: " ++ e_msg e ++ T ": line " ++ dec (e_line e) ++ T " col " ++ dec (e_col e))
  | _ => None
  end.
(** The output of ParseFile followed by Compile, or the message of the error. *)
Definition api_output (neovim : bool) (s : String.string) : option text :=
  match ParseFile (file s) [] (Some (mkOption neovim)) with
  | Returned n => match Compile n with Ok c => if c_err c then None else Some (c_out c) | _ => None end
  | Failed e => error_string e
  | NoResult => None
  end.
Definition same (o : option text) (want : String.string) : bool :=
  match o with
  | Some t => text_eqb (strip_nl (encode t)) (strip_nl (bytes_of_string want))
  | None => false
  end.
Definition both (neovim : bool) (src want : String.string) : bool :=
  same (ref_output neovim src) want && same (api_output neovim src) want.

(* test/test1.vim *)
Example test1 : both false
""" test1
function s:foo(a, b, ...)
  return 0
endfunction
function s:bar(a = 1, b = 2, ...)
  return 0
endfunction
function s:baz(a, b = 2, ...)
  return 0
endfunction
if 1
  echo ""if 1""
elseif 2
  echo ""elseif 2""
else
  echo ""else""
endif
while 1
  continue
  break
endwhile
for [a, b; c] in d
  echo a b c
endfor
delfunction s:foo
call s:foo(1, 2, 3)
eval filter(odds, 'v:val % 2')
eval 42
let a = {""x"": ""y""}
let [a, b; c] = [1, 2, 3]
let [a, b; c] += [1, 2, 3]
let [a, b; c] -= [1, 2, 3]
let [a, b; c] .= [1, 2, 3]
let foo.bar.baz = 123
let foo[bar()][baz()] = 456
let foo[bar()].baz = 789
let foo[1:2] = [3, 4]
unlet a b c
lockvar a b c
lockvar 1 a b c
unlockvar a b c
unlockvar 1 a b c
try
  throw ""err""
catch /err/
  echo ""catch /err/""
catch
  echo ""catch""
finally
  echo ""finally""
endtry
echohl Error
echon ""echon""
echomsg ""echomsg""
echoerr ""echoerr""
execute ""normal ihello""
echo [] [1,2,3] [1,2,3,]
echo {} {""x"":""y""} {""x"":""y"",""z"":""w"",}
echo x[0] x[y]
echo x[1:2] x[1:] x[:2] x[:]
echo x.y x.y.z
let a = 1
let a += 2
let a *= 3
let a /= 4
let a %= 5
let a ..= 'foo'
echo ('foo' .. 'bar')..'baz'
echo 'foo' .. ('bar'..'baz')
echo 'foo' .. 'bar' .. 'baz'
let a = '🐥'
const a = 1
const [a, b] = [1, 2]
const [a, b; c] = [1, 2, 3]
"%string
"; test1
(function (s:foo a b . ...)
  (return 0))
(function (s:bar (a 1) (b 2) . ...)
  (return 0))
(function (s:baz a (b 2) . ...)
  (return 0))
(if 1
  (echo ""if 1"")
 elseif 2
  (echo ""elseif 2"")
 else
  (echo ""else""))
(while 1
  (continue)
  (break))
(for (a b . c) d
  (echo a b c))
(delfunction s:foo)
(call (s:foo 1 2 3))
(eval (filter odds 'v:val % 2'))
(eval 42)
(let = a (dict (""x"" ""y"")))
(let = (a b . c) (list 1 2 3))
(let += (a b . c) (list 1 2 3))
(let -= (a b . c) (list 1 2 3))
(let .= (a b . c) (list 1 2 3))
(let = (dot (dot foo bar) baz) 123)
(let = (subscript (subscript foo (bar)) (baz)) 456)
(let = (dot (subscript foo (bar)) baz) 789)
(let = (slice foo 1 2) (list 3 4))
(unlet a b c)
(lockvar a b c)
(lockvar 1 a b c)
(unlockvar a b c)
(unlockvar 1 a b c)
(try
  (throw ""err"")
 catch /err/
  (echo ""catch /err/"")
 catch
  (echo ""catch"")
 finally
  (echo ""finally""))
(echohl ""Error"")
(echon ""echon"")
(echomsg ""echomsg"")
(echoerr ""echoerr"")
(execute ""normal ihello"")
(echo (list) (list 1 2 3) (list 1 2 3))
(echo (dict) (dict (""x"" ""y"")) (dict (""x"" ""y"") (""z"" ""w"")))
(echo (subscript x 0) (subscript x y))
(echo (slice x 1 2) (slice x 1 nil) (slice x nil 2) (slice x nil nil))
(echo (dot x y) (dot (dot x y) z))
(let = a 1)
(let += a 2)
(let *= a 3)
(let /= a 4)
(let %= a 5)
(let ..= a 'foo')
(echo (concat (concat 'foo' 'bar') 'baz'))
(echo (concat 'foo' (concat 'bar' 'baz')))
(echo (concat (concat 'foo' 'bar') 'baz'))
(let = a '🐥')
(const = a 1)
(const = (a b) (list 1 2))
(const = (a b . c) (list 1 2 3))
"%string = true.
Proof. vm_compute. reflexivity. Qed.

(* test/test_autoload_variable_name.vim *)
Example test_autoload_variable_name : both false
"let foo#bar#baz = 123
echo foo#bar#baz
"%string
"(let = foo#bar#baz 123)
(echo foo#bar#baz)
"%string = true.
Proof. vm_compute. reflexivity. Qed.

(* test/test_backtickeq.vim *)
Example test_backtickeq : both false
"edit `=""abc"" . ""def""`
"%string
"(excmd ""edit `=\""abc\"" . \""def\""`"")
"%string = true.
Proof. vm_compute. reflexivity. Qed.

(* test/test_bar.vim *)
Example test_bar : both false
"if 1 | set nocp | endif
"%string
"(if 1
  (excmd ""set nocp""))
"%string = true.
Proof. vm_compute. reflexivity. Qed.

(* test/test_blob.vim *)
Example test_blob : both false
"echo 0z
echo 0z11
echo 0zdeadbeef
echo 0Zdeadbeef
echo 0zDEADBEEF
echo 0ZDEADBEEF
echo 0ZDEAD.BEEF
echo 0z00 + 0zFF
"%string
"(echo 0z)
(echo 0z11)
(echo 0zdeadbeef)
(echo 0Zdeadbeef)
(echo 0zDEADBEEF)
(echo 0ZDEADBEEF)
(echo 0ZDEAD.BEEF)
(echo (+ 0z00 0zFF))
"%string = true.
Proof. vm_compute. reflexivity. Qed.

(* test/test_command.vim *)
Example test_command : both false
""" test_command
normal! gg
normal gg
Usercmd x, y z 123
Usercmd! with bang
write ++enc=utf-8
"%string
"; test_command
(excmd ""normal! gg"")
(excmd ""normal gg"")
(excmd ""Usercmd x, y z 123"")
(excmd ""Usercmd! with bang"")
(excmd ""write ++enc=utf-8"")
"%string = true.
Proof. vm_compute. reflexivity. Qed.

(* test/test_curly.vim *)
Example test_curly : both false
""" test_curly
echo xy{z}
echo x{y}z
echo {x}yz
echo {x}{y}{z}
echo {x{y{z}}}
echo x{""y"" . ""w""}z
echo {x}
echo x#{y}#z
"%string
"; test_curly
(echo xy{z})
(echo x{y}z)
(echo {x}yz)
(echo {x}{y}{z})
(echo {x{y{z}}})
(echo x{(concat ""y"" ""w"")}z)
(echo {x})
(echo x#{y}#z)
"%string = true.
Proof. vm_compute. reflexivity. Qed.

(* test/test_delfunction.vim *)
Example test_delfunction : both false
"delfunction F
delfunction! F
"%string
"(delfunction F)
(delfunction F)
"%string = true.
Proof. vm_compute. reflexivity. Qed.

(* test/test_dict.vim *)
Example test_dict : both false
""" test_dict
echo {}
echo {'1': 1}
echo {1: 1}
echo {x : 1}
echo {""\<cr>"": 1}
echo {""vim"": 1}
echo {1+1:2}
"" XXX: echo {x:1}
echo {'x' : {},}
echo [{},]
"%string
"; test_dict
(echo (dict))
(echo (dict ('1' 1)))
(echo (dict (1 1)))
(echo (dict (x 1)))
(echo (dict (""\<cr>"" 1)))
(echo (dict (""vim"" 1)))
(echo (dict ((+ 1 1) 2)))
; XXX: echo {x:1}
(echo (dict ('x' (dict))))
(echo (list (dict)))
"%string = true.
Proof. vm_compute. reflexivity. Qed.

(* test/test_dot.vim *)
Example test_dot : both false
"echo foo.bar
echo foo.bar.baz
echo ""foo"".""bar""
echo foo.""bar""
echo ""foo"".bar
echo foo.bar()
echo foo.s:bar
echo foo.123
echo foo.123abc
"%string
"(echo (dot foo bar))
(echo (dot (dot foo bar) baz))
(echo (concat ""foo"" ""bar""))
(echo (concat foo ""bar""))
(echo (concat ""foo"" bar))
(echo ((dot foo bar)))
(echo (concat foo s:bar))
(echo (dot foo 123))
(echo (dot foo 123abc))
"%string = true.
Proof. vm_compute. reflexivity. Qed.

(* test/test_empty.vim *)
Example test_empty : both false
""%string
""%string = true.
Proof. vm_compute. reflexivity. Qed.

(* test/test_emptylc.vim *)
Example test_emptylc : both false
""" test_emptylc
echo 
      \
      \1
"%string
"; test_emptylc
(echo 1)
"%string = true.
Proof. vm_compute. reflexivity. Qed.

(* test/test_err_blob.vim *)
Example test_err_blob : both false
"echo 0z0
echo 0z0X
echo 0zAABBC
echo 0zAAB.BCC
"%string
"vimlparser: E973: Blob literal should have an even number of hex characters:0X: line 2 col 8
"%string = true.
Proof. vm_compute. reflexivity. Qed.

(* test/test_err_const1.vim *)
Example test_err_const1 : both false
"let a = [0]
const a[0] = 1
"%string
"vimlparser: E996: Cannot lock a list or dict: line 2 col 8
"%string = true.
Proof. vm_compute. reflexivity. Qed.

(* test/test_err_const2.vim *)
Example test_err_const2 : both false
"let a = {}
const a[""b""] = 1
"%string
"vimlparser: E996: Cannot lock a list or dict: line 2 col 8
"%string = true.
Proof. vm_compute. reflexivity. Qed.

(* test/test_err_const3.vim *)
Example test_err_const3 : both false
"let a = {}
const a.b = 1
"%string
"vimlparser: E996: Cannot lock a list or dict: line 2 col 8
"%string = true.
Proof. vm_compute. reflexivity. Qed.

(* test/test_err_const4.vim *)
Example test_err_const4 : both false
"const $a = 1
"%string
"vimlparser: E996: Cannot lock an environment variable: line 1 col 7
"%string = true.
Proof. vm_compute. reflexivity. Qed.

(* test/test_err_const5.vim *)
Example test_err_const5 : both false
"const @a = 1
"%string
"vimlparser: E996: Cannot lock a register: line 1 col 7
"%string = true.
Proof. vm_compute. reflexivity. Qed.

(* test/test_err_const6.vim *)
Example test_err_const6 : both false
"const &encoding = ""foo""
"%string
"vimlparser: E996: Cannot lock an option: line 1 col 7
"%string = true.
Proof. vm_compute. reflexivity. Qed.

(* test/test_err_funcarg.vim *)
Example test_err_funcarg : both false
"function Foo(a, b, C, d_e, _f, g_, h0, i1, a:bar)
endfunction
"%string
"vimlparser: E125: Illegal argument: a:bar: line 1 col 44
"%string = true.
Proof. vm_compute. reflexivity. Qed.

(* test/test_err_funcarg_default.vim *)
Example test_err_funcarg_default : both false
"function Foo(abc=1, xyz)
endfunction
"%string
"vimlparser: E989: Non-default argument follows default argument: line 1 col 21
"%string = true.
Proof. vm_compute. reflexivity. Qed.

(* test/test_err_funcarg_duplicate.vim *)
Example test_err_funcarg_duplicate : both false
"function Foo(a, b, b, c)
endfunction
"%string
"vimlparser: E853: Duplicate argument name: b: line 1 col 20
"%string = true.
Proof. vm_compute. reflexivity. Qed.

(* test/test_err_funcarg_firstline.vim *)
Example test_err_funcarg_firstline : both false
"function Foo(firstline)
endfunction
"%string
"vimlparser: E125: Illegal argument: firstline: line 1 col 14
"%string = true.
Proof. vm_compute. reflexivity. Qed.

(* test/test_err_funcarg_lastline.vim *)
Example test_err_funcarg_lastline : both false
"function Foo(lastline)
endfunction
"%string
"vimlparser: E125: Illegal argument: lastline: line 1 col 14
"%string = true.
Proof. vm_compute. reflexivity. Qed.

(* test/test_err_funcname.vim *)
Example test_err_funcname : both false
"function Foo()
endfunction
function s:foo()
endfunction
function <sid>foo()
endfunction
function <SID>foo()
endfunction
function foo{':'}bar()
endfunction
function foo()
endfunction
"%string
"vimlparser: E128: Function name must start with a capital or contain a colon: foo: line 11 col 10
"%string = true.
Proof. vm_compute. reflexivity. Qed.

(* test/test_err_lambdaarg.vim *)
Example test_err_lambdaarg : both false
"echo {a, b, C, d_e, _f, g_, h0, i1, a:bar -> 1}
"%string
"vimlparser: E125: Illegal argument: a:bar: line 1 col 37
"%string = true.
Proof. vm_compute. reflexivity. Qed.

(* test/test_err_lambdaarg_duplicate.vim *)
Example test_err_lambdaarg_duplicate : both false
"echo {a, b, b, c ->1}
"%string
"vimlparser: E853: Duplicate argument name: b: line 1 col 13
"%string = true.
Proof. vm_compute. reflexivity. Qed.

(* test/test_err_method.vim *)
Example test_err_method : both false
"echo 'foo'->{s -> s .. ' bar' }
"%string
"vimlparser: E107: Missing parentheses: lambda: line 1 col 32
"%string = true.
Proof. vm_compute. reflexivity. Qed.

(* test/test_err_toomanyarg.vim *)
Example test_err_toomanyarg : both false
"call Foo(1, 2, 3, 4, 5, 6, 7, 8, 9, 10, 11, 12, 13, 14, 15, 16, 17, 18, 19, 20, 21)
"%string
"vimlparser: E740: Too many arguments for function: line 1 col 83
"%string = true.
Proof. vm_compute. reflexivity. Qed.

(* test/test_err_varname.vim *)
Example test_err_varname : both false
"let foo:bar = 1
"%string
"vimlparser: E461: Illegal variable name: foo:bar: line 1 col 5
"%string = true.
Proof. vm_compute. reflexivity. Qed.

(* test/test_funcarg_default.vim *)
Example test_funcarg_default : both false
"function X(foo=1+2)
  return a:foo
endfunction
"%string
"(function (X (foo (+ 1 2)))
  (return a:foo))
"%string = true.
Proof. vm_compute. reflexivity. Qed.

(* test/test_funcattr.vim *)
Example test_funcattr : both false
"function! F() abort
endfunction

function! F() dict abort range closure
endfunction
"%string
"(function (F))
(function (F))
"%string = true.
Proof. vm_compute. reflexivity. Qed.

(* test/test_funcname.vim *)
Example test_funcname : both false
"function _F()
endfunction

function s:SID()
endfunction

function <SID>SID()
endfunction
"%string
"(function (_F))
(function (s:SID))
(function (<SID>SID))
"%string = true.
Proof. vm_compute. reflexivity. Qed.

(* test/test_heredoc.vim *)
Example test_heredoc : both false
"let a =<< EOS
hello
 world
EOS
let a =<< trim EOS
	hello
world
EOS
let a =<< EOS
EOS
"%string
"(let =<< a (heredoc (list) ""EOS"" (list ""hello"" "" world"")))
(let =<< a (heredoc (list ""trim"") ""EOS"" (list ""\thello"" ""world"")))
(let =<< a (heredoc (list) ""EOS"" (list)))
"%string = true.
Proof. vm_compute. reflexivity. Qed.

(* test/test_issue16_err_line_continuation_lnum.vim *)
Example test_issue16_err_line_continuation_lnum : both false
"let x = y
      \ z
"%string
"vimlparser: E488: Trailing characters: z: line 2 col 9
"%string = true.
Proof. vm_compute. reflexivity. Qed.

(* test/test_issue16_err_line_continuation_lnum2.vim *)
Example test_issue16_err_line_continuation_lnum2 : both false
"let x = y
      \
      \ z
"%string
"vimlparser: E488: Trailing characters: z: line 3 col 9
"%string = true.
Proof. vm_compute. reflexivity. Qed.

(* test/test_keywordname.vim *)
Example test_keywordname : both false
"echo is
echo is#
echo isnot
echo isnot#
echo foo.is
echo foo.isnot
"%string
"(echo is)
(echo is#)
(echo isnot)
(echo isnot#)
(echo (dot foo is))
(echo (dot foo isnot))
"%string = true.
Proof. vm_compute. reflexivity. Qed.

(* test/test_lambda.vim *)
Example test_lambda : both false
""" test_lambda
echo {->1 + 1}
echo {i, v -> v >= s:x}
echo {...->a:000}
echo {x->x*2}(14)
"%string
"; test_lambda
(echo (lambda () (+ 1 1)))
(echo (lambda (i v) (>= v s:x)))
(echo (lambda (...) a:000))
(echo ((lambda (x) (* x 2)) 14))
"%string = true.
Proof. vm_compute. reflexivity. Qed.

(* test/test_litdict.vim *)
Example test_litdict : both false
"echo #{}
echo #{foo-bar: 42}
echo #{foo-: 42}
echo #{-bar: 42}
echo #{1-1:0}
echo #{one: 1, two2: 2, 3three: 3, 44: 4}
echo #{x : {},}
echo [#{},]
"%string
"(echo (dict))
(echo (dict ('foo-bar' 42)))
(echo (dict ('foo-' 42)))
(echo (dict ('-bar' 42)))
(echo (dict ('1-1' 0)))
(echo (dict ('one' 1) ('two2' 2) ('3three' 3) ('44' 4)))
(echo (dict ('x' (dict))))
(echo (list (dict)))
"%string = true.
Proof. vm_compute. reflexivity. Qed.

(* test/test_method.vim *)
Example test_method : both false
"echo 'alice'->s:hello()
echo 'alice'->s:hello('bob')
echo [1,2,3]->map({i,n -> n * 2})
echo 'john'->{s -> 'hello ' .. s }()
echo 'john'->{s,b -> 'hello ' .. s .. ' ... and goodbye ' .. b .. '!' }('bob')
echo 'john'->{... -> 'hello ' .. a:000->join(', ') }('bob')
eval funcs->map({-> v:val() })
let session = s:get_sessions()->filter({-> v:val.name ==# session_name })->get(0, {})
let session = (s:get_sessions()->filter({-> v:val.name ==# session_name }))->get(0, {})
echo expr8->s:flatmap()
echo expr8->s:flatmap()->filter({i -> i % 2})
"%string
"(echo (method 'alice' (s:hello)))
(echo (method 'alice' (s:hello 'bob')))
(echo (method (list 1 2 3) (map (lambda (i n) (* n 2)))))
(echo (method 'john' ((lambda (s) (concat 'hello ' s)))))
(echo (method 'john' ((lambda (s b) (concat (concat (concat (concat 'hello ' s) ' ... and goodbye ') b) '!')) 'bob')))
(echo (method 'john' ((lambda (...) (concat 'hello ' (method a:000 (join ', ')))) 'bob')))
(eval (method funcs (map (lambda () (v:val)))))
(let = session (method (method (s:get_sessions) (filter (lambda () (==# (dot v:val name) session_name)))) (get 0 (dict))))
(let = session (method (method (s:get_sessions) (filter (lambda () (==# (dot v:val name) session_name)))) (get 0 (dict))))
(echo (method expr8 (s:flatmap)))
(echo (method (method expr8 (s:flatmap)) (filter (lambda (i) (% i 2)))))
"%string = true.
Proof. vm_compute. reflexivity. Qed.

(* test/test_modifier_commands.vim *)
Example test_modifier_commands : both false
"aboveleft belowright botright browse confirm hide keepalt keepjumps
	      \ keepmarks keeppatterns lockmarks noswapfile silent tab
	      \ topleft verbose vertical call Func()
abo bel bo bro conf hid keepalt keepj
	      \ kee keepp loc nos sil tab
	      \ to verb vert call Func()
"%string
"(call (Func))
(call (Func))
"%string = true.
Proof. vm_compute. reflexivity. Qed.

(* test/test_neo_helpfind_removed.vim *)
Example test_neo_helpfind_removed : both true
"helpfind
"%string
"vimlparser: E492: Not an editor command: helpfind: line 1 col 1
"%string = true.
Proof. vm_compute. reflexivity. Qed.

(* test/test_neo_tnoremap.vim *)
Example test_neo_tnoremap : both true
"tnoremap <Esc> <C-\><C-N>
"%string
"(excmd ""tnoremap <Esc> <C-\\><C-N>"")
"%string = true.
Proof. vm_compute. reflexivity. Qed.

(* test/test_number.vim *)
Example test_number : both false
"echo 1
echo 1.0
echo 1.23
echo 0xdeadbeef
echo 0Xdeadbeef
echo 033
echo 1.2e-3
echo 4.5E+67
echo 4.5e8
echo 0b1011
echo 0b0
echo 0B1011
echo 0B0
echo 0b0123
"%string
"(echo 1)
(echo 1.0)
(echo 1.23)
(echo 0xdeadbeef)
(echo 0Xdeadbeef)
(echo 033)
(echo 1.2e-3)
(echo 4.5E+67)
(echo 4.5e8)
(echo 0b1011)
(echo 0b0)
(echo 0B1011)
(echo 0B0)
(echo 0b01 23)
"%string = true.
Proof. vm_compute. reflexivity. Qed.

(* test/test_op.vim *)
Example test_op : both false
"echo a is b
echo a is? b
echo a is# b
echo a isnot b
echo a isnot? b
echo a isnot# b
echo a || b
echo a && b
echo a == b
echo a ==? b
echo a ==# b
echo a != b
echo a !=? b
echo a !=# b
echo a >= b
echo a >=? b
echo a >=# b
echo a <= b
echo a <=? b
echo a <=# b
echo a =~ b
echo a =~? b
echo a =~# b
echo a !~ b
echo a !~? b
echo a !~# b
echo a > b
echo a >? b
echo a ># b
echo a < b
echo a <? b
echo a <# b
echo a + b
echo a - b
echo a . b
echo a * b
echo a / b
echo a % b
echo !a
echo a ? b : c
"%string
"(echo (is a b))
(echo (is? a b))
(echo (is# a b))
(echo (isnot a b))
(echo (isnot? a b))
(echo (isnot# a b))
(echo (|| a b))
(echo (&& a b))
(echo (== a b))
(echo (==? a b))
(echo (==# a b))
(echo (!= a b))
(echo (!=? a b))
(echo (!=# a b))
(echo (>= a b))
(echo (>=? a b))
(echo (>=# a b))
(echo (<= a b))
(echo (<=? a b))
(echo (<=# a b))
(echo (=~ a b))
(echo (=~? a b))
(echo (=~# a b))
(echo (!~ a b))
(echo (!~? a b))
(echo (!~# a b))
(echo (> a b))
(echo (>? a b))
(echo (># a b))
(echo (< a b))
(echo (<? a b))
(echo (<# a b))
(echo (+ a b))
(echo (- a b))
(echo (concat a b))
(echo (* a b))
(echo (/ a b))
(echo (% a b))
(echo (! a))
(echo (?: a b c))
"%string = true.
Proof. vm_compute. reflexivity. Qed.

(* test/test_parenexpr.vim *)
Example test_parenexpr : both false
""" test_parenexpr
echo (1)
echo ((1))
echo ((1+1) + 2)
echo ((1+1) + 2 * (3 + 4))
"%string
"; test_parenexpr
(echo 1)
(echo 1)
(echo (+ (+ 1 1) 2))
(echo (+ (+ 1 1) (* 2 (+ 3 4))))
"%string = true.
Proof. vm_compute. reflexivity. Qed.

(* test/test_return.vim *)
Example test_return : both false
"function F()
  return ""foo""
endfunction
"%string
"(function (F)
  (return ""foo""))
"%string = true.
Proof. vm_compute. reflexivity. Qed.

(* test/test_sid.vim *)
Example test_sid : both false
"call <SID>Func()
echo <SID>foo
echo <sid>
"%string
"(call (<SID>Func))
(echo <SID>foo)
(echo <sid>)
"%string = true.
Proof. vm_compute. reflexivity. Qed.

(* test/test_syncmd.vim *)
Example test_syncmd : both false
"if 1 | syntax on | endif
syntax
syntax enable
syntax list GroupName
syn match pythonError ""[&|]\{2,}"" display
syntax match qfFileName /^\zs\S[^|]\+\/\ze[^|\/]\+\/[^|\/]\+|/ conceal cchar=+
syntax region jsString start=+""+ skip=+\\\(""\|$\)+ end=+""\|$+ contains=jsSpecial,@Spell extend
"%string
"(if 1
  (excmd ""syntax on ""))
(excmd ""syntax"")
(excmd ""syntax enable"")
(excmd ""syntax list GroupName"")
(excmd ""syn match pythonError \""[&|]\\{2,}\"" display"")
(excmd ""syntax match qfFileName /^\\zs\\S[^|]\\+\\/\\ze[^|\\/]\\+\\/[^|\\/]\\+|/ conceal cchar=+"")
(excmd ""syntax region jsString start=+\""+ skip=+\\\\\\(\""\\|$\\)+ end=+\""\\|$+ contains=jsSpecial,@Spell extend"")
"%string = true.
Proof. vm_compute. reflexivity. Qed.

(* test/test_vimgreppat.vim *)
Example test_vimgreppat : both false
"vimgrep /abc""def/ foo.txt
"%string
"(excmd ""vimgrep /abc\""def/ foo.txt"")
"%string = true.
Proof. vm_compute. reflexivity. Qed.

(* test/test_wincmd.vim *)
Example test_wincmd : both false
"if 1 | wincmd p | endif
"%string
"(if 1
  (excmd ""wincmd p""))
"%string = true.
Proof. vm_compute. reflexivity. Qed.

(* test/test_xxx_call_last_comma.vim *)
Example test_xxx_call_last_comma : both false
"call foo(a, b,)
call bar(c, d, )
"%string
"(call (foo a b))
(call (bar c d))
"%string = true.
Proof. vm_compute. reflexivity. Qed.

(* test/test_xxx_err_funcarg_space_comma.vim *)
Example test_xxx_err_funcarg_space_comma : both false
"function OK1(a)
endfunction
function OK2( a)
endfunction
function OK3(a )
endfunction
function OK4( a )
endfunction
function OK5(a,b)
endfunction
function OK6(a, b)
endfunction
function OK7( a, b)
endfunction
function OK8(a, b )
endfunction
function OK9( a, b )
endfunction
function NG(a ,b)
endfunction
"%string
"vimlparser: E475: Invalid argument: White space is not allowed before comma: line 19 col 14
"%string = true.
Proof. vm_compute. reflexivity. Qed.

(* test/test_xxx_err_lambdaarg_space_comma.vim *)
Example test_xxx_err_lambdaarg_space_comma : both false
"echo {a->'OK1'}
echo { a->'OK2'}
echo {a ->'OK3'}
echo { a ->'OK4'}
echo {a,b->'OK5'}
echo {a, b->'OK6'}
echo { a, b->'OK7'}
echo {a, b ->'OK8'}
echo { a, b ->'OK9'}
echo {a ,b->'NG'}
"%string
"vimlparser: E475: Invalid argument: White space is not allowed before comma: line 10 col 8
"%string = true.
Proof. vm_compute. reflexivity. Qed.

(* test/test_xxx_funcarg_last_comma.vim *)
Example test_xxx_funcarg_last_comma : both false
"function F(a,)
endfunction
function G(a, )
endfunction
"%string
"(function (F a))
(function (G a))
"%string = true.
Proof. vm_compute. reflexivity. Qed.

(* test/test_xxx_lambdaarg_last_comma.vim *)
Example test_xxx_lambdaarg_last_comma : both false
"echo {a,->0}
echo {a, ->0}
"%string
"(echo (lambda (a) 0))
(echo (lambda (a) 0))
"%string = true.
Proof. vm_compute. reflexivity. Qed.
