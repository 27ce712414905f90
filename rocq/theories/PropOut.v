(** Property theorems: compiler, printer and token names. The vocabulary of the statements is
    in Sexpr.v and Nodes.v. *)
From Coq Require Import Lia.
From Verif Require Import Base Utf8 CharClass Reader Vnode Token Ast CmdParser Export RefCompiler Compiler Printer Api Places Nodes Sexpr
  ApiExpr ApiFile NodeFacts CompileProof ExprText Format FormatProof OutProof RefAgree PropAst.

(** For the examples. *)
Fixpoint every (test : node -> bool) (d : nat) (n : node) : bool :=
  test n && match d with O => is_nil (fields n) | S d' => forallb (every test d') (fields n) end.
Lemma throughout test d : forall n, every test d n = true -> forall m, within n m -> test m = false -> False.
Proof.
  induction d as [|d IH]; intros n H m W F; cbn [every] in H; apply andb_prop in H; destruct H as [H1 H2];
    apply within_inv in W; destruct W as [->|[k [K W]]]; try congruence.
  - destruct (fields n); [contradiction|discriminate].
  - rewrite forallb_forall in H2. exact (IH k (H2 k K) m W F).
Qed.

(** C29: compiling an AST succeeds, for every indentation. *)
Theorem C29_compile_total : forall unit bs fails file root, accepted bs fails file root ->
  exists out root', compile_with unit root = Ok (mkCompiled out false root').
Proof.
  intros unit bs fails file root HA. destruct (compile_goes unit bs fails file root HA) as [out [n' [E _]]]. eauto.
Qed.
Print Assumptions C29_compile_total.
Example C29_case : exists root c,
  accepted (T "function! F(a, b = 1, ...) abort|try|for [x; y] in z|if x|elseif y|else|endif|endfor|catch /E/|finally|endtry|endfunction") false [] root /\
  Compile root = Ok c /\ (100 <? N.of_nat (length (c_out c))) = true.
Proof. do 2 eexists. split; [left; exists None; vm_compute; reflexivity|]. split; vm_compute; reflexivity. Qed.

(** C30 does not hold: Compile cuts the "..." from the parameters of a function, and a second
    run writes something else. *)
Theorem C30_repeatable_refuted : exists src root out root' out' root'',
  ParseFile src [] None = Returned root /\
  Compile root = Ok (mkCompiled out false root') /\ root' <> root /\
  Compile root' = Ok (mkCompiled out' false root'') /\ out' <> out.
Proof.
  exists (mkSource (T "function F(...)|endfunction") false). do 5 eexists.
  split; [vm_compute; reflexivity|]. split; [vm_compute; reflexivity|]. split; [intros H; inversion H|].
  split; [vm_compute; reflexivity|]. intros H; inversion H.
Qed.
Print Assumptions C30_repeatable_refuted.
(** An AST without such a function is left as it is, so that every run gives the same. *)
Theorem C30_repeatable_partial : forall unit bs fails file root,
  accepted bs fails file root -> no_variadic root ->
  exists out, compile_with unit root = Ok (mkCompiled out false root).
Proof.
  intros unit bs fails file root HA H. destruct (compile_goes unit bs fails file root HA) as [out [n' [E N]]].
  exists out. rewrite E, N; auto. exact (no_variadic_dots root (accepted_sound _ _ _ _ HA) H).
Qed.
Print Assumptions C30_repeatable_partial.
Example C30_case : exists root,
  accepted (T "function F(a, b)|return a|endfunction") false [] root /\ no_variadic root.
Proof.
  eexists. split; [left; exists None; vm_compute; reflexivity|]. intros m W V.
  refine (throughout (fun m => match m with NFunction _ _ _ _ ps _ _ _ => negb (ends_dots ps) | _ => true end) 9 _ _ m W _);
    [vm_compute; reflexivity|].
  destruct m; try contradiction V. destruct V as [ps [q ->]]. unfold ends_dots.
  assert (L : lastn_opt (ps ++ [NIdent q (T "...")]) = Some (NIdent q (T "..."))).
  { clear. induction ps as [|x l IH]; [reflexivity|]. cbn [app lastn_opt]. rewrite IH. destruct l; reflexivity. }
  rewrite L. reflexivity.
Qed.

(** C31 does not hold: the text of an expression is used as a format. *)
Theorem C31_verbatim_refuted : exists src n x out n',
  ParseExpr src = Returned (Some n) /\ sexp n x /\ Compile n = Ok (mkCompiled out false n') /\ out <> sx_text x.
Proof.
  exists (mkSource (T "'100%'") false). do 4 eexists. split; [vm_compute; reflexivity|]. split; [constructor|].
  split; [vm_compute; reflexivity|]. intros H; discriminate H.
Qed.
Print Assumptions C31_verbatim_refuted.
(** An expression has one S-expression, and it is written if it has no percent sign. *)
Theorem C31_verbatim_partial : forall unit bs fails file n,
  accepted bs fails file n -> is_expr n = true ->
  exists x, sexp n x /\ (forall y, sexp n y -> y = x) /\
    (~ In (C "%") (sx_text x) -> compile_with unit n = Ok (mkCompiled (sx_text x) false n)).
Proof.
  intros unit bs fails file n HA HE. destruct (expr_speaks n (accepted_good _ _ _ _ HA) HE) as [x [S E]].
  exists x. split; auto. split; [intros y Hy; exact (sexp_fun n y x Hy S)|]. rewrite <- E. exact (compile_plain unit n HE).
Qed.
Print Assumptions C31_verbatim_partial.
Example C31_case : exists n x, 
  ParseExpr (mkSource (T "a[1:] . {'k': f(x, -1)} ? {y -> y.z} : [b =~# 'c', v{d}w]") false) = Returned (Some n) /\
  sexp n x /\ sx_text x = 
  T "(?: (concat (slice a 1 nil) (dict ('k' (f x (- 1))))) (lambda (y) (dot y z)) (list (=~# b 'c') v{d}w))".
Proof.
  do 2 eexists. split; [vm_compute; reflexivity|]. split.
  - repeat econstructor.
  - vm_compute. reflexivity.
Qed.

(** The output for every expression: what fmt makes of the S-expression as a format. It is
    the S-expression itself exactly when there is no percent sign in it. *)
Theorem C31_format : forall unit bs fails file n,
  accepted bs fails file n -> is_expr n = true ->
  exists x out, sexp n x /\ compile_with unit n = Ok (mkCompiled out false n) /\
    formatted (sx_text x) out /\ (forall o, formatted (sx_text x) o -> o = out) /\
    (out = sx_text x <-> ~ In (C "%") (sx_text x)).
Proof.
  intros unit bs fails file n HA HE. destruct (expr_speaks n (accepted_good _ _ _ _ HA) HE) as [x [S E]].
  exists x, (sprintf0 (sx_text x)). split; auto. split; [rewrite <- E; destruct n; try discriminate HE; reflexivity|].
  split; [apply sprintf_formatted; lia|]. split; [apply formatted_fun|]. apply sprintf_iff.
Qed.
Print Assumptions C31_format.
Example C31_format_case : exists n, accepted (T "'%-5.2d%%' . 'a%'") false [] n /\ is_expr n = true /\
  match Compile n with Ok c => text_eqb (c_out c) (T "(concat '%!d(MISSING)%' 'a%!'(MISSING))") | _ => false end = true.
Proof. eexists. split; [right; split; [reflexivity|vm_compute; reflexivity]|]. split; [reflexivity|]. vm_compute. reflexivity. Qed.

(** C32: the text of a command is written in quotes such that neither the text nor its end
    can be mistaken. *)
Theorem C32_excmd : forall unit p s e, exists n',
  compile_with unit (NExcmd p s e) = Ok (mkCompiled (T "(excmd " ++ protected s ++ T ")" ++ [10]) false n').
Proof. intros. eexists. exact (compile_excmd unit p s e). Qed.
Print Assumptions C32_excmd.
Theorem C32_echohl : forall unit p s e x, ae_cmd e = Some x -> exists n',
  compile_with unit (NEchohl p e s) = Ok (mkCompiled (T "(" ++ c_name x ++ [32] ++ protected s ++ T ")" ++ [10]) false n').
Proof. intros. eexists. apply compile_echohl; auto. Qed.
Print Assumptions C32_echohl.
Theorem C32_unambiguous : forall s s' rest rest', protected s ++ rest = protected s' ++ rest' -> s = s' /\ rest = rest'.
Proof.
  intros s s' r r' H. unfold protected in H. rewrite <- !app_assoc in H. cbn [app] in H. injection H as H.
  exact (protect_inj s s' r r' H).
Qed.
Print Assumptions C32_unambiguous.
Theorem C32_different : forall unit p p' s s' e e' out n n',
  compile_with unit (NExcmd p s e) = Ok (mkCompiled out false n) ->
  compile_with unit (NExcmd p' s' e') = Ok (mkCompiled out false n') -> s = s'.
Proof.
  intros unit p p' s s' e e' out n n' H H'. rewrite compile_excmd in H, H'. 
  assert (X : T "(excmd " ++ protected s ++ (T ")" ++ [10]) = T "(excmd " ++ protected s' ++ (T ")" ++ [10])) by congruence.
  apply app_inv_head in X.
  exact (proj1 (C32_unambiguous _ _ _ _ X)).
Qed.
Print Assumptions C32_different.
Example C32_case : exists root,
  accepted (T "map x ""\a""") false [] root /\
  match Compile root with Ok c => text_eqb (c_out c) (T "(excmd ""map x \""\\a\"""")" ++ [10]) | _ => false end = true.
Proof. eexists. split; [left; exists None; vm_compute; reflexivity|]. vm_compute. reflexivity. Qed.

(** C35 does not hold: the printer panics on a list. *)
Theorem C35_printer_refuted : exists src n k, ParseExpr src = Returned (Some n) /\ Fprint n = Panic k.
Proof. exists (mkSource (T "[1]") false). do 2 eexists. split; vm_compute; reflexivity. Qed.
Print Assumptions C35_printer_refuted.
(** It prints exactly the expressions whose nodes are all printable, and returns an error for
    a file. *)
Theorem C35_printer_partial : forall bs fails file root, accepted bs fails file root ->
  (is_expr root = false /\ Fprint root = Ok NotImplemented) \/
  (is_expr root = true /\ printable root /\ exists s, Fprint root = Ok (Printed s)) \/
  (is_expr root = true /\ ~ printable root /\ exists k, Fprint root = Panic k).
Proof. exact fprint_cases. Qed.
Print Assumptions C35_printer_partial.
Example C35_case : exists n, 
  ParseExpr (mkSource (T "-a[b + 1] * (c == 'd')") false) = Returned (Some n) /\
  Fprint n = Ok (Printed (T "-a[b + 1] * (c == 'd')")).
Proof. eexists. split; vm_compute; reflexivity. Qed.

(** C36 does not hold: =~ and =~? have no precedence. *)
Theorem C36_precedence_refuted : exists src n k, ParseExpr src = Returned (Some n) /\ level n = 4 /\ opprec n = Panic k.
Proof. exists (mkSource (T "a =~ b") false). do 2 eexists. repeat split; vm_compute; reflexivity. Qed.
Print Assumptions C36_precedence_refuted.
(** All other operators have the level at which the parser builds them (C16). *)
Theorem C36_precedence_partial : forall bs fails file root n, accepted bs fails file root -> within root n ->
  match n with
  | NBinary _ _ t _ => t <> TMATCH -> t <> TMATCHCI -> exists k, opprec n = Ok k /\ N.of_nat k = level n
  | NUnary _ _ _ | NTernary _ _ _ _ | NSubscript _ _ _ | NSlice _ _ _ _ | NMethod _ _ _ _ | NCall _ _ _ | NDot _ _ _ =>
    exists k, opprec n = Ok k /\ N.of_nat k = level n
  | _ => True
  end.
Proof.
  intros bs fails file root n HA Hn. destruct (accepted_good _ _ _ _ HA n Hn) as [_ Op].
  destruct n; cbn [op_known opprec level] in *; auto; try (eexists; split; reflexivity).
  - intros N1 N2. destruct op; cbn [binary_level binprec] in *; try congruence; eexists; split; reflexivity.
  - destruct Op as [<-|[<-|[<-|[]]]]; eexists; split; reflexivity.
Qed.
Print Assumptions C36_precedence_partial.
Theorem C36_table_partial : forall t, t <> TMATCH -> t <> TMATCHCI -> option_map N.of_nat (binprec t) = binary_level t.
Proof. intros t N1 N2. destruct t; try congruence; reflexivity. Qed.
Print Assumptions C36_table_partial.
Example C36_case : exists root n, ParseExpr (mkSource (T "a ? b || c : d && e !~ f + g * -h[i]") false) = Returned (Some root) /\
  within root n /\ level n = 6.
Proof.
  eexists. eexists. split; [vm_compute; reflexivity|]. split.
  - eapply wi_field; [eapply wi_field; [eapply wi_field; [eapply wi_field; [apply wi_root|]|]|]|]; cbn [fields on app In].
    + right. right. left. reflexivity.
    + right. left. reflexivity.
    + right. left. reflexivity.
    + right. left. reflexivity.
  - reflexivity.
Qed.

(** C37: the name of an operator token is its spelling ... *)
Theorem C37_names : forall t s l, op_text t = s :: l -> token_string t = s.
Proof. intros t s l H. destruct t; inversion H; reflexivity. Qed.
Print Assumptions C37_names.
(** ... different tokens have different names ... *)
Theorem C37_distinct : forall t t', token_string t = token_string t' -> t = t'.
Proof.
  assert (K : forallb (fun t => forallb (fun t' => implb (text_eqb (token_string t) (token_string t'))
                (gtok_num t =? gtok_num t')) all_gtok) all_gtok = true) by (vm_compute; reflexivity).
  assert (A : forall t, In t all_gtok) by (intros t; destruct t; unfold all_gtok; repeat first [left; reflexivity|right]).
  intros t t' H. rewrite forallb_forall in K. specialize (K t (A t)). rewrite forallb_forall in K. specialize (K t' (A t')).
  rewrite (proj2 (Cursor.text_eqb_eq _ _) H) in K. cbn [implb] in K. apply N.eqb_eq in K.
  destruct t, t'; try reflexivity; discriminate K.
Qed.
Print Assumptions C37_distinct.
(** ... and the name of a binary operator between two operands is read as that operator. *)
Theorem C37_read_back : forall t k, binary_level t = Some k -> exists n,
  ParseExpr (mkSource (T "a " ++ token_string t ++ T " b") false) = Returned (Some n) /\
  match n with NBinary (Some (NIdent _ l)) _ t' (Some (NIdent _ r)) => t' = t /\ l = T "a" /\ r = T "b" | _ => False end.
Proof.
  intros t k H. destruct t; try discriminate H; (eexists; split; [vm_compute; reflexivity|]; cbn; auto).
Qed.
Print Assumptions C37_read_back.
(** The other integers have names as well. *)
Theorem C37_total : forall z, token_string_Z z <> [].
Proof.
  intros z. unfold token_string_Z. destruct (is_nil _) eqn:E; [discriminate|].
  intros H. rewrite H in E. discriminate.
Qed.
Print Assumptions C37_total.
Example C37_case : token_string TNOMATCHCS = T "!~#" /\ op_text TNOMATCHCS = [T "!~#"] /\ binary_level TNOMATCHCS = Some 4.
Proof. repeat split. Qed.

(** C33: the two compilers. [vim_parse] delivers the internal tree, [rc_compile] is the
    reference compiler, which delivers lines. They differ on a function in a block, where
    Compile writes the indentation several times. *)
Definition nonblank (x : N) : bool := negb (x =? C " ").
Theorem C33_same_refuted : exists src root v lines out root',
  ParseFile src [] None = Returned root /\ vim_parse false (open_source src) = Ok v /\
  rc_compile v = Ok lines /\ Compile root = Ok (mkCompiled out false root') /\ out <> concat (map (fun l => l ++ [10]) lines).
Proof.
  exists (mkSource (T "if x" ++ [10] ++ T "function F(a)" ++ [10] ++ T "endfunction" ++ [10] ++ T "endif") false). do 5 eexists.
  split; [vm_compute; reflexivity|]. split; [vm_compute; reflexivity|]. split; [vm_compute; reflexivity|].
  split; [vm_compute; reflexivity|]. vm_compute. discriminate.
Qed.
Print Assumptions C33_same_refuted.
(** Otherwise the texts are the same, and they are the same up to blanks in every case. *)
Theorem C33_same_partial : forall src file opt root, ParseFile src file opt = Returned root ->
  exists v lines out root', vim_parse (neovim_of opt) (open_source src) = Ok v /\ rc_compile v = Ok lines /\
    Compile root = Ok (mkCompiled out false root') /\
    filter nonblank out = filter nonblank (concat (map (fun l => l ++ [10]) lines)) /\
    ((forall stmt inner f, In stmt (fields root) -> In inner (fields stmt) -> within inner f -> is_func f = false) ->
     out = concat (map (fun l => l ++ [10]) lines)).
Proof. exact source_agree. Qed.
Print Assumptions C33_same_partial.
Example C33_case : exists root v lines out root',
  let src := mkSource (T "function! F(a, b = 1, ...) abort" ++ [10] ++ T "try|for [x; y] in z|lockvar 1 x|endfor|catch /E/|echo x|finally|endtry" ++ [10] ++
                       T "if x|return|elseif y|else|endif" ++ [10] ++ T "endfunction" ++ [10] ++ T "map a ""b") false in
  ParseFile src [] None = Returned root /\ vim_parse false (open_source src) = Ok v /\ rc_compile v = Ok lines /\
  Compile root = Ok (mkCompiled out false root') /\
  (forall stmt inner f, In stmt (fields root) -> In inner (fields stmt) -> within inner f -> is_func f = false) /\
  nth 0 lines [] = T "(function (F a (b 1) . ...)" /\ nth 3 lines [] = T "      (lockvar 1 x))" /\ out = concat (map (fun l => l ++ [10]) lines).
Proof.
  do 5 eexists. split; [vm_compute; reflexivity|]. split; [vm_compute; reflexivity|]. split; [vm_compute; reflexivity|].
  split; [vm_compute; reflexivity|]. split; [|split; [vm_compute; reflexivity|split; vm_compute; reflexivity]].
  match goal with |- forall stmt inner f, In stmt (fields ?r) -> _ =>
    assert (K : forallb (fun s => forallb (every (fun n => negb (is_func n)) 8) (fields s)) (fields r) = true) by (vm_compute; reflexivity);
    revert K; generalize (fields r) end.
  intros l K stmt inner f H1 H2 W. destruct (is_func f) eqn:F; auto. exfalso. rewrite forallb_forall in K. specialize (K stmt H1).
  cbv beta in K. rewrite forallb_forall in K. eapply (throughout (fun n => negb (is_func n)) 8 inner (K inner H2)); [exact W|rewrite F; reflexivity].
Qed.
