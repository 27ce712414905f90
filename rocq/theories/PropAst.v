(** Property theorems: the nodes of the AST of an accepted input. The vocabulary of the
    statements is in Nodes.v and Places.v. *)
From Coq Require Import Lia.
From Verif Require Import Base Utf8 CharClass Reader Vnode Token Ast Api Places Nodes LinesProof ReaderFacts NodeText NodeFacts Blocks Order.

(** For the examples: the nodes down to some depth, and a search among them. *)
Fixpoint subs (d : nat) (n : node) : list node :=
  n :: match d with O => [] | S d' => flat_map (subs d') (fields n) end.
Lemma subs_within d : forall root n m, within root m -> In n (subs d m) -> within root n.
Proof.
  induction d as [|d IH]; intros root n m Hm H; cbn [subs] in H; destruct H as [<-|H]; auto; try contradiction.
  apply in_flat_map in H. destruct H as [k [H1 H2]]. eapply IH; [eapply wi_field; eauto|exact H2].
Qed.
Lemma found bs file opt d test :
  match ParseFile (mkSource bs false) file opt with Returned r => existsb test (subs d r) | _ => false end = true ->
  exists root n, accepted bs false file root /\ within root n /\ test n = true.
Proof.
  destruct (ParseFile _ _ _) as [r| |] eqn:E; try discriminate. intros H. apply existsb_exists in H. destruct H as [n [H1 H2]].
  exists r, n. split; [left; eauto|]. split; auto. eapply subs_within; eauto. constructor.
Qed.

(** C06: every position stored in an AST carries the given file name and the line and column
    of a character, of a line end, or of the end of the input; its Offset is the byte offset
    of that place, or 0 on a continuation line. *)
Theorem C06_node_positions : forall bs fails ts file root n p,
  seen_lines bs ts -> accepted bs fails file root -> within root n -> In p (positions n) ->
  ap_filename p = file /\ (exists x, place_in ts x (ap_line p) (ap_column p)) /\
  (offset_in ts (ap_line p) (ap_column p) (ap_offset p) \/
   (ap_offset p = 0 /\ exists i l, ap_line p = N.of_nat (S i) /\ nth_error ts i = Some l /\ i <> O /\ is_continuation l)).
Proof. intros bs fails ts file root n p Hs HA. exact (node_positions bs fails file root HA ts n p Hs). Qed.
Print Assumptions C06_node_positions.
(** The position of a command node is its CmdPos. *)
Theorem C06_command_position : forall bs fails file root n e,
  accepted bs fails file root -> within root n -> nea n = Some e -> ae_cmdpos e = Some (npos n).
Proof. intros bs fails file root n e HA. exact (node_cmdpos bs fails file root HA n e). Qed.
Print Assumptions C06_command_position.
Example C06_case : exists root n,
  accepted (T "if x" ++ [10] ++ T " call F(1," ++ [10] ++ T "  \ 2)" ++ [10] ++ T "endif") false (T "f.vim") root /\
  within root n /\ match n with NBasicLit p _ _ => (ap_line p =? 3) && (ap_column p =? 5) | _ => false end = true.
Proof. apply (found _ _ None 9); vm_compute; reflexivity. Qed.

(** C11: in every AST the blocks are closed and the fields hold nodes of their types. *)
Theorem C11_typed : forall bs fails file root n,
  accepted bs fails file root -> within root n -> typed n.
Proof. intros bs fails file root n HA. exact (node_typed bs fails file root HA n). Qed.
Print Assumptions C11_typed.
Example C11_case : exists root n,
  accepted (T "for [a, b] in c|try|while a.b[c]|endwhile|catch /x/|finally|endtry|endfor") false [] root /\ within root n /\
  match n with NTry _ _ [NWhile _ _ [] _ _] [_] (Some _) (Some _) => true | _ => false end = true.
Proof. apply (found _ _ None 9); vm_compute; reflexivity. Qed.

(** The statements of a block are commands that neither continue nor close one. *)
Theorem C11_blocks : forall bs fails file root n,
  accepted bs fails file root -> within root n -> Forall (fun m => is_stmt m = true /\ is_part m = false) (block_of n).
Proof. intros bs fails file root n HA. exact (node_block bs fails file root HA n). Qed.
Print Assumptions C11_blocks.
(** The words and lines of a here-document are string literals. *)
Theorem C11_heredoc : forall bs fails file root p fl m body,
  accepted bs fails file root -> within root (NHeredoc p fl m body) ->
  Forall (fun n => exists q s, n = NBasicLit q TSTRING s) (fl ++ body).
Proof. intros bs fails file root p fl m body HA. exact (node_words bs fails file root HA p fl m body). Qed.
Print Assumptions C11_heredoc.
Example C11_blocks_case : exists root n,
  accepted (T "if a|else|echo b|let x =<< trim E" ++ [10] ++ T "l" ++ [10] ++ T "E" ++ [10] ++ T "endif") false [] root /\ within root n /\
  match n with NElse _ _ [NEchoCmd _ _ _ _; NLet _ _ _ _ _ _ (Some (NHeredoc _ [_] _ [_]))] => true | _ => false end = true.
Proof. apply (found _ _ None 9); vm_compute; reflexivity. Qed.

(** C12: :break and :continue occur only in loops, :return only in functions. *)
Theorem C12_break : forall bs fails file root lp fn p e,
  accepted bs fails file root -> inside root lp fn (NBreak p e) -> lp = true.
Proof. intros bs fails file root lp fn p e HA H. exact (node_inside bs fails file root HA _ _ _ H). Qed.
Print Assumptions C12_break.
Theorem C12_continue : forall bs fails file root lp fn p e,
  accepted bs fails file root -> inside root lp fn (NContinue p e) -> lp = true.
Proof. intros bs fails file root lp fn p e HA H. exact (node_inside bs fails file root HA _ _ _ H). Qed.
Print Assumptions C12_continue.
Theorem C12_return : forall bs fails file root lp fn p e r,
  accepted bs fails file root -> inside root lp fn (NReturn p e r) -> fn = true.
Proof. intros bs fails file root lp fn p e r HA H. exact (node_inside bs fails file root HA _ _ _ H). Qed.
Print Assumptions C12_return.
(** Every node within an AST is inside it for some pair of flags. *)
Theorem C12_inside_exists : forall root n, within root n -> exists lp fn, inside root lp fn n.
Proof. exact Derived.within_inside. Qed.
Print Assumptions C12_inside_exists.
Example C12_case : exists root n,
  accepted (T "function F()|while 1|if 1|break|endif|endwhile|return|endfunction") false [] root /\ within root n /\
  match n with NBreak _ _ => true | _ => false end = true.
Proof. apply (found _ _ None 9); vm_compute; reflexivity. Qed.
Example C12_return_case : exists root n,
  accepted (T "function F()|return 1|endfunction") false [] root /\ within root n /\
  match n with NReturn _ _ (Some _) => true | _ => false end = true.
Proof. apply (found _ _ None 9); vm_compute; reflexivity. Qed.

(** C13 does not hold: the comment on the first line of a here-document is in front of its
    :let. *)
Theorem C13_order_refuted : exists bs p x y,
  ParseFile (mkSource bs false) [] None = Returned (NFile p [x; y]) /\ earlier (npos y) (npos x).
Proof.
  exists (T "let x =<< E "" c" ++ [10] ++ T "E"). do 3 eexists. split. vm_compute. reflexivity.
  right. vm_compute. auto.
Qed.
Print Assumptions C13_order_refuted.
(** The commands and comments of a file, each before those of its blocks, in the order of
    their positions, but for two exceptions (see in_order): the comment of a here-document,
    and a line without a command followed by a comment, which share their position. *)
Theorem C13_order_partial : forall src file opt p body,
  ParseFile src file opt = Returned (NFile p body) -> ForallOrdPairs in_order (flat_map order body).
Proof. exact file_order. Qed.
Print Assumptions C13_order_partial.
(** That list has all commands and comments. *)
Theorem C13_order_complete : forall bs fails file opt p body n,
  ParseFile (mkSource bs fails) file opt = Returned (NFile p body) ->
  within (NFile p body) n -> nea n <> None \/ is_comment n -> In n (flat_map order body).
Proof. exact file_listed. Qed.
Print Assumptions C13_order_complete.
Example C13_case : exists p body, 
  ParseFile (mkSource (T "if 1|echo 2|elseif 3|echo 4|else|echo 5|endif|"" six") false) [] None = Returned (NFile p body) /\
  map (fun n => ap_column (npos n)) (flat_map order body) = [1; 6; 13; 22; 29; 34; 41; 47].
Proof. do 2 eexists. split; vm_compute; reflexivity. Qed.

(** C14: Excmd.Command is the source text from ExArg.LinePos on, line ends as line feeds. *)
Theorem C14_excmd_text : forall bs fails file root cells p s e,
  accepted bs fails file root -> source_cells bs cells -> within root (NExcmd p s e) ->
  exists q post, ae_linepos e = Some q /\ run_at cells (ap_line q) (ap_column q) s post.
Proof. intros bs fails file root cells p s e HA HC. exact (node_excmd bs fails file root HA cells HC p s e). Qed.
Print Assumptions C14_excmd_text.
(** Every source has such cells. *)
Theorem C14_cells_exist : forall bs, exists cells, source_cells bs cells.
Proof. exact source_exists. Qed.
Print Assumptions C14_cells_exist.
Example C14_case : exists root n,
  accepted (T "silent! append" ++ [10] ++ T "text" ++ [10] ++ T "." ++ [10]) false [] root /\ within root n /\
  match n with NExcmd _ s _ => text_eqb s (T "silent! append" ++ [10] ++ T "text" ++ [10] ++ T ".") | _ => false end = true.
Proof. apply (found _ _ None 9); vm_compute; reflexivity. Qed.

(** C15 does not hold for the keys of a dictionary written with #{}: quotes are added. *)
Theorem C15_literal_refuted : exists bs root cells p k s,
  accepted bs false [] root /\ source_cells bs cells /\ within root (NBasicLit p k s) /\
  ~ exists post, text_at cells (ap_line p) (ap_column p) s post.
Proof.
  set (bs := T "echo #{a: 1}").
  destruct (found bs [] None 9 (fun n => match n with NBasicLit _ _ (r :: _) => r =? 39 | _ => false end)) as [root [n [H1 [H2 H3]]]].
  { vm_compute; reflexivity. }
  destruct n; try discriminate. exists bs, root, (view (open_source (mkSource bs false))).
  do 3 eexists. split; [exact H1|]. split; [apply (source_view _ false); reflexivity|]. split; [exact H2|].
  intros [post [pre [mid [E [Em _]]]]]. destruct value as [|v value]; [discriminate H3|].
  assert (v = 39) by (apply N.eqb_eq; exact H3). subst v.
  destruct mid as [|x mid]; [discriminate|]. cbn [map] in Em. inversion Em as [[E1 E2]].
  assert (K : In (R 39) (map cell_of (view (open_source (mkSource bs false))))).
  { rewrite E, !map_app. apply in_or_app. right. left. exact E1. }
  vm_compute in K. intuition discriminate.
Qed.
Print Assumptions C15_literal_refuted.
(** The value of a literal is the source text at its position; or it is a string, the node is
    the key of a dictionary written with #{}, its value is the key between quotes, and its
    position is that of the second character of the key (or of what follows a key of one
    character). *)
Theorem C15_literal_partial : forall bs fails file root cells p k s,
  accepted bs fails file root -> source_cells bs cells -> within root (NBasicLit p k s) ->
  (exists post, text_at cells (ap_line p) (ap_column p) s post) \/
  (k = TSTRING /\ exists r w pre l c mid post, s = T "'" ++ (r :: w) ++ T "'" /\
     cells = pre ++ (R r, l, c) :: mid ++ post /\ map cell_of mid = map R w /\
     starts_at (mid ++ post) (ap_line p) (ap_column p)).
Proof. intros bs fails file root cells p k s HA HC. exact (node_lit bs fails file root HA cells HC p k s). Qed.
Print Assumptions C15_literal_partial.
(** The name of an identifier, and each literal part of a curly-braces name, is the source text
    at its position. *)
Theorem C15_identifier : forall bs fails file root cells p s,
  accepted bs fails file root -> source_cells bs cells ->
  within root (NIdent p s) \/ within root (NCurlyLit p s) ->
  exists post, text_at cells (ap_line p) (ap_column p) s post.
Proof. intros bs fails file root cells p s HA HC. exact (node_ident bs fails file root HA cells HC p s). Qed.
Print Assumptions C15_identifier.
Example C15_case : exists root n,
  accepted (T "let x = 'a''b' . g:{i}name") false [] root /\ within root n /\
  match n with NBasicLit _ TSTRING s => text_eqb s (T "'a''b'") | _ => false end = true.
Proof. apply (found _ _ None 9); vm_compute; reflexivity. Qed.
Example C15_ident_case : exists root n,
  accepted (T "let x = 'a''b' . g:{i}name") false [] root /\ within root n /\
  match n with NCurlyLit _ s => text_eqb s (T "name") | _ => false end = true.
Proof. apply (found _ _ None 9); vm_compute; reflexivity. Qed.

(** C16: the nesting of operators follows the levels of ":help expression-syntax". *)
Theorem C16_nesting : forall bs fails file root n,
  accepted bs fails file root -> within root n -> well_nested n.
Proof. intros bs fails file root n HA. exact (node_nested bs fails file root HA n). Qed.
Print Assumptions C16_nesting.
Example C16_case : exists root n,
  accepted (T "echo a || b && c == d - e - f * !g.h ? i : j") false [] root /\ within root n /\
  match n with NBinary (Some (NBinary _ _ TMINUS _)) _ TMINUS (Some (NBinary _ _ TSTAR _)) => true | _ => false end = true.
Proof. apply (found _ _ None 9); vm_compute; reflexivity. Qed.

(** C18: a call has at most 20 arguments. *)
Theorem C18_arguments : forall bs fails file root n,
  accepted bs fails file root -> within root n -> few_args n.
Proof. intros bs fails file root n HA. exact (node_args bs fails file root HA n). Qed.
Print Assumptions C18_arguments.
Example C18_case : exists root n,
  accepted (T "call f(1,2,3,4,5,6,7,8,9,10,11,12,13,14,15,16,17,18,19,20)") false [] root /\ within root n /\
  match n with NCall _ _ args => Nat.eqb (length args) 20 | _ => false end = true.
Proof. apply (found _ _ None 9); vm_compute; reflexivity. Qed.

(** C19, C20: the parameters of lambdas and functions. *)
Theorem C19_lambda_parameters : forall bs fails file root p ps x,
  accepted bs fails file root -> within root (NLambda p ps x) -> params_ok [] (map ident_name ps).
Proof. intros bs fails file root p ps x HA. exact (node_params bs fails file root HA (NLambda p ps x)). Qed.
Print Assumptions C19_lambda_parameters.
Example C19_case : exists root n,
  accepted (T "echo {a, b, ... -> a}") false [] root /\ within root n /\
  match n with NLambda _ [_; _; _] _ => true | _ => false end = true.
Proof. apply (found _ _ None 9); vm_compute; reflexivity. Qed.
Theorem C20_function_parameters : forall bs fails file root p e b nm ps ds at_ en,
  accepted bs fails file root -> within root (NFunction p e b nm ps ds at_ en) ->
  params_ok [T "firstline"; T "lastline"] (map ident_name ps) /\
  exists names rest, map ident_name ps = names ++ rest /\ (rest = [] \/ rest = [T "..."]) /\
    Forall arg_name names /\ (length ds <= length names)%nat.
Proof.
  intros bs fails file root p e b nm ps ds at_ en HA.
  exact (node_params bs fails file root HA (NFunction p e b nm ps ds at_ en)).
Qed.
Print Assumptions C20_function_parameters.
Example C20_case : exists root n,
  accepted (T "function! s:f(a, b = 1, ...) abort" ++ [10] ++ T "endfunction") false [] root /\ within root n /\
  match n with NFunction _ _ _ _ [_; _; _] [_] _ _ => true | _ => false end = true.
Proof. apply (found _ _ None 9); vm_compute; reflexivity. Qed.

(** C21: targets of assignments and names of functions. *)
Theorem C21_command_shape : forall bs fails file root n,
  accepted bs fails file root -> within root n -> command_shape n.
Proof. intros bs fails file root n HA. exact (node_command bs fails file root HA n). Qed.
Print Assumptions C21_command_shape.
Example C21_case : exists root n,
  accepted (T "let [a, b.c; d[1]] .= x()") false [] root /\ within root n /\
  match n with NLet _ _ _ None [_; _] (Some _) (Some _) => true | _ => false end = true.
Proof. apply (found _ _ None 9); vm_compute; reflexivity. Qed.
(** The first argument of :unlet can be any expression. *)
Example C21_unlet : exists root n, accepted (T "unlet 1 + 2") false [] root /\ within root n /\
  match n with NUnLet _ _ [NBinary _ _ _ _] => true | _ => false end = true.
Proof. apply (found _ _ None 9); vm_compute; reflexivity. Qed.

(** C38 does not hold: after a bar the body starts on the line of the :let. *)
Fixpoint no_later (l : list (cell * N * N)) (r : N) : bool :=
  match l with
  | [] => true
  | (EOL, _, _) :: t => forallb (fun x => match cell_of x with R y => negb (y =? r) | EOL => true end) t
  | _ :: t => no_later t r
  end.
Lemma no_later_spec r A n c rest : no_later (A ++ (EOL, n, c) :: rest) r = true -> ~ In (R r) (map cell_of rest).
Proof.
  assert (G : forall l, forallb (fun x => match cell_of x with R y => negb (y =? r) | EOL => true end) l = true -> ~ In (R r) (map cell_of l)).
  { intros l H K. rewrite forallb_forall in H. apply in_map_iff in K. destruct K as [x [K1 K2]]. specialize (H _ K2). rewrite K1, N.eqb_refl in H.
    discriminate. }
  induction A as [|[[[|y] m] k] A IH]; cbn [app no_later]; auto.
  intros H K. apply G in H. apply H. rewrite map_app. apply in_or_app. right. right. auto.
Qed.
Theorem C38_body_refuted : exists bs root cells p fl m body,
  accepted bs false [] root /\ source_cells bs cells /\ within root (NHeredoc p fl m body) /\
  ~ heredoc_text cells EOL fl m body.
Proof.
  set (bs := T "let x =<< END | foo" ++ [10] ++ T "END").
  destruct (found bs [] None 9 (fun n => match n with NHeredoc _ _ _ [NBasicLit _ _ s] => text_eqb s (T " foo") | _ => false end)) as [root [n [H1 [H2 H3]]]].
  { vm_compute; reflexivity. }
  destruct n; try discriminate.
  exists bs, root, (view (open_source (mkSource bs false))).
  do 4 eexists. split; [exact H1|]. split; [apply (source_view _ false); reflexivity|]. split; [exact H2|].
  intros [pre [mid [t [ws [cm [l [c [rest [post [E [_ [_ [_ [_ K]]]]]]]]]]]]]].
  assert (N : ~ In (R 102) (map cell_of rest)).
  { apply (no_later_spec 102 (pre ++ mid) l c). rewrite <- app_assoc, <- E. vm_compute. reflexivity. }
  inversion K; subst; [discriminate H3|]. destruct body0; [|discriminate H3]. apply Cursor.text_eqb_eq in H3. subst s.
  apply N. rewrite map_app. apply in_or_app. left. rewrite H. right; left. reflexivity.
Qed.
Print Assumptions C38_body_refuted.
(** The body of a here-document is the lines in front of the first one equal to the marker,
    starting after the line of the :let, or after a bar on it. Missing from C38: the bar. *)
Theorem C38_body_partial : forall bs fails file root cells p fl m body,
  accepted bs fails file root -> source_cells bs cells -> within root (NHeredoc p fl m body) ->
  heredoc_text cells EOL fl m body \/ heredoc_text cells (R (C "|")) fl m body.
Proof. intros bs fails file root cells p fl m body HA HC. exact (node_heredoc bs fails file root HA cells HC p fl m body). Qed.
Print Assumptions C38_body_partial.
Example C38_case : exists root n,
  accepted (T "let x =<< trim END" ++ [10] ++ T "  foo" ++ [10;10] ++ T " END" ++ [10] ++ T "END") false [] root /\ within root n /\
  match n with NHeredoc _ [_] _ [_; _; _] => true | _ => false end = true.
Proof. apply (found _ _ None 9); vm_compute; reflexivity. Qed.

(** C39: a comment is the text from after its quote to the end of the line. *)
Theorem C39_comment : forall bs fails file root cells p s,
  accepted bs fails file root -> source_cells bs cells -> within root (NComment p s) ->
  exists post, text_at cells (ap_line p) (ap_column p) (T """" ++ s) post /\ line_end post.
Proof. intros bs fails file root cells p s HA HC. exact (node_comment bs fails file root HA cells HC p s). Qed.
Print Assumptions C39_comment.
Example C39_case : exists root n,
  accepted (T "let x = 1 "" a | ""b" ++ [10] ++ T "echo") false [] root /\ within root n /\
  match n with NComment _ s => text_eqb s (T " a | ""b") | _ => false end = true.
Proof. apply (found _ _ None 9); vm_compute; reflexivity. Qed.

(** C41: the position of an operator, index, call, list, dictionary, lambda or parenthesis is
    that of its operator or opening bracket. *)
Theorem C41_operator_position : forall bs fails file root cells n,
  accepted bs fails file root -> source_cells bs cells -> within root n -> has_mark n ->
  exists t post, In t (mark n) /\ text_at cells (ap_line (npos n)) (ap_column (npos n)) t post.
Proof. intros bs fails file root cells n HA HC. exact (node_mark bs fails file root HA cells HC n). Qed.
Print Assumptions C41_operator_position.
Example C41_case : exists root n,
  accepted (T "echo a ==# [b.c(d)]") false [] root /\ within root n /\
  match n with NBinary _ p TEQEQCS _ => ap_column p =? 8 | _ => false end = true.
Proof. apply (found _ _ None 9); vm_compute; reflexivity. Qed.

(** C42: the text at the position of a command node names its command, and the command is one
    that gives a node of this type; only lines without a command have no Cmd. *)
Theorem C42_command_name : forall bs fails file root cells n e,
  accepted bs fails file root -> source_cells bs cells -> within root n -> nea n = Some e ->
  match ae_cmd e with
  | Some x => command_of n x /\
              exists s post, names_command s x /\ text_at cells (ap_line (npos n)) (ap_column (npos n)) s post
  | None => exists p s, n = NExcmd p s e
  end.
Proof. intros bs fails file root cells n e HA HC. exact (node_names bs fails file root HA cells HC n e). Qed.
Print Assumptions C42_command_name.
Example C42_case : exists root n,
  accepted (T "fu! F()|sil! 1,2d|endf") false [] root /\ within root n /\
  match n with NExcmd _ _ e => match ae_cmd e with Some x => text_eqb (c_name x) (T "delete") | None => false end | _ => false end = true.
Proof. apply (found _ _ None 9); vm_compute; reflexivity. Qed.
