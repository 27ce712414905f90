(** Properties C34 and C49: expressions written and printed are read. *)
From Verif Require Import Base Utf8 CharClass Reader Vnode Token Ast Grammar Export Api Places Nodes Join Printer Written
  WrittenProof WrittenBrace OutProof PrintBack Rest JoinProof ScriptProof.

(** C49: completeness of the expression parser. If a line consists of a text for the tree
    [n], with blanks around it, ParseExpr delivers [n], up to positions. [written] is the
    grammar of Written.v. It leaves out the texts below, which the parser does not read,
    and for the same reasons some others: see [brace_head], [no_blob] and [wk_word]. *)
Theorem C49_reads_written_partial : forall bs fails w1 s w2 ls n,
  seen_lines bs ((w1 ++ s ++ w2) :: ls) -> match ls with t :: _ => ~ is_continuation t | [] => True end ->
  gap w1 -> gap w2 -> written (nothing w2) 1 n s ->
  exists n', ParseExpr (mkSource bs fails) = Returned (Some n') /\ unplaced n' = unplaced n.
Proof. exact written_source. Qed.
Print Assumptions C49_reads_written_partial.

(** Two trees are written alike only if they are the same. *)
Theorem C49_unambiguous_partial : forall bs ls w1 s w2 n n',
  seen_lines bs ((w1 ++ s ++ w2) :: ls) -> match ls with t :: _ => ~ is_continuation t | [] => True end ->
  gap w1 -> gap w2 -> written (nothing w2) 1 n s -> written (nothing w2) 1 n' s -> unplaced n = unplaced n'.
Proof.
  intros bs ls w1 s w2 n n' H1 H2 H3 H4 W W'.
  destruct (written_source bs false _ _ _ _ _ H1 H2 H3 H4 W) as [m [R U]].
  destruct (written_source bs false _ _ _ _ _ H1 H2 H3 H4 W') as [m' [R' U']]. congruence.
Qed.
Print Assumptions C49_unambiguous_partial.

Ltac at_level l := apply (written_le _ l); [repeat constructor|repeat constructor|].
Definition here : apos := mkAPos 0 0 0 [].
Definition id_ (s : text) : node := NIdent here s.
Lemma one_letter e l r : (1 <= l <= 9)%nat -> isnamec1 r = true -> written e l (id_ [r]) [r].
Proof. intros L H. apply (written_le l 9); [auto|auto|]. apply wr_name. left. exists r, []. auto. Qed.
Example C49_case : exists n', let n :=
    NTernary here (Some (NBinary (Some (id_ (T "a"))) here TISNOTCI (Some (NUnary here TMINUS (Some (NBasicLit here TNUMBER (T "1")))))))
      (Some (NSlice (Some (id_ (T "b"))) here (Some (id_ (T "c"))) None))
      (Some (NDot (Some (NCall (Some (id_ (T "f"))) here [NBasicLit here TSTRING (T "'it''s'"); id_ (T "x")])) here (Some (id_ (T "k"))))) in
  written true 1 n (T "a isnot?-1? b[c :]:f('it''s', x).k") /\
  ParseExpr (mkSource (T "a isnot?-1? b[c :]:f('it''s', x).k") false) = Returned (Some n') /\ unplaced n' = unplaced n.
Proof.
  eexists. cbn zeta. split; [|split; [vm_compute; reflexivity|vm_compute; reflexivity]].
  apply (wr_ternary _ here _ _ _ (T "a isnot?-1") (T "b[c :]") (T "f('it''s', x).k") [] [32] [] []); try reflexivity; try (right; reflexivity).
  - at_level 4%nat.
    apply (wr_binary _ 4%nat (T "isnot?") TISNOTCI here _ _ (T "a") (T "-1") [32] []); try reflexivity; try discriminate.
    + cbn. tauto.
    + apply one_letter; [repeat constructor|reflexivity].
    + at_level 7%nat. apply (wr_unary _ (T "-") TMINUS here _ (T "1") []); [cbn; tauto| |reflexivity].
      at_level 9%nat. apply wr_lit; [|discriminate]. apply num_int. split; [discriminate|reflexivity].
    + left. discriminate.
  - at_level 8%nat. apply (wr_slice _ here _ _ _ (T "b") (T "c ") []).
    + apply one_letter; [repeat constructor|reflexivity].
    + apply (wb_some true _ (T "c") [] [32]); [apply one_letter; [repeat constructor|reflexivity]|reflexivity|reflexivity|left; discriminate].
    + apply wb_none. reflexivity.
  - at_level 8%nat. apply (wr_dot _ here here _ (T "f('it''s', x)") (T "k")); [|reflexivity|split; [discriminate|reflexivity]].
    apply (wr_call _ here _ _ (T "f") (T "'it''s', x") []); [apply one_letter; [repeat constructor|reflexivity]| |cbn; repeat constructor|reflexivity].
    apply (wi_cons _ (T "'it''s'") _ (T " x") [] []); try reflexivity.
    + at_level 9%nat. apply wr_lit; [|discriminate]. right. exists (T "it''s"). split; [|reflexivity].
      apply sq_char; [discriminate|]. apply sq_char; [discriminate|]. apply sq_quote. apply sq_char; [discriminate|]. apply sq_nil.
    + apply (wi_last _ (T "x") [32] []); try reflexivity. apply one_letter; [repeat constructor|reflexivity].
Qed.

(** A lambda, literal and plain dictionaries, names with braces. *)
Example C49_brace_case : exists n', let n :=
    NLambda here [id_ (T "a"); id_ (T "...")] (Some (NDict here
      [(Some (NBasicLit here TSTRING (T "'if-x'")), Some (NDict here [(Some (id_ (T "k")), Some (id_ (T "v")))]));
       (Some (NBasicLit here TSTRING (T "'2'")),
        Some (NCurlyName here [NCurlyLit here (T "s:"); NCurlyExpr here (Some (id_ (T "b"))); NCurlyLit here (T "_c")]))])) in
  written true 1 n (T "{a, ... -> #{if-x :{k : v}, 2:s:{b}_c,}}") /\
  ParseExpr (mkSource (T "{a, ... -> #{if-x :{k : v}, 2:s:{b}_c,}}") false) = Returned (Some n') /\ unplaced n' = unplaced n.
Proof.
  eexists. cbn zeta. split; [|split; [vm_compute; reflexivity|vm_compute; reflexivity]].
  at_level 9%nat.
  apply (wr_lambda _ here _ _ (T "a, ... ") (T "#{if-x :{k : v}, 2:s:{b}_c,}") [32] []); try reflexivity.
  - apply (wm_cons here (T "a") [] _ (T " ... ")); try reflexivity; [cbn; intuition discriminate|].
    apply (wm_rest here [32] [32]); reflexivity.
  - cbn. repeat constructor; cbn; intuition discriminate.
  - at_level 9%nat. apply (wr_dict _ true here _ (T "if-x :{k : v}, 2:s:{b}_c,")).
    apply (wp_cons _ _ _ _ (T "if-x :{k : v}") _ (T " 2:s:{b}_c,")).
    + apply (wk_word true here _ (T "if-x") (T "{k : v}") [] [32] [] []); try reflexivity; try discriminate; [split; [discriminate|reflexivity]| |].
      * at_level 9%nat. apply (wr_dict _ false here _ (T "k : v")). apply wp_last.
        apply (wk_expr true _ _ (T "k") (T "v") [] [32] [32] []); try reflexivity; try (left; discriminate);
          try (apply one_letter; [repeat constructor|reflexivity]).
        intros _. split; [reflexivity|]. split; intros s' H; discriminate.
      * intros d z s' Hd Hz H. cbn [In] in Hd. destruct Hd as [<-|[<-|[]]]; discriminate.
    + apply (wp_cons _ _ _ _ (T " 2:s:{b}_c") _ []); [|apply wp_nil; reflexivity].
      apply (wk_word false here _ (T "2") (T "s:{b}_c") [32] [] [] []); try reflexivity; try discriminate; [split; [discriminate|reflexivity]| |].
      * at_level 9%nat. apply (wr_curly_word _ here here (C "s") (T ":") _ (T "{b}_c")); try reflexivity; [|discriminate].
        apply (wq_brace _ here _ (T "b") [] [] _ (T "_c")); try reflexivity; [apply one_letter; [repeat constructor|reflexivity]|].
        apply (wq_word here (T "_c") _ []); [split; [discriminate|reflexivity]|apply wq_nil].
      * intros d z s' Hd Hz H. cbn [In] in Hd. destruct Hd as [<-|[<-|[]]]; discriminate.
Qed.

(** Texts of expressions that the parser does not read: a literal dictionary without a
    blank after the first colon, a key that looks like a blob, and a method call on a name
    directly after the brace of a dictionary or of a name. *)
Theorem C49_literal_key_refuted : exists o l c, ParseExpr (mkSource (T "#{a:1, b:2}") false) =
  Failed (ErrVimlParser [] o l c (T "E125: Illegal argument: a:1")).
Proof. do 3 eexists. vm_compute. reflexivity. Qed.
Print Assumptions C49_literal_key_refuted.
Theorem C49_blob_key_refuted : exists o l c m, ParseExpr (mkSource (T "#{0z1: 2}") false) = Failed (ErrVimlParser [] o l c m).
Proof. do 4 eexists. vm_compute. reflexivity. Qed.
Print Assumptions C49_blob_key_refuted.
Theorem C49_method_key_refuted : exists o l c m, ParseExpr (mkSource (T "{a->f(): 1}") false) = Failed (ErrVimlParser [] o l c m).
Proof. do 4 eexists. vm_compute. reflexivity. Qed.
Print Assumptions C49_method_key_refuted.

(** C34: three printed texts that are not read back: a blob with a dot at its end, a
    register whose name is a carriage return, and a text too long for a line. *)
Theorem C34_read_back_refuted : exists src n s msg l c o,
  ParseExpr src = Returned (Some n) /\ Fprint n = Ok (Printed s) /\
  ParseExpr (mkSource (encode s) false) = Failed (ErrVimlParser [] o l c msg).
Proof. exists (mkSource (T "0z12.3") false). do 6 eexists. repeat split; vm_compute; reflexivity. Qed.
Print Assumptions C34_read_back_refuted.
Theorem C34_register_refuted : exists src n s n',
  ParseExpr src = Returned (Some n) /\ Fprint n = Ok (Printed s) /\
  ParseExpr (mkSource (encode s) false) = Returned (Some n') /\ unplaced n' <> unplaced (single_parens n).
Proof.
  exists (mkSource (T "@" ++ 13 :: T " x") false). do 3 eexists. split; [vm_compute; reflexivity|]. split; [vm_compute; reflexivity|].
  split; [vm_compute; reflexivity|]. vm_compute. discriminate.
Qed.
Print Assumptions C34_register_refuted.

(** In all other cases the printed text is read as the same tree, except that parentheses
    directly around parentheses are gone, and that tree is printed alike. *)
Theorem C34_read_back_partial : forall src n s fails,
  ParseExpr src = Returned (Some n) -> Fprint n = Ok (Printed s) ->
  short (encode s) -> (forall w, s <> w ++ [13]) -> (forall m, within n m -> ~ dotted_blob m) ->
  exists n', ParseExpr (mkSource (encode s) fails) = Returned (Some n') /\ unplaced n' = unplaced (single_parens n) /\
    Fprint n' = Ok (Printed s).
Proof. exact print_back. Qed.
Print Assumptions C34_read_back_partial.
Example C34_case : exists n s n', let src := mkSource (T "!((a['x'][ 0 ]+b))*-$HOME   is#  @x") false in
  ParseExpr src = Returned (Some n) /\ Fprint n = Ok (Printed s) /\ s = T "!(a['x'][0] + b) * -$HOME is# @x" /\
  short (encode s) /\ (forall w, s <> w ++ [13]) /\ (forall m, within n m -> ~ dotted_blob m) /\
  ParseExpr (mkSource (encode s) false) = Returned (Some n') /\ unplaced n' = unplaced (single_parens n) /\ unplaced n' <> unplaced n.
Proof.
  do 3 eexists. cbn zeta. split; [vm_compute; reflexivity|]. split; [vm_compute; reflexivity|]. split; [reflexivity|].
  split; [vm_compute; reflexivity|]. split.
  { intros w H. apply (f_equal (fun l => last l 0)) in H. rewrite last_last in H. vm_compute in H. discriminate. }
  split.
  { intros m W [p [w ->]].
    repeat (apply within_inv in W; destruct W as [W|[k [K W]]]; [discriminate W|];
      cbn [fields on app In] in K; repeat match type of K with _ \/ _ => destruct K as [K|K] end; try contradiction; subst k). }
  split; [vm_compute; reflexivity|]. split; [vm_compute; reflexivity|]. vm_compute. discriminate.
Qed.

(** C17, within the line: if the first (joined) line starts with a text for the tree [n],
    and what follows cannot continue it, ParseExpr delivers [n], whatever else is on the
    line and in the text. *)
Theorem C17_rest_partial : forall bs fails w1 s w2 z ts js n,
  seen_lines bs ts -> unbroken ts ((w1 ++ s ++ w2 ++ z) :: js) -> gap w1 -> gap w2 ->
  written (nothing (w2 ++ z)) 1 n s -> follows n w2 z -> no_operator w2 z ->
  exists n', ParseExpr (mkSource bs fails) = Returned (Some n') /\ unplaced n' = unplaced n.
Proof. exact rest_source. Qed.
Print Assumptions C17_rest_partial.
Definition C17_rest_bytes : list N := T "f(x)" ++ [10] ++ T " \ [ isn't(((" ++ [10] ++ T "junk".
Example C17_rest_case : exists ts js n n',
  seen_lines C17_rest_bytes ts /\ unbroken ts (([] ++ T "f(x)" ++ [32] ++ T "[ isn't(((") :: js) /\
  written false 1 n (T "f(x)") /\ no_operator [32] (T "[ isn't(((") /\ no_operator [32] (T "isn't(((") /\
  no_operator [] (T "|x") /\ ~ no_operator [] (T "||x") /\ ~ no_operator [32] (T "is x") /\ ~ no_operator [] (T "[x") /\
  ParseExpr (mkSource C17_rest_bytes false) = Returned (Some n') /\ unplaced n' = unplaced n.
Proof.
  exists [T "f(x)"; T " \ [ isn't((("; T "junk"], [T "junk"], (NCall (Some (id_ (T "f"))) here [id_ (T "x")]). eexists.
  split; [apply (LinesProof.seen_lines_iff _ _ false); vm_compute; reflexivity|].
  split.
  { apply (ub_line (T "f(x)") [T " \ [ isn't((("; T "junk"] [T " [ isn't((("] [T "junk"] [T "junk"]).
    - apply (ct_more _ (T " ")); [split; reflexivity|]. constructor. intros l r E. injection E as <- <-. intros K. apply PlacesProof.continuation_iff in K. discriminate K.
    - apply (ub_line (T "junk") [] [] [] []); constructor. intros l r E. discriminate E. }
  split; [at_level 8%nat; apply (wr_call _ here _ _ (T "f") (T "x") []); [apply one_letter; [repeat constructor|reflexivity]| |cbn; repeat constructor|reflexivity]|].
  { apply (wi_last _ (T "x") [] []); [|reflexivity|reflexivity]. apply one_letter; [repeat constructor|reflexivity]. }
  split; [apply no_bracket; discriminate|].
  split; [apply no_word; [reflexivity|]|].
  { intros o u [<-|[<-|[]]] E; [injection E as <-; discriminate|discriminate E]. }
  split; [apply no_bar; reflexivity|].
  split; [intros H; inversion H; subst; try discriminate; cbn in *; intuition discriminate|].
  split; [intros H; inversion H; subst; try discriminate; cbn in *; try (intuition discriminate)|].
  { eapply H3 with (o := T "is") (u := T " x"); cbn; auto. }
  split; [intros H; inversion H; subst; try discriminate; cbn in *; try (intuition discriminate)|].
  split; vm_compute; reflexivity.
Qed.
