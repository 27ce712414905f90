(** Property theorems about what does not change the answer: how lines are ended, what the
    file is called, blanks and colons before a command. *)
From Coq Require Import Lia ZifyBool ZifyNat ZifyN.
From Verif Require Import Base Utf8 Reader Vnode CmdParser Export Cursor Ast Api ApiFile Places LinesProof NodeText Nodes Join JoinProof PropText Sequel SequelProof IndentProof.

(** * C60 *)

(** Lines with a line feed, or a carriage return and a line feed, behind each of them; the
    last one may lack it if it is not empty. *)
Inductive line_ended : list (list N) -> list N -> Prop :=
| le_nil : line_ended [] []
| le_last l : l <> [] -> line_ended [l] l
| le_lf l ls bs : line_ended ls bs -> line_ended (l :: ls) (l ++ 10 :: bs)
| le_crlf l ls bs : line_ended ls bs -> line_ended (l :: ls) (l ++ 13 :: 10 :: bs).
(** A line: no line feed in it, no carriage return at its end, less than 65535 bytes. *)
Definition line_content (l : list N) : Prop :=
  ~ In 10 l /\ (forall l', l <> l' ++ [13]) /\ N.of_nat (length l) < 65535.
Lemma ended_seen ls bs : Forall line_content ls -> line_ended ls bs -> seen_lines bs (map decode ls).
Proof.
  intros F H. induction H as [|l Hl|l ls bs H IH|l ls bs H IH].
  - exists [], [], []. repeat split; constructor.
  - inversion F as [|? ? [F1 [F2 F3]] _]; subst. exists [l], [l], [l]. split; [constructor; auto|]. split; [constructor; [unfold short; lia|constructor]|].
    split; [|reflexivity]. constructor; [constructor 2; auto|constructor].
  - inversion F as [|? ? [F1 [F2 F3]] F4]; subst. destruct (IH F4) as [a [b [c [H1 [H2 [H3 H4]]]]]]. exists (l :: a), (l :: b), (l :: c).
    split; [constructor; auto|]. split; [constructor; auto; unfold short; lia|]. split; [constructor; auto; constructor 2; auto|]. cbn [map]. f_equal. exact H4.
  - inversion F as [|? ? [F1 [F2 F3]] F4]; subst. destruct (IH F4) as [a [b [c [H1 [H2 [H3 H4]]]]]]. exists ((l ++ [13]) :: a), ((l ++ [13]) :: b), (l :: c).
    split. { replace (l ++ 13 :: 10 :: bs) with ((l ++ [13]) ++ 10 :: bs) by (rewrite <- app_assoc; reflexivity). constructor; auto.
      unfold has_lf. rewrite in_app_iff. intros [X|[X|[]]]; [auto|discriminate X]. }
    split; [constructor; auto; unfold short; rewrite app_length; cbn [length]; lia|]. split; [constructor; auto; constructor|]. cbn [map]. f_equal. exact H4.
Qed.
(** C60: how the lines are ended makes no difference at all, not even to positions. *)
Theorem C60_line_ends : forall ls bs1 bs2 fails1 fails2 file opt, Forall line_content ls -> line_ended ls bs1 -> line_ended ls bs2 ->
  ParseFile (mkSource bs1 fails1) file opt = ParseFile (mkSource bs2 fails2) file opt /\
  ParseExpr (mkSource bs1 fails1) = ParseExpr (mkSource bs2 fails2).
Proof.
  intros ls bs1 bs2 f1 f2 file opt F H1 H2. apply (ended_seen _ _ F) in H1, H2. unfold ParseFile, ParseExpr.
  rewrite (seen_open _ _ _ H1), (seen_open _ _ _ H2). auto.
Qed.
Print Assumptions C60_line_ends.
Example C60_case : exists ls bs1 bs2 n, Forall line_content ls /\ line_ended ls bs1 /\ line_ended ls bs2 /\ bs1 <> bs2 /\
  ParseFile (mkSource bs1 false) [] None = Returned n.
Proof.
  exists [T "if x"; T "  echo 1 +"; T "\ 2"; T "endif"], (T "if x" ++ 10 :: T "  echo 1 +" ++ 10 :: T "\ 2" ++ 10 :: T "endif" ++ 10 :: []),
    (T "if x" ++ 13 :: 10 :: T "  echo 1 +" ++ 13 :: 10 :: T "\ 2" ++ 10 :: T "endif"). eexists.
  split; [repeat (constructor; [split; [vm_compute; intuition discriminate|]; split; [|vm_compute; reflexivity]; intros l' E; apply (f_equal (fun l => last l 0)) in E; rewrite last_last in E; discriminate E|]); constructor|].
  split; [repeat constructor|]. split; [apply le_crlf, le_crlf, le_lf, le_last; discriminate|]. split; [vm_compute; discriminate|]. vm_compute. reflexivity.
Qed.

(** * C61 *)

(** The same place in a file of another name; the same answer for it. *)
Definition in_file (f : list N) (p : apos) : apos := mkAPos (ap_offset p) (ap_line p) (ap_column p) f.
Definition answer_in (f : list N) (r : api_result node) : api_result node :=
  match r with
  | Returned n => Returned (map_node (in_file f) n)
  | Failed (ErrVimlParser _ o l c m) => Failed (ErrVimlParser f o l c m)
  | _ => r
  end.
(** C61: the name of the file is in all positions and in the error, and changes nothing else. *)
Theorem C61_file_name : forall src f f' opt, ParseFile src f' opt = answer_in f' (ParseFile src f opt).
Proof.
  intros src f f' opt. unfold ParseFile, parse_to_ast.
  destruct (vim_parse _ (open_source src)) as [v|e|k|]; [|reflexivity..]. cbn [bind].
  pose proof (new_ast_map f f' same (in_file f') (fun _ => eq_refl) v) as M. unfold commutes in M. rewrite map_pos_same in M. rewrite M.
  destruct (new_ast f v); reflexivity.
Qed.
Print Assumptions C61_file_name.
Example C61_case : exists n e, ParseFile (mkSource (T "let x = [1]" ++ [10]) false) (T "a.vim") None = Returned n /\
  ParseFile (mkSource (T "let x = [1" ++ [10]) false) (T "a.vim") None = Failed (ErrVimlParser (T "a.vim") 10 1 11 e).
Proof. do 2 eexists. split; vm_compute; reflexivity. Qed.

(** * C62 *)

(** C62: blanks, tabs and colons in front of a text. The second text has the lines of the
    first, with [ws] before its first line. It is accepted if the first is, with the same
    statements, moved to the right on the first line; it is rejected with the same error,
    moved likewise. The first text does not start with the characters of a script header. *)
Theorem C62_leading_blanks : forall bs bs' fails fails' ws l ts file opt,
  seen_lines bs (l :: ts) -> seen_lines bs' ((ws ++ l) :: ts) ->
  Forall (fun r => r = 32 \/ r = 9 \/ r = 58) ws -> ~ starts_with bs (T "#!") ->
  (forall p body, ParseFile (mkSource bs fails) file opt = Returned (NFile p body) ->
     exists p', ParseFile (mkSource bs' fails') file opt = Returned (NFile p' (map (map_node (indented (N.of_nat (length ws)))) body)) /\
       (l <> [] -> p' = p)) /\
  (forall e, ParseFile (mkSource bs fails) file opt = Failed e ->
     ParseFile (mkSource bs' fails') file opt = Failed (indented_error (N.of_nat (length ws)) e)).
Proof. exact file_indent. Qed.
Print Assumptions C62_leading_blanks.
Definition C62_text : list N := T "if x" ++ [10] ++ T "\ + 1" ++ [10] ++ T "echo 1" ++ [10] ++ T "endif" ++ [10].
Example C62_case : exists l ts ws p body, seen_lines C62_text (l :: ts) /\ seen_lines (T " :" ++ 9 :: C62_text) ((ws ++ l) :: ts) /\ length ws = 3%nat /\
  Forall (fun r => r = 32 \/ r = 9 \/ r = 58) ws /\ ~ starts_with C62_text (T "#!") /\
  ParseFile (mkSource C62_text false) [] None = Returned (NFile p body) /\ body <> [].
Proof.
  exists (T "if x"), [T "\ + 1"; T "echo 1"; T "endif"], (T " :" ++ [9]). do 2 eexists.
  split; [apply (seen_lines_iff _ _ false); vm_compute; reflexivity|]. split; [apply (seen_lines_iff _ _ false); vm_compute; reflexivity|].
  split; [reflexivity|]. split; [repeat (apply Forall_cons; [vm_compute; tauto|]); constructor|].
  split. { intros [cells [post [H E]]]. apply (source_view _ false) in H. subst cells. vm_compute in E. discriminate E. }
  split; [vm_compute; reflexivity|discriminate].
Qed.
(** The condition is needed: behind a blank, a script header is no command. *)
Theorem C62_header_refuted : exists n e, ParseFile (mkSource (T "#!/usr/bin/vim" ++ [10]) false) [] None = Returned n /\
  ParseFile (mkSource (T " #!/usr/bin/vim" ++ [10]) false) [] None = Failed e.
Proof. do 2 eexists. split; vm_compute; reflexivity. Qed.
Print Assumptions C62_header_refuted.
