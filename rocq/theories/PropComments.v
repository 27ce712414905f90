(** Property C78: what Compile writes for the comments of a file. *)
From Coq Require Import Lia ZifyBool ZifyNat ZifyN.
From Verif Require Import Base Utf8 CharClass Reader Vnode CmdTable CmdParser Cursor Ast Export Api Places LinesProof NodeText Nodes Join JoinProof PropText SequelProof
  Compiler ConcatProof LayoutProof PropLayout PropSequel PropBlank PropHeader.
From Verif Require Import Sequel.

(** The line Compile is to write for each comment: a semicolon and its text. *)
Definition comment_lines (cs : list node) (outs : list text) : Prop :=
  Forall2 (fun n o => exists p u, n = NComment p u /\ o = T ";" ++ u ++ [10]) cs outs.

Lemma header_lines file d n ls cs : header file d n ls cs -> exists outs, comment_lines cs outs.
Proof.
  induction 1 as [| | |d n ws u ls b Hw H [outs IH]]; auto; [exists []; constructor|].
  exists ((T ";" ++ u ++ [10]) :: outs). constructor; eauto.
Qed.
Lemma lines_compile unit cs outs : comment_lines cs outs -> Forall2 (compiles_to unit) cs outs.
Proof.
  induction 1 as [|n o l os [p [u [-> ->]]] _ IH]; constructor; auto. exists (NComment p u). reflexivity.
Qed.
Lemma moved_compile unit d k b ob : Forall2 (compiles_to unit) b ob -> Forall2 (compiles_to unit) (map (map_node (moved d k)) b) ob.
Proof.
  intros B. induction B as [|n o l os [n' Hn] _ IH]; [constructor|]. cbn [map]. constructor; [|exact IH].
  unfold compiles_to. rewrite compile_map, Hn. cbn [oc_map c_out c_err c_node]. eauto.
Qed.
Lemma pieces_file unit p l os : Forall2 (compiles_to unit) l os -> compiles_to unit (NFile p l) (concat os).
Proof.
  intros H. destruct (pieces_list unit l os H []) as [l' El]. exists (NFile p l'). unfold compile_with. cbn [comp]. rewrite El. reflexivity.
Qed.

(** * C78 *)

(** The lines of a header come out as one line for each comment, in order, in front of the
    output for the file below. *)
Theorem C78_header : forall unit bs bs' fails fails' ls ts cs file opt q b out,
  header file 0 1 ls cs -> ls <> [] ->
  seen_lines bs ts -> starts_line ts -> seen_lines bs' (ls ++ ts) ->
  ParseFile (mkSource bs fails) file opt = Returned (NFile q b) -> compiles_to unit (NFile q b) out ->
  exists n outs, ParseFile (mkSource bs' fails') file opt = Returned n /\ comment_lines cs outs /\
    compiles_to unit n (concat outs ++ out).
Proof.
  intros unit bs bs' f f' ls ts cs file opt q b out H N L1 S L2 E [r K].
  destruct (C77_header bs bs' f f' ls ts cs file opt H N L1 S L2) as [A _]. destruct (header_lines _ _ _ _ _ H) as [outs O].
  eexists. exists outs. split; [exact (A q b E)|]. split; [exact O|]. apply file_pieces in K. destruct K as [ob [bb [_ [-> [_ B]]]]].
  rewrite <- concat_app. apply pieces_file, Forall2_app; [apply lines_compile, O|apply moved_compile, B].
Qed.
Print Assumptions C78_header.
(** Between two parts of a file: between the outputs for the two. *)
Theorem C78_between : forall unit bsA bsB bs failsA failsB fails tsA ls tsB cells cs file opt p a q b outA outB,
  seen_lines bsA tsA -> tsA <> [] -> source_cells bsA cells ->
  ParseFile (mkSource bsA failsA) file opt = Returned (NFile p a) -> self_contained a ->
  header file (line_bytes tsA) (1 + N.of_nat (length tsA)) ls cs ->
  seen_lines bsB tsB -> starts_line tsB -> apart bsA bsB ->
  seen_lines bs (tsA ++ ls ++ tsB) ->
  ParseFile (mkSource bsB failsB) file opt = Returned (NFile q b) ->
  compiles_to unit (NFile p a) outA -> compiles_to unit (NFile q b) outB ->
  exists n outs, ParseFile (mkSource bs fails) file opt = Returned n /\ comment_lines cs outs /\
    compiles_to unit n (outA ++ concat outs ++ outB).
Proof.
  intros unit bsA bsB bs ra rb r tsA ls tsB cells cs file opt p a q b outA outB LA NA CA HA HC H LB SB Ap L HB [rA KA] [rB KB].
  destruct (C77_between bsA bsB bs ra rb r tsA ls tsB cells cs file opt p a LA NA CA HA HC H LB SB Ap L) as [X _]. destruct (header_lines _ _ _ _ _ H) as [outs O].
  eexists. exists outs. split; [exact (X q b HB)|]. split; [exact O|]. apply file_pieces in KA, KB.
  destruct KA as [oa [ba [_ [-> [_ A]]]]], KB as [ob [bb [_ [-> [_ B]]]]].
  rewrite <- !concat_app. apply pieces_file, Forall2_app; [exact A|]. apply Forall2_app; [apply lines_compile, O|apply moved_compile, B].
Qed.
Print Assumptions C78_between.
(** At the end of a file: behind its output. *)
Theorem C78_footer : forall unit bsA bs failsA fails tsA ls cs file opt p a out,
  seen_lines bsA tsA -> tsA <> [] ->
  ParseFile (mkSource bsA failsA) file opt = Returned (NFile p a) -> self_contained a ->
  header file (line_bytes tsA) (1 + N.of_nat (length tsA)) ls cs ->
  seen_lines bs (tsA ++ ls) -> compiles_to unit (NFile p a) out ->
  exists n outs, ParseFile (mkSource bs fails) file opt = Returned n /\ comment_lines cs outs /\
    compiles_to unit n (out ++ concat outs).
Proof.
  intros unit bsA bs ra r tsA ls cs file opt p a out LA NA HA HC H L [rA KA]. destruct (header_lines _ _ _ _ _ H) as [outs O].
  eexists. exists outs. split; [exact (C77_footer bsA bs ra r tsA ls cs file opt p a LA NA HA HC H L)|]. split; [exact O|]. apply file_pieces in KA.
  destruct KA as [oa [ba [_ [-> [_ A]]]]]. rewrite <- concat_app. apply pieces_file, Forall2_app; [exact A|apply lines_compile, O].
Qed.
Print Assumptions C78_footer.
(** The header of the case of C77, compiled. The other hypotheses are those of C77_case,
    C77_case_between and C64_case. *)
Example C78_case : exists cs outs p a,
  header (T "f.vim") 0 1 [T "#!/usr/bin/vim -S"; T """ Foo is a command"; []; T " :"" second"] cs /\ comment_lines cs outs /\
  concat outs = T "; Foo is a command" ++ [10] ++ T "; second" ++ [10] /\
  ParseFile (mkSource (C77_top ++ T "let x = 1" ++ [10]) false) (T "f.vim") None = Returned (NFile p a) /\
  compiles_to (T "  ") (NFile p a) (concat outs ++ T "(let = x 1)" ++ [10]).
Proof.
  do 4 eexists. split.
  { apply (hd_hashbang _ 0 1 (T "/usr/bin/vim -S")). apply (hd_comment _ 18 2 [] (T " Foo is a command")); [constructor|].
    apply hd_blank; [constructor|]. apply (hd_comment _ 38 4 (T " :") (T " second")); [|constructor].
    unfold blank_line. repeat first [apply Forall_nil|apply Forall_cons]; auto. }
  split; [constructor; [eauto|constructor; [eauto|constructor]]|]. split; [reflexivity|].
  split; [vm_compute; reflexivity|]. eexists. vm_compute. reflexivity.
Qed.
