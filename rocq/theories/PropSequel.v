(** Property theorems about a text written behind another one. *)
From Coq Require Import Lia ZifyBool ZifyNat ZifyN.
From Verif Require Import Base Utf8 CharClass Reader Vnode CmdTable CmdParser Cursor Ast Api Places LinesProof NodeText Nodes Join JoinProof PropText Sequel SequelProof.

(** For the cases: a text without capitals. *)
Lemma no_capital bs b w : forallb (fun x => match cell_of x with R r => negb ((65 <=? r) && (r <=? 90)) | EOL => true end) (view (open_source (mkSource bs b))) = true ->
  capital_word w -> ~ occurs bs w.
Proof.
  intros H [r [t [-> [Hr _]]]] [cells [pre [post [H1 H2]]]]. apply (source_view _ b) in H1. subst cells.
  rewrite forallb_forall in H. assert (X : In (R r) (map cell_of (view (open_source (mkSource bs b))))) by (rewrite H2; apply in_or_app; right; left; reflexivity).
  apply in_map_iff in X. destruct X as [x [X1 X2]]. specialize (H _ X2). rewrite X1 in H. lia.
Qed.

(** C57 does not hold for every pair of texts: the word Foo in the first one changes what
    Foo1 in the second is. The commands already found are looked up by the letters at the
    start of a name only (go/vimlparser.go:835-838). *)
Theorem C57_sequel_refuted : exists bsA tsA bsB tsB p a q0 q s e q' s' e',
  seen_lines bsA tsA /\ tsA <> [] /\ seen_lines bsB tsB /\ starts_line tsB /\ seen_lines (bsA ++ bsB) (tsA ++ tsB) /\
  ParseFile (mkSource bsA false) [] None = Returned (NFile p a) /\ self_contained a /\
  ParseFile (mkSource bsB false) [] None = Returned (NFile q0 [NExcmd q s e]) /\
  ParseFile (mkSource (bsA ++ bsB) false) [] None = Returned (NFile p (a ++ [NExcmd q' s' e'])) /\
  ae_cmd e = Some (user_cmd (T "Foo1")) /\ ae_cmd e' = Some (user_cmd (T "Foo")).
Proof.
  exists (T "Foo" ++ [10]), [T "Foo"], (T "Foo1" ++ [10]), [T "Foo1"]. do 2 eexists. do 7 eexists.
  split; [apply (seen_lines_iff _ _ false); vm_compute; reflexivity|]. split; [discriminate|].
  split; [apply (seen_lines_iff _ _ false); vm_compute; reflexivity|].
  split; [intros l r E; injection E as <- <-; apply not_continuation; vm_compute; reflexivity|].
  split; [apply (seen_lines_iff _ _ false); vm_compute; reflexivity|].
  split; [vm_compute; reflexivity|].
  split; [split|].
  - intros n [<-|[]] [? [? [? [? [E [Ex Hn]]]]]]. injection E as <- <- <-. injection Ex as <-. revert Hn. vm_compute. intros [X|[]]; discriminate X.
  - intros n r E [? [? [? [? [-> [Ex Hn]]]]]]. destruct r as [|? [|]]; try discriminate. injection E as <- <- <-. injection Ex as <-.
    apply mem_text_In in Hn. vm_compute in Hn. discriminate Hn.
  - split; [vm_compute; reflexivity|]. split; [vm_compute; reflexivity|]. split; reflexivity.
Qed.
Print Assumptions C57_sequel_refuted.

(** C57: a text behind another one. [tsA] and [tsB] are the lines of the two texts, and the
    third text has the lines of both. The first one is accepted, has no :finish of its own
    and does not end with a command that reads the lines below. If the second is accepted
    too, the tree of the whole has the commands of the first and then those of the second,
    at the places where they now stand; otherwise the error is that of the second text,
    at its new place. Missing from C57: the texts with a name of the second cut short by
    one of the first ([apart]); the first texts that end with one of [line_readers], for
    which see [C57_probe_partial]. *)
Theorem C57_sequel_partial : forall bsA bsB bs fails1 fails2 fails3 tsA tsB cells file opt p a,
  seen_lines bsA tsA -> tsA <> [] -> source_cells bsA cells ->
  seen_lines bsB tsB -> starts_line tsB -> seen_lines bs (tsA ++ tsB) -> apart bsA bsB ->
  ParseFile (mkSource bsA fails1) file opt = Returned (NFile p a) -> self_contained a ->
  (forall q b, ParseFile (mkSource bsB fails2) file opt = Returned (NFile q b) ->
     ParseFile (mkSource bs fails3) file opt =
       Returned (NFile p (a ++ map (map_node (moved (line_bytes tsA) (N.of_nat (length tsA)))) b))) /\
  (forall e, ParseFile (mkSource bsB fails2) file opt = Failed e ->
     ParseFile (mkSource bs fails3) file opt = Failed (moved_error (N.of_nat (length cells)) (N.of_nat (length tsA)) e)).
Proof. intros bsA bsB bs f1 f2 f3 tsA tsB cells file opt p a. exact (file_sequel bsA bsB bs f1 f2 f3 tsA tsB cells file opt p a). Qed.
Print Assumptions C57_sequel_partial.
Definition C57_first : list N := T "let x = 1" ++ [10] ++ T "if x" ++ [10] ++ T "  echo x |" ++ [10] ++ T "\ call f()" ++ [10] ++ T "endif" ++ [10].
Definition C57_second : list N := T "Foo1 a" ++ [10] ++ T "function! F(a)" ++ [10] ++ T "  return" ++ [10] ++ T "  \ a" ++ [10] ++ T "endfunction" ++ [10].
Definition C57_wrong : list N := T "Foo1 a" ++ [10] ++ T "let x =" ++ [10] ++ T "  \ (a" ++ [10].
Lemma C57_apart bs : apart C57_first bs.
Proof. intros w d Hw _ _. apply (no_capital _ false w); [vm_compute; reflexivity|exact Hw]. Qed.
Example C57_case : exists tsA tsB tsC cells p a q b e,
  seen_lines C57_first tsA /\ tsA <> [] /\ source_cells C57_first cells /\
  seen_lines C57_second tsB /\ starts_line tsB /\ seen_lines (C57_first ++ C57_second) (tsA ++ tsB) /\ apart C57_first C57_second /\
  seen_lines C57_wrong tsC /\ starts_line tsC /\ seen_lines (C57_first ++ C57_wrong) (tsA ++ tsC) /\ apart C57_first C57_wrong /\
  ParseFile (mkSource C57_first false) [] None = Returned (NFile p a) /\ length a = 2%nat /\ self_contained a /\
  ParseFile (mkSource C57_second false) [] None = Returned (NFile q b) /\ length b = 2%nat /\
  ParseFile (mkSource C57_wrong false) [] None = Failed e.
Proof.
  exists [T "let x = 1"; T "if x"; T "  echo x |"; T "\ call f()"; T "endif"], [T "Foo1 a"; T "function! F(a)"; T "  return"; T "  \ a"; T "endfunction"], [T "Foo1 a"; T "let x ="; T "  \ (a"].
  exists (view (open_source (mkSource C57_first false))). do 5 eexists.
  split; [apply (seen_lines_iff _ _ false); vm_compute; reflexivity|]. split; [discriminate|].
  split; [apply (source_view _ false); reflexivity|].
  split; [apply (seen_lines_iff _ _ false); vm_compute; reflexivity|].
  split; [intros l r E; injection E as <- <-; apply not_continuation; vm_compute; reflexivity|].
  split; [apply (seen_lines_iff _ _ false); vm_compute; reflexivity|]. split; [apply C57_apart|].
  split; [apply (seen_lines_iff _ _ false); vm_compute; reflexivity|].
  split; [intros l r E; injection E as <- <-; apply not_continuation; vm_compute; reflexivity|].
  split; [apply (seen_lines_iff _ _ false); vm_compute; reflexivity|]. split; [apply C57_apart|].
  split; [vm_compute; reflexivity|]. split; [reflexivity|].
  split; [split|].
  - intros n [<-|[<-|[]]] [? [? [? [? [E _]]]]]; discriminate E.
  - intros n r E [? [? [? [? [-> _]]]]]. destruct r as [|? [|? [|]]]; discriminate E.
  - split; [vm_compute; reflexivity|]. split; [reflexivity|]. vm_compute; reflexivity.
Qed.
(** The same with a condition that can be seen: write a line with nothing but a double quote
    behind the first text. If the whole is accepted and its last command is a comment, the
    first text ends by itself, and any text behind it is read as it is alone. This covers
    first texts that end with one of [line_readers] and its lines. Missing from C57: [apart]. *)
Theorem C57_probe_partial : forall bsP bsA bsB bs fails1 fails2 fails3 tsA tsB cells file opt p a q s,
  seen_lines bsA tsA -> tsA <> [] -> source_cells bsA cells -> seen_lines bsP (tsA ++ [T """"]) ->
  seen_lines bsB tsB -> starts_line tsB -> seen_lines bs (tsA ++ tsB) -> apart bsA bsB ->
  ParseFile (mkSource bsP fails1) file opt = Returned (NFile p (a ++ [NComment q s])) ->
  (forall q b, ParseFile (mkSource bsB fails2) file opt = Returned (NFile q b) ->
     ParseFile (mkSource bs fails3) file opt =
       Returned (NFile p (a ++ map (map_node (moved (line_bytes tsA) (N.of_nat (length tsA)))) b))) /\
  (forall e, ParseFile (mkSource bsB fails2) file opt = Failed e ->
     ParseFile (mkSource bs fails3) file opt = Failed (moved_error (N.of_nat (length cells)) (N.of_nat (length tsA)) e)).
Proof. intros bsP bsA bsB bs f1 f2 f3 tsA tsB cells file opt p a q s. exact (file_probe bsP bsA bsB bs f1 f2 f3 tsA tsB cells file opt p a q s). Qed.
Print Assumptions C57_probe_partial.
Definition C57_reader : list N := T "let x = 1" ++ [10] ++ T "lua <<" ++ [10] ++ T "x = (" ++ [10] ++ T "." ++ [10].
Lemma C57_reader_apart bs : apart C57_reader bs.
Proof. intros w d Hw _ _. apply (no_capital _ false w); [vm_compute; reflexivity|exact Hw]. Qed.
Example C57_probe_case : exists tsA tsB tsC cells p a q s q' b e,
  seen_lines C57_reader tsA /\ tsA <> [] /\ source_cells C57_reader cells /\ seen_lines (C57_reader ++ T """") (tsA ++ [T """"]) /\
  seen_lines C57_second tsB /\ starts_line tsB /\ seen_lines (C57_reader ++ C57_second) (tsA ++ tsB) /\ apart C57_reader C57_second /\
  seen_lines C57_wrong tsC /\ starts_line tsC /\ seen_lines (C57_reader ++ C57_wrong) (tsA ++ tsC) /\ apart C57_reader C57_wrong /\
  ParseFile (mkSource (C57_reader ++ T """") false) [] None = Returned (NFile p (a ++ [NComment q s])) /\ length a = 2%nat /\ ~ self_contained a /\
  ParseFile (mkSource C57_second false) [] None = Returned (NFile q' b) /\ length b = 2%nat /\
  ParseFile (mkSource C57_wrong false) [] None = Failed e.
Proof.
  exists [T "let x = 1"; T "lua <<"; T "x = ("; T "."], [T "Foo1 a"; T "function! F(a)"; T "  return"; T "  \ a"; T "endfunction"], [T "Foo1 a"; T "let x ="; T "  \ (a"].
  exists (view (open_source (mkSource C57_reader false))). eexists.
  let r := eval vm_compute in (ParseFile (mkSource (C57_reader ++ T """") false) [] None) in
  match r with Returned (NFile _ [?x; ?y; NComment ?q ?s]) => exists [x; y], q, s end. do 3 eexists.
  split; [apply (seen_lines_iff _ _ false); vm_compute; reflexivity|]. split; [discriminate|].
  split; [apply (source_view _ false); reflexivity|].
  split; [apply (seen_lines_iff _ _ false); vm_compute; reflexivity|].
  split; [apply (seen_lines_iff _ _ false); vm_compute; reflexivity|].
  split; [intros l r E; injection E as <- <-; apply not_continuation; vm_compute; reflexivity|].
  split; [apply (seen_lines_iff _ _ false); vm_compute; reflexivity|]. split; [apply C57_reader_apart|].
  split; [apply (seen_lines_iff _ _ false); vm_compute; reflexivity|].
  split; [intros l r E; injection E as <- <-; apply not_continuation; vm_compute; reflexivity|].
  split; [apply (seen_lines_iff _ _ false); vm_compute; reflexivity|]. split; [apply C57_reader_apart|].
  split; [vm_compute; reflexivity|]. split; [reflexivity|].
  split.
  - intros [_ H]. match goal with |- _ => eapply (H _ [_] eq_refl) end. do 4 eexists. split; [reflexivity|]. split; [reflexivity|]. apply mem_text_In. vm_compute. reflexivity.
  - split; [vm_compute; reflexivity|]. split; [reflexivity|]. vm_compute; reflexivity.
Qed.
(** The lines of the two texts one after the other are the lines of their bytes one after
    the other, if each line of the first ends with a line feed. *)
Theorem C57_bytes : forall lines tsA bsB tsB, Forall (fun l => ~ has_lf l /\ short l) lines ->
  seen_lines (flat_map (fun l => l ++ [10]) lines) tsA -> seen_lines bsB tsB ->
  seen_lines (flat_map (fun l => l ++ [10]) lines ++ bsB) (tsA ++ tsB).
Proof. exact lines_bytes. Qed.
Print Assumptions C57_bytes.
Example C57_bytes_case : exists lines, Forall (fun l => ~ has_lf l /\ short l) lines /\ C57_first = flat_map (fun l => l ++ [10]) lines /\ lines <> [].
Proof.
  exists [T "let x = 1"; T "if x"; T "  echo x |"; T "\ call f()"; T "endif"]. split; [|split; [vm_compute; reflexivity|discriminate]].
  repeat (apply Forall_cons; [split; [unfold has_lf; cbn; intuition discriminate|vm_compute; reflexivity]|]). constructor.
Qed.

(** The conditions are needed. After :finish nothing is read; and :append reads on. *)
Theorem C57_finish_refuted : exists p a q b, ParseFile (mkSource (T "finish" ++ [10]) false) [] None = Returned (NFile p a) /\
  ParseFile (mkSource (T "echo 1" ++ [10]) false) [] None = Returned (NFile q b) /\ b <> [] /\
  ParseFile (mkSource (T "finish" ++ [10] ++ T "echo 1" ++ [10]) false) [] None = Returned (NFile p a).
Proof. do 4 eexists. split; [vm_compute; reflexivity|]. split; [vm_compute; reflexivity|]. split; [discriminate|]. vm_compute; reflexivity. Qed.
Print Assumptions C57_finish_refuted.
Theorem C57_append_refuted : exists p a q b n, ParseFile (mkSource (T "append" ++ [10]) false) [] None = Returned (NFile p a) /\ a <> [] /\
  ParseFile (mkSource (T "echo 1" ++ [10]) false) [] None = Returned (NFile q b) /\ b <> [] /\
  ParseFile (mkSource (T "append" ++ [10] ++ T "echo 1" ++ [10]) false) [] None = Returned (NFile p [n]).
Proof. do 5 eexists. split; [vm_compute; reflexivity|]. split; [discriminate|]. split; [vm_compute; reflexivity|]. split; [discriminate|]. vm_compute; reflexivity. Qed.
Print Assumptions C57_append_refuted.

(** C59: the first error stays. A text is rejected, with an error at a place before its end,
    or with a number that is too large. Whatever lines are written behind it, the whole is
    rejected with the same error. One kind of error may give way to another: the report that
    a line ends too early; what is reported then is in the added lines. *)
Theorem C59_first_error_stays : forall bsA bs fails1 fails2 tsA tsB file opt e,
  seen_lines bsA tsA -> starts_line tsB -> seen_lines bs (tsA ++ tsB) ->
  ParseFile (mkSource bsA fails1) file opt = Failed e -> before_end tsA e ->
  ParseFile (mkSource bs fails2) file opt = Failed e \/
  (about_line_end e /\ exists e', ParseFile (mkSource bs fails2) file opt = Failed e' /\ below tsA e').
Proof. intros bsA bs f1 f2 tsA tsB file opt e. exact (file_error bsA bs f1 f2 tsA tsB file opt e). Qed.
Print Assumptions C59_first_error_stays.
Definition C59_text : list N := T "if x" ++ [10] ++ T "  let y = (1 +" ++ [10] ++ T "    \ 2]" ++ [10] ++ T "echo 1" ++ [10].
Definition C59_more : list N := T "endif" ++ [10] ++ T "let z = )" ++ [10].
Example C59_case : exists tsA tsB e, seen_lines C59_text tsA /\ starts_line tsB /\ tsB <> [] /\ seen_lines (C59_text ++ C59_more) (tsA ++ tsB) /\
  ParseFile (mkSource C59_text false) [] None = Failed e /\ before_end tsA e /\ ~ about_line_end e.
Proof.
  exists [T "if x"; T "  let y = (1 +"; T "    \ 2]"; T "echo 1"], [T "endif"; T "let z = )"]. eexists.
  split; [apply (seen_lines_iff _ _ false); vm_compute; reflexivity|].
  split; [intros l r E; injection E as <- <-; apply not_continuation; vm_compute; reflexivity|]. split; [discriminate|].
  split; [apply (seen_lines_iff _ _ false); vm_compute; reflexivity|]. split; [vm_compute; reflexivity|].
  split; [vm_compute; discriminate|]. intros [f [i [l [c [m [E [-> | ->]]]]]]]; discriminate E.
Qed.
(** The exception is needed: a line that ends with an opening brace, and behind it one that
    starts with a character no word starts with. *)
Theorem C59_line_end_refuted : exists bsA bsB tsA tsB e e', seen_lines bsA tsA /\ starts_line tsB /\ seen_lines (bsA ++ bsB) (tsA ++ tsB) /\
  ParseFile (mkSource bsA false) [] None = Failed e /\ before_end tsA e /\
  ParseFile (mkSource (bsA ++ bsB) false) [] None = Failed e' /\ e' <> e /\ below tsA e'.
Proof.
  exists (T "let x = {" ++ [10]), ([1; 10]), [T "let x = {"], [[1]]. do 2 eexists.
  split; [apply (seen_lines_iff _ _ false); vm_compute; reflexivity|].
  split; [intros l r E; injection E as <- <-; apply not_continuation; vm_compute; reflexivity|].
  split; [apply (seen_lines_iff _ _ false); vm_compute; reflexivity|]. split; [vm_compute; reflexivity|].
  split; [vm_compute; discriminate|]. split; [vm_compute; reflexivity|]. split; [discriminate|]. vm_compute. reflexivity.
Qed.
Print Assumptions C59_line_end_refuted.

(** C59 for expressions. *)
Theorem C59_expr_error_stays : forall bsA bs fails1 fails2 tsA tsB e,
  seen_lines bsA tsA -> starts_line tsB -> seen_lines bs (tsA ++ tsB) ->
  ParseExpr (mkSource bsA fails1) = Failed e -> before_end tsA e ->
  ParseExpr (mkSource bs fails2) = Failed e \/
  (about_line_end e /\ exists e', ParseExpr (mkSource bs fails2) = Failed e' /\ below tsA e').
Proof. intros bsA bs f1 f2 tsA tsB e. exact (expr_error bsA bs f1 f2 tsA tsB e). Qed.
Print Assumptions C59_expr_error_stays.
Example C59_expr_case : exists e, seen_lines (T "[1, 2") [T "[1, 2"] /\ starts_line [T "]"] /\ seen_lines (T "[1, 2" ++ [10] ++ T "]") ([T "[1, 2"] ++ [T "]"]) /\
  ParseExpr (mkSource (T "[1, 2") false) = Failed e /\ before_end [T "[1, 2"] e.
Proof.
  eexists. split; [apply (seen_lines_iff _ _ false); vm_compute; reflexivity|].
  split; [intros l r E; injection E as <- <-; apply not_continuation; vm_compute; reflexivity|].
  split; [apply (seen_lines_iff _ _ false); vm_compute; reflexivity|]. split; [vm_compute; reflexivity|]. vm_compute. discriminate.
Qed.
