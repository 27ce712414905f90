(** Property theorems: the layout of a text does not show in what is made of it.
    same_shape is the small specification used here. *)
From Verif Require Import Base Utf8 CharClass Reader Vnode Token Ast Export Api ApiFile Places Compiler Printer Walk Nodes Visits Join Sequel JoinProof JsonProof LayoutProof ConcatProof LinesProof NodeFacts
  PropText PropAst PropOut PropSequel PropLabel.

(** Two trees that differ in positions (offset, line, column and file name) only. *)
Definition nowhere : apos := mkAPos 0 0 0 [].
Definition same_shape (n n' : node) : Prop := map_node (fun _ => nowhere) n = map_node (fun _ => nowhere) n'.

(** Two calls of Compile that end the same way: the same text is written, both or neither
    return an error, and the trees are of the same shape afterwards. *)
Definition compiled_alike (r r' : outcome compiled) : Prop :=
  match r, r' with
  | Ok c, Ok c' => c_out c = c_out c' /\ c_err c = c_err c' /\ same_shape (c_node c) (c_node c')
  | PErr e, PErr e' => e = e'
  | Panic k, Panic k' => k = k'
  | OutOfFuel, OutOfFuel => True
  | _, _ => False
  end.
(** Compile (with any Indent) and Fprint make the same of two trees. *)
Definition same_output (n n' : node) : Prop :=
  (forall unit, compiled_alike (compile_with unit n) (compile_with unit n')) /\ Fprint n = Fprint n'.

(** C63: what Compile and Fprint write, whether they fail and what Inspect shows in which
    order depends on the shape of the tree only, never on positions or file names. *)
Theorem C63_shape : forall n n', same_shape n n' -> same_output n n'.
Proof.
  intros n n' H. unfold same_shape in H. split.
  - intros unit. pose proof (compile_map (fun _ => nowhere) unit n) as E. pose proof (compile_map (fun _ => nowhere) unit n') as E'.
    rewrite H in E. rewrite E in E'. unfold compiled_alike, same_shape.
    destruct (compile_with unit n) as [c|e|k|], (compile_with unit n') as [c'|e'|k'|]; cbn [oc_map] in E'; try discriminate E'; try (injection E'; auto; fail); auto.
  - rewrite <- (fprint_map (fun _ => nowhere) n), H. apply fprint_map.
Qed.
Print Assumptions C63_shape.
(** Walk, with two visitors that answer alike on nodes of the same shape: they are called
    the same number of times, on nodes of the same shape, in the same order. R relates what
    the two have recorded. *)
Definition same_arg (o o' : option node) : Prop :=
  match o, o' with None, None => True | Some n, Some n' => same_shape n n' | _, _ => False end.
Definition answer_alike {V S S'} (R : S -> S' -> Prop) (visit : V -> option node -> S -> option V * S)
  (visit' : V -> option node -> S' -> option V * S') : Prop :=
  forall v o o' s s', same_arg o o' -> R s s' ->
    fst (visit v o s) = fst (visit' v o' s') /\ R (snd (visit v o s)) (snd (visit' v o' s')).
Lemma shape_children n n' : same_shape n n' -> Forall2 same_shape (walk_children n) (walk_children n').
Proof.
  intros H. pose proof (children_map (fun _ => nowhere) n) as E. pose proof (children_map (fun _ => nowhere) n') as E'.
  rewrite H in E. rewrite E in E'. clear - E'. revert E'. generalize (walk_children n') as l', (walk_children n) as l.
  induction l' as [|y l' IH]; intros [|x l] E; try discriminate E; [constructor|]. injection E as E1 E2. constructor; auto.
Qed.
Theorem C63_walk : forall (V S S' : Type) (R : S -> S' -> Prop) visit visit', answer_alike (V := V) R visit visit' ->
  forall k v n n' s s' r, same_shape n n' -> R s s' -> walk visit k v n s = Some r ->
  exists r', walk visit' k v n' s' = Some r' /\ R r r'.
Proof.
  intros V S S' R visit visit' H. induction k as [|k IH]; intros v n n' s s' r Hn Hs; cbn [walk]; [discriminate|].
  destruct (H v (Some n) (Some n') s s' Hn Hs) as [A B].
  destruct (visit v (Some n) s) as [[w|] s1], (visit' v (Some n') s') as [[w'|] s1']; cbn [fst snd] in A, B; try discriminate A; [|intros E; injection E as <-; eauto].
  injection A as <-. pose proof (shape_children _ _ Hn) as CC.
  assert (L : forall r, walk_list (walk visit k w) (walk_children n) s1 = Some r -> exists r', walk_list (walk visit' k w) (walk_children n') s1' = Some r' /\ R r r').
  { clear - IH CC B. revert s1 s1' B. induction CC as [|x y l l' Hxy _ IHl]; intros s1 s1' B r; cbn [walk_list]; [intros E; injection E as <-; eauto|].
    destruct (walk visit k w x s1) as [s2|] eqn:E; [|discriminate]. destruct (IH _ _ _ _ _ _ Hxy B E) as [s2' [-> B']]. apply IHl, B'. }
  destruct (walk_list (walk visit k w) (walk_children n) s1) as [s2|]; [|discriminate]. destruct (L s2 eq_refl) as [s2' [-> B2]].
  intros E. injection E as <-. eexists. split; [reflexivity|]. apply (H w None None s2 s2' I B2).
Qed.
Print Assumptions C63_walk.
Theorem C63_inspect : forall n n' enter k log, same_shape n n' -> (forall x y, same_shape x y -> enter x = enter y) ->
  inspect k n (recorder enter) [] = Some log ->
  exists log', inspect k n' (recorder enter) [] = Some log' /\ Forall2 same_shape log log'.
Proof.
  intros n n' enter k log Hn He. apply C63_walk; [|exact Hn|constructor].
  intros v o o' s s' Ho Hs. destruct o as [x|], o' as [x'|]; try contradiction Ho; [|split; [reflexivity|exact Hs]].
  cbn [inspector_visit recorder]. unfold recorder. cbn [fst snd]. rewrite (He x x' Ho). split; [reflexivity|].
  apply Forall2_app; [exact Hs|]. constructor; [exact Ho|constructor].
Qed.
Print Assumptions C63_inspect.

(** So a text may be laid out anew: with its lines broken in another way, *)
Theorem C63_rebroken : forall bs fails ts bs' fails' ts' js file opt,
  seen_lines bs ts -> unbroken ts js -> seen_lines bs' ts' -> unbroken ts' js ->
  (forall n, ParseFile (mkSource bs fails) file opt = Returned n ->
     exists n', ParseFile (mkSource bs' fails') file opt = Returned n' /\ same_output n n') /\
  (forall n, ParseExpr (mkSource bs fails) = Returned (Some n) ->
     exists n', ParseExpr (mkSource bs' fails') = Returned (Some n') /\ same_output n n').
Proof.
  intros bs fails ts bs' fails' ts' js file opt L U L' U'.
  assert (K : forall n n', bare n = bare n' -> same_output n n').
  { intros n n' H. apply C63_shape. unfold same_shape, bare in *.
    apply (f_equal (map_node (fun _ => nowhere))) in H. rewrite !map_node_comp in H. exact H. }
  destruct (C27_rebroken bs fails ts bs' fails' ts' js file opt L U L' U') as [A B]. split.
  - intros n E. rewrite E in A. destruct (ParseFile (mkSource bs' fails') file opt) as [n'|e|]; cbn [same_answer] in A; try contradiction A. eauto.
  - intros n E. rewrite E in B. destruct (ParseExpr (mkSource bs' fails')) as [[n'|]|e|]; cbn [same_answer option_map] in B; try contradiction B; try discriminate B.
    injection B as B. eauto.
Qed.
Print Assumptions C63_rebroken.
(** with another indentation of the first line, *)
Theorem C63_indented : forall bs bs' fails fails' ws l ts file opt n,
  seen_lines bs (l :: ts) -> seen_lines bs' ((ws ++ l) :: ts) ->
  Forall (fun r => r = 32 \/ r = 9 \/ r = 58) ws -> ~ starts_with bs (T "#!") ->
  ParseFile (mkSource bs fails) file opt = Returned n ->
  exists n', ParseFile (mkSource bs' fails') file opt = Returned n' /\ same_output n n'.
Proof.
  intros bs bs' fails fails' ws l ts file opt n L L' W H E.
  destruct (C62_leading_blanks bs bs' fails fails' ws l ts file opt L L' W H) as [A _].
  destruct (ParseFile_errors (mkSource bs fails) file opt) as [[p [body K]]|[[o [y [co [m K]]]]|[s [_ [_ [_ K]]]]]]; rewrite K in E; try discriminate E.
  injection E as <-. rename K into E.
  destruct (A p body E) as [p' [E' _]]. eexists. split; [exact E'|]. apply C63_shape. unfold same_shape. cbn [map_node]. f_equal.
  rewrite map_map. apply map_ext. intros x. symmetry. apply map_node_comp.
Qed.
Print Assumptions C63_indented.
(** and read under another name. *)
Theorem C63_renamed : forall src f f' opt n, ParseFile src f opt = Returned n ->
  exists n', ParseFile src f' opt = Returned n' /\ same_output n n'.
Proof.
  intros src f f' opt n E. rewrite (C61_file_name src f f' opt), E. cbn [answer_in]. eexists. split; [reflexivity|].
  apply C63_shape. unfold same_shape. rewrite map_node_comp. reflexivity.
Qed.
Print Assumptions C63_renamed.
(** Two layouts of the text of C27, with different trees and the same output. *)
Example C63_case : exists n n' c, ParseFile (mkSource C27_broken false) [] None = Returned n /\
  ParseFile (mkSource C27_unbroken false) [] None = Returned n' /\ n <> n' /\ same_shape n n' /\
  Compile n = Ok c /\ c_out c = T "(let = x (list 1 2))" ++ 10 :: T "(echo x)" ++ [10].
Proof.
  do 3 eexists. split; [vm_compute; reflexivity|]. split; [vm_compute; reflexivity|]. split; [discriminate|].
  split; [vm_compute; reflexivity|]. split; [vm_compute; reflexivity|]. vm_compute. reflexivity.
Qed.

(** C64: a file is compiled statement by statement. Each statement alone gives lines of its
    own, and what is written for the file is these one after the other. *)
Definition compiles_to (unit : text) (n : node) (out : text) : Prop := exists n', compile_with unit n = Ok (mkCompiled out false n').
Theorem C64_statements : forall unit src file opt p body, ParseFile src file opt = Returned (NFile p body) ->
  exists outs, Forall2 (compiles_to unit) body outs /\ Forall (fun o => exists r, o = r ++ [10]) outs /\
    compiles_to unit (NFile p body) (concat outs).
Proof.
  intros unit [bs fails] file opt p body E.
  assert (HA : accepted bs fails file (NFile p body)) by (left; eauto).
  destruct (C29_compile_total unit bs fails file _ HA) as [out [root' K]]. pose proof K as K0.
  apply file_pieces in K. destruct K as [outs [body' [-> [-> [Kl A]]]]]. exists outs. split; [exact A|]. split; [|eexists; exact K0].
  pose proof (node_typed bs fails file _ HA _ (wi_root _)) as Ty. cbn [typed] in Ty. unfold stmts in Ty. clear - A Ty.
  induction A as [|n o l os [n' H] _ IH]; [constructor|]. inversion Ty as [|? ? Sn Sl]. subst. constructor; [|auto].
  unfold compile_with in H. destruct (comp unit 0 n []) as [[[o' e] y]|e|k|] eqn:Ec; cbn [bind] in H; try discriminate H.
  injection H as H1 -> ->. subst o'. exact (stmt_line unit n Sn _ _ _ _ Ec).
Qed.
Print Assumptions C64_statements.
(** So the output for a script behind another one, as in C57, is the output for the first and
    then the output for the second. *)
Theorem C64_sequel : forall unit bsA bsB bs fails1 fails2 fails3 tsA tsB cells file opt p a q b outA outB,
  seen_lines bsA tsA -> tsA <> [] -> source_cells bsA cells ->
  seen_lines bsB tsB -> starts_line tsB -> seen_lines bs (tsA ++ tsB) -> apart bsA bsB ->
  ParseFile (mkSource bsA fails1) file opt = Returned (NFile p a) -> self_contained a ->
  ParseFile (mkSource bsB fails2) file opt = Returned (NFile q b) ->
  compiles_to unit (NFile p a) outA -> compiles_to unit (NFile q b) outB ->
  exists n, ParseFile (mkSource bs fails3) file opt = Returned n /\ compiles_to unit n (outA ++ outB).
Proof.
  intros unit bsA bsB bs f1 f2 f3 tsA tsB cells file opt p a q b outA outB L1 N L2 L3 St L4 Ap E1 Sc E2 [rA KA] [rB KB].
  destruct (C57_sequel_partial bsA bsB bs f1 f2 f3 tsA tsB cells file opt p a L1 N L2 L3 St L4 Ap E1 Sc) as [H _].
  specialize (H q b E2). eexists. split; [exact H|]. apply file_pieces in KA, KB.
  destruct KA as [oa [ba [_ [-> [_ A]]]]], KB as [ob [bb [_ [-> [_ B]]]]].
  assert (B' : Forall2 (compiles_to unit) (map (map_node (moved (line_bytes tsA) (N.of_nat (length tsA)))) b) ob).
  { clear - B. induction B as [|n o l os [n' Hn] _ IH]; [constructor|]. cbn [map]. constructor; [|exact IH].
    unfold compiles_to. rewrite compile_map, Hn. cbn [oc_map c_out c_err c_node]. eauto. }
  destruct (pieces_list unit (a ++ map (map_node (moved (line_bytes tsA) (N.of_nat (length tsA)))) b) (oa ++ ob) (Forall2_app A B') []) as [l' El].
  exists (NFile p l'). unfold compile_with. cbn [comp]. rewrite El. cbn [bind app]. rewrite concat_app. reflexivity.
Qed.
Print Assumptions C64_sequel.
Example C64_case : exists p a q b outA outB,
  ParseFile (mkSource C57_first false) [] None = Returned (NFile p a) /\ ParseFile (mkSource C57_second false) [] None = Returned (NFile q b) /\
  compiles_to (T "  ") (NFile p a) outA /\ compiles_to (T "  ") (NFile q b) outB /\ length a = 2%nat /\
  outA = T "(let = x 1)" ++ 10 :: T "(if x" ++ 10 :: T "  (echo x)" ++ 10 :: T "  (call (f)))" ++ [10].
Proof.
  do 6 eexists. split; [vm_compute; reflexivity|]. split; [vm_compute; reflexivity|].
  split; [eexists; vm_compute; reflexivity|]. split; [eexists; vm_compute; reflexivity|]. split; reflexivity.
Qed.
