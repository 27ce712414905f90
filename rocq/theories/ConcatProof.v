(** Compiling adds to what is in the buffer and does not look at it. *)
From Coq Require Import Lia.
From Verif Require Import Base Vnode Token Ast Export Nodes Places Compiler Walk WalkProof LayoutProof.

Definition pre {A} (b : text) (r : text * A) : text * A := match r with (o, x) => (b ++ o, x) end.
Definition pre3 {A} (b : text) (r : text * bool * A) : text * bool * A := match r with (o, e, x) => (b ++ o, e, x) end.
Definition framed {A} (f : text -> outcome (text * bool * A)) : Prop := forall b b', f (b ++ b') = oc_map (pre3 b) (f b').
Definition framed2 {A} (f : text -> outcome (text * A)) : Prop := forall b b', f (b ++ b') = oc_map (pre b) (f b').

Lemma framed2_grows {A} (f : text -> outcome (text * A)) b o x : framed2 f -> f b = Ok (o, x) -> exists r, o = b ++ r.
Proof.
  intros H E. specialize (H b []). rewrite app_nil_r, E in H. destruct (f []) as [[r y]|e|k|]; cbn [oc_map pre] in H; try discriminate H.
  injection H as -> ->. eauto.
Qed.

Lemma trim_split r s : (exists c, In c r /\ c <> 10) -> trim_nl (r ++ s) = trim_nl r ++ s.
Proof.
  intros [c [Hc Nc]]. induction r as [|x r IH]; [contradiction Hc|]. cbn [trim_nl app].
  destruct (x =? 10) eqn:E; [|reflexivity]. apply IH. destruct Hc as [->|Hc]; [|exact Hc]. apply N.eqb_eq in E. contradiction.
Qed.
Lemma close_app b o : (exists c, In c o /\ c <> 10) -> close_paren (b ++ o) = b ++ close_paren o.
Proof.
  intros H. unfold close_paren, trim_line_break. rewrite rev_app_distr, trim_split, rev_app_distr, rev_involutive, app_assoc; [reflexivity|].
  destruct H as [c [Hc N]]. exists c. split; auto. apply -> in_rev. exact Hc.
Qed.
Lemma fprint_app unit ind s b b' : fprint unit ind s (b ++ b') = b ++ fprint unit ind s b'.
Proof. unfold fprint. rewrite <- app_assoc. reflexivity. Qed.
Lemma fprintln_app unit ind s b b' : fprintln unit ind s (b ++ b') = b ++ fprintln unit ind s b'.
Proof. apply fprint_app. Qed.
Lemma opened unit ind s b : exists c, In c (fprint unit ind (C "(" :: s) b) /\ c <> 10.
Proof. exists (C "("). split; [|discriminate]. unfold fprint. rewrite !in_app_iff. right. right. left. reflexivity. Qed.
Lemma grown c b r : (exists x, In x b /\ x <> c) -> exists x : N, In x (b ++ r) /\ x <> c.
Proof. intros [x [H N]]. exists x. split; auto. apply in_or_app. auto. Qed.

Lemma list_framed f l : (forall x, In x l -> framed (f x)) -> framed (compile_list f l).
Proof.
  induction l as [|x l IH]; intros H b b'; cbn [compile_list]; [reflexivity|].
  rewrite (H x (or_introl eq_refl)). destruct (f x b') as [[[o e] x']|e|k|]; cbn [bind oc_map pre3]; [|reflexivity..].
  destruct e; [reflexivity|]. rewrite (IH (fun y Hy => H y (or_intror Hy))). destruct (compile_list f l o) as [[[o' e'] l']|e'|k|]; reflexivity.
Qed.
Lemma parts_framed f l : (forall x, In x l -> framed (f x)) -> framed2 (compile_parts f l).
Proof.
  induction l as [|x l IH]; intros H b b'; cbn [compile_parts]; [reflexivity|].
  rewrite (H x (or_introl eq_refl)). destruct (f x b') as [[[o e] x']|e|k|]; cbn [bind oc_map pre3]; [|reflexivity..].
  rewrite (IH (fun y Hy => H y (or_intror Hy))). destruct (compile_parts f l o) as [[o' l']|e'|k|]; reflexivity.
Qed.
Definition compile_body (f : node -> text -> outcome cres) (l : list node) (buf : text) : outcome (text * list node) :=
  let* '(buf', _, l') := compile_list f l buf in Ok (buf', l').
Lemma body_framed f l : (forall x, In x l -> framed (f x)) -> framed2 (compile_body f l).
Proof.
  intros H b b'. unfold compile_body. rewrite (list_framed f l H). destruct (compile_list f l b') as [[[o e] l']|e|k|]; reflexivity.
Qed.

Lemma later c unit ind s b : (exists x, In x b /\ x <> c) -> exists x : N, In x (fprint unit ind s b) /\ x <> c.
Proof. apply grown. Qed.
Ltac inside := cbn [fields]; intros; rewrite ?in_app_iff; tauto.
Ltac body_step := repeat match goal with |- context [bind (compile_list ?f ?l ?b) ?k] => change (bind (compile_list f l b) k) with (compile_body f l b) end.
Lemma comp_framed unit n : (forall ind, framed (comp unit ind n)) /\ (forall x, In x (fields n) -> forall ind, framed (comp unit ind x)).
Proof.
  induction n as [n IH] using fields_ind.
  split; [|intros x Hx; exact (proj1 (IH x Hx))].
  assert (LS : forall k l, (forall x, In x l -> In x (fields n)) -> framed (compile_list (comp unit k) l)).
  { intros k l H. apply list_framed. intros x Hx. exact (proj1 (IH x (H x Hx)) k). }
  assert (L1 : forall k l, (forall x, In x l -> In x (fields n)) -> framed2 (compile_body (comp unit k) l)).
  { intros k l H. apply body_framed. intros x Hx. exact (proj1 (IH x (H x Hx)) k). }
  assert (L2 : forall c k l, In c (fields n) -> (forall x, In x l -> In x (fields c)) -> framed2 (compile_body (comp unit k) l)).
  { intros c k l Hc H. apply body_framed. intros x Hx. exact (proj2 (IH c Hc) x (H x Hx) k). }
  intros ind b b'.
  destruct n; cbn [comp]; unfold line_named; rewrite ?fprintln_app, ?fprint_app; try reflexivity; try (destruct (cmd_name ea); cbn [bind oc_map pre3]; rewrite ?fprintln_app; reflexivity).
  all: cbn [fields] in LS, L1, L2.
  - rewrite (LS ind body) by auto. destruct (compile_list _ _ _) as [[[o e] l]|e|k|]; reflexivity.
  - destruct (is_nil params); rewrite ?fprint_app, fprintln_app; body_step.
    + assert (F1 := L1 (S ind) body ltac:(inside)). rewrite F1. destruct (compile_body _ _ _) as [[o l]|e|k|] eqn:E; cbn [bind oc_map pre]; [|reflexivity..]. rewrite close_app; [reflexivity|]. destruct (framed2_grows _ _ _ _ F1 E) as [r ->]. apply grown, later, opened.
    + assert (F1 := L1 (S ind) body ltac:(inside)). rewrite F1. destruct (compile_body _ _ _) as [[o l]|e|k|] eqn:E; cbn [bind oc_map pre]; [|reflexivity..]. rewrite close_app; [reflexivity|]. destruct (framed2_grows _ _ _ _ F1 E) as [r ->]. apply grown, later, later, later, opened.
  - destruct result; destruct (cmd_name ea); cbn [bind oc_map pre3]; rewrite ?fprintln_app; reflexivity.
  - destruct (cmd_name ea) as [cn|e|k|]; cbn [bind]; [|reflexivity..]. rewrite fprintln_app. body_step.
    assert (F1 := L1 (S ind) body ltac:(inside)). rewrite F1.
    destruct (compile_body _ _ _) as [[o1 l1]|e|k|] eqn:E1; cbn [bind oc_map pre]; [|reflexivity..].
    destruct (framed2_grows _ _ _ _ F1 E1) as [r1 ->]. clear E1.
    match goal with |- context [compile_parts ?f elseif (b ++ ?o)] => assert (F2 : framed2 (compile_parts f elseif)) end.
    { apply parts_framed. intros x Hx d d'. destruct x; try reflexivity. destruct (cmd_name _) as [cn'|e'|k|]; cbn [bind]; [|reflexivity..].
      rewrite fprintln_app. body_step. erewrite L2; [|rewrite ?in_app_iff; right; right; left; exact Hx|inside].
      destruct (compile_body _ _ _) as [[o2 l2]|e2|k|]; reflexivity. }
    rewrite F2. destruct (compile_parts _ _ _) as [[o2 l2]|e|k|] eqn:E2; cbn [bind oc_map pre]; [|reflexivity..].
    destruct (framed2_grows _ _ _ _ F2 E2) as [r2 ->]. clear E2.
    destruct else_ as [x|]; [|cbn [bind]; rewrite close_app; [reflexivity|do 2 apply grown; apply opened]].
    destruct x; try reflexivity. destruct (cmd_name _) as [cn'|e'|k|]; cbn [bind]; [|reflexivity..].
    rewrite fprintln_app. body_step. assert (F3 : framed2 (compile_body (comp unit (S ind)) body0)) by (apply (L2 (NElse p0 ea0 body0)); [rewrite ?in_app_iff; right; right; right; left; left; reflexivity|inside]). rewrite F3.
    destruct (compile_body _ _ _) as [[o l]|e|k|] eqn:E; cbn [bind oc_map pre]; [|reflexivity..]. rewrite close_app; [reflexivity|]. destruct (framed2_grows _ _ _ _ F3 E) as [r ->]. apply grown, later, grown, grown, opened.

  - destruct (cmd_name ea) as [cn|e|k|]; cbn [bind]; [|reflexivity..]. rewrite fprintln_app. body_step.
    assert (F1 := L1 (S ind) body ltac:(inside)). rewrite F1.
    destruct (compile_body _ _ _) as [[o1 l1]|e|k|] eqn:E1; cbn [bind oc_map pre]; [|reflexivity..].
    destruct (framed2_grows _ _ _ _ F1 E1) as [r1 ->]. rewrite close_app; [reflexivity|apply grown, opened].
  - destruct (cmd_name ea) as [cn|e|k|]; cbn [bind]; [|reflexivity..]. rewrite fprintln_app. body_step.
    assert (F1 := L1 (S ind) body ltac:(inside)). rewrite F1.
    destruct (compile_body _ _ _) as [[o1 l1]|e|k|] eqn:E1; cbn [bind oc_map pre]; [|reflexivity..].
    destruct (framed2_grows _ _ _ _ F1 E1) as [r1 ->]. rewrite close_app; [reflexivity|apply grown, opened].
  - destruct (cmd_name ea) as [cn|e|k|]; cbn [bind]; [|reflexivity..]. rewrite fprintln_app. body_step.
    assert (F1 := L1 (S ind) body ltac:(inside)). rewrite F1.
    destruct (compile_body _ _ _) as [[o1 l1]|e|k|] eqn:E1; cbn [bind oc_map pre]; [|reflexivity..].
    destruct (framed2_grows _ _ _ _ F1 E1) as [r1 ->]. clear E1.
    match goal with |- context [compile_parts ?f catch (b ++ ?o)] => assert (F2 : framed2 (compile_parts f catch)) end.
    { apply parts_framed. intros x Hx d d'. destruct x; try reflexivity. destruct (cmd_name _) as [cn'|e'|k|]; cbn [bind]; [|reflexivity..].
      rewrite fprintln_app. body_step. erewrite L2; [|rewrite ?in_app_iff; right; left; exact Hx|inside].
      destruct (compile_body _ _ _) as [[o2 l2]|e2|k|]; reflexivity. }
    rewrite F2. destruct (compile_parts _ _ _) as [[o2 l2]|e|k|] eqn:E2; cbn [bind oc_map pre]; [|reflexivity..].
    destruct (framed2_grows _ _ _ _ F2 E2) as [r2 ->]. clear E2.
    destruct finally as [x|]; [|cbn [bind]; rewrite close_app; [reflexivity|do 2 apply grown; apply opened]].
    destruct x; try reflexivity. destruct (cmd_name _) as [cn'|e'|k|]; cbn [bind]; [|reflexivity..].
    rewrite fprintln_app. body_step. assert (F3 : framed2 (compile_body (comp unit (S ind)) body0)) by (apply (L2 (NFinally p0 ea0 body0)); [rewrite ?in_app_iff; right; right; left; left; reflexivity|inside]). rewrite F3.
    destruct (compile_body _ _ _) as [[o l]|e|k|] eqn:E; cbn [bind oc_map pre]; [|reflexivity..]. rewrite close_app; [reflexivity|]. destruct (framed2_grows _ _ _ _ F3 E) as [r ->]. apply grown, later, grown, grown, opened.
Qed.

Lemma list_pieces unit l : forall buf o l', compile_list (comp unit 0) l buf = Ok (o, false, l') ->
  exists outs, Forall2 (fun n out => exists n', compile_with unit n = Ok (mkCompiled out false n')) l outs /\ o = buf ++ concat outs.
Proof.
  induction l as [|x l IH]; intros buf o l' E; cbn [compile_list] in E.
  - injection E as <- <-. exists []. split; [constructor|]. cbn. rewrite app_nil_r. reflexivity.
  - assert (F := proj1 (comp_framed unit x) 0%nat buf []). rewrite app_nil_r in F. rewrite F in E.
    destruct (comp unit 0 x []) as [[[ox e] x']|e|k|] eqn:Ex; cbn [bind oc_map pre3] in E; try discriminate E.
    destruct e; [discriminate E|]. destruct (compile_list _ l _) as [[[o' e'] t']|e'|k|] eqn:El; cbn [bind] in E; try discriminate E.
    injection E as <- -> <-. destruct (IH _ _ _ El) as [outs [A B]]. exists (ox :: outs). split.
    + constructor; [|exact A]. exists x'. unfold compile_with. rewrite Ex. reflexivity.
    + rewrite B. cbn [concat]. rewrite app_assoc. reflexivity.
Qed.
Lemma pieces_list unit l outs : Forall2 (fun n out => exists n', compile_with unit n = Ok (mkCompiled out false n')) l outs ->
  forall buf, exists l', compile_list (comp unit 0) l buf = Ok (buf ++ concat outs, false, l').
Proof.
  induction 1 as [|x o l outs [x' E] _ IH]; intros buf; cbn [compile_list concat].
  - rewrite app_nil_r. eauto.
  - assert (F := proj1 (comp_framed unit x) 0%nat buf []). rewrite app_nil_r in F. rewrite F. unfold compile_with in E.
    destruct (comp unit 0 x []) as [[[ox e] y]|e|k|]; cbn [bind] in E; try discriminate E. injection E as E1 -> ->. subst ox.
    cbn [bind oc_map pre3]. destruct (IH (buf ++ o)) as [l' ->]. cbn [bind]. rewrite app_assoc. eauto.
Qed.
Lemma file_pieces unit p body out root : compile_with unit (NFile p body) = Ok (mkCompiled out false root) <->
  exists outs body', root = NFile p body' /\ out = concat outs /\ compile_list (comp unit 0) body [] = Ok (out, false, body') /\
    Forall2 (fun n out => exists n', compile_with unit n = Ok (mkCompiled out false n')) body outs.
Proof.
  unfold compile_with at 1. cbn [comp]. split.
  - destruct (compile_list _ _ _) as [[[o e] b]|e|k|] eqn:E; cbn [bind]; try discriminate. intros H. injection H as H1 -> <-. subst o.
    destruct (list_pieces _ _ _ _ _ E) as [outs [A ->]]. exists outs, b. auto.
  - intros [outs [body' [-> [-> [-> _]]]]]. reflexivity.
Qed.

Lemma ends_pl unit ind s buf : exists r, fprintln unit ind s buf = r ++ [10].
Proof. exists (buf ++ concat (repeat unit ind) ++ s). unfold fprintln, fprint. rewrite !app_assoc. reflexivity. Qed.
Lemma ends_close b : exists r, close_paren b = r ++ [10].
Proof. exists (trim_line_break b ++ [41]). unfold close_paren. rewrite <- app_assoc. reflexivity. Qed.
Lemma stmt_line unit n : is_stmt n = true -> forall ind buf o n', comp unit ind n buf = Ok (o, false, n') -> exists r, o = r ++ [10].
Proof.
  intros S ind buf o n'. destruct n; try discriminate S; cbn [comp]; unfold line_named; intros E;
    repeat match type of E with
    | bind (bind ?m _) _ = _ => destruct m as [?|?|?|]; cbn [bind] in E; try discriminate E
    | bind ?m _ = _ => destruct m as [?|?|?|]; cbn [bind] in E; try discriminate E
    | (let (_, _) := ?x in _) = _ => destruct x
    | match ?x with _ => _ end = _ => destruct x; try discriminate E
    end; try (injection E; intros; subst; auto using ends_pl, ends_close; fail); try discriminate E.
Qed.
