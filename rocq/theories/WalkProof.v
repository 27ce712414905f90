(** Walk and Inspect do what their documentation says, except for the hidden children. *)
From Coq Require Import Lia Permutation.
From Verif Require Import Base Vnode Token Ast Walk Nodes Visits.

Lemma olist_on o : @olist node o = on o.
Proof. destruct o; reflexivity. Qed.

Lemma fields_ind (P : node -> Prop) : (forall n, (forall m, In m (fields n) -> P m) -> P n) -> forall n, P n.
Proof.
  intros H. fix IH 1. intros n. apply H. intros u Hu.
  destruct n; cbn [fields] in Hu; try contradiction; rewrite ?in_app_iff in Hu;
    repeat match goal with X : _ \/ _ |- _ => destruct X as [X|X] end.
  all: try (match type of Hu with In _ (on ?o) => destruct o as [y0|]; [destruct Hu as [<-|[]]; apply IH|contradiction] end).
  all: try (match type of Hu with In _ (flat_map _ ?l) => revert Hu; induction l as [|[k w] r IHr]; [contradiction|] end;
       cbn [flat_map fst snd]; rewrite !in_app_iff; intros [[Hu|Hu]|Hu];
       [destruct k as [y0|]; [destruct Hu as [<-|[]]; apply IH|contradiction]
       |destruct w as [y0|]; [destruct Hu as [<-|[]]; apply IH|contradiction]
       |exact (IHr Hu)]).
  all: match type of Hu with In _ ?l => revert Hu; induction l as [|y0 r IHr]; [contradiction|] end;
       intros [<-|Hu]; [apply IH|exact (IHr Hu)].
Qed.

Lemma walk_shown n : walk_children n = shown_children n.
Proof.
  destruct n; cbn [walk_children shown_children children fields]; rewrite ?olist_on; try reflexivity.
Qed.
Lemma children_fields n : Permutation (children n) (fields n).
Proof.
  destruct n; cbn [children fields]; auto using Permutation_refl.
  - rewrite !app_assoc. apply Permutation_app_tail.
    rewrite <- !app_assoc. rewrite (app_assoc body). 
    etransitivity; [|apply Permutation_app_tail, Permutation_app_comm].
    rewrite <- !app_assoc. apply Permutation_app_head. rewrite !app_assoc.
    etransitivity; [apply Permutation_app_comm|]. rewrite <- !app_assoc. reflexivity.
  - rewrite !app_assoc. do 3 apply Permutation_app_tail. apply Permutation_app_comm.
  - apply Permutation_app_comm.
  - rewrite !app_assoc. apply Permutation_app_tail, Permutation_app_comm.
  - rewrite !app_assoc. apply Permutation_app_tail. rewrite <- !app_assoc.
    etransitivity; [|apply Permutation_app_comm]. rewrite <- !app_assoc. reflexivity.
Qed.
Lemma shown_hidden n : Permutation (shown_children n ++ hidden_children n) (fields n).
Proof.
  etransitivity; [|apply children_fields].
  destruct n; cbn [children shown_children hidden_children fields]; rewrite ?app_nil_r; auto using Permutation_refl.
  rewrite <- !app_assoc. apply Permutation_app_head. apply Permutation_app_head.
  rewrite app_assoc. apply Permutation_app_comm.
Qed.
Lemma shown_field n m : In m (shown_children n) -> In m (fields n).
Proof. intros H. eapply Permutation_in; [apply shown_hidden|]. apply in_or_app; auto. Qed.

Section W.
Context {V S : Type} (visit : V -> option node -> S -> option V * S).

Lemma walk_list_ext (f g : node -> S -> option S) l : (forall x s r, In x l -> f x s = Some r -> g x s = Some r) ->
  forall s r, walk_list f l s = Some r -> walk_list g l s = Some r.
Proof.
  induction l as [|x l IH]; intros H s r E; cbn [walk_list] in *; auto.
  destruct (f x s) as [s1|] eqn:F; [|discriminate].
  rewrite (H x s s1 (or_introl eq_refl) F). apply IH; auto. intros; apply H; auto. right; auto.
Qed.
Lemma walk_more k : forall k' v n s r, (k <= k')%nat -> walk visit k v n s = Some r -> walk visit k' v n s = Some r.
Proof.
  induction k as [|k IH]; intros k' v n s r L E; [discriminate|].
  destruct k' as [|k']; [lia|]. cbn [walk] in *.
  destruct (visit v (Some n) s) as [[w|] s1]; auto.
  destruct (walk_list (walk visit k w) (walk_children n) s1) as [s2|] eqn:F; [|discriminate].
  erewrite walk_list_ext; [exact E| |exact F]. intros x s0 r0 _. apply IH. lia.
Qed.
Lemma walk_list_enough w l : (forall x, In x l -> forall s, exists k r, walk visit k w x s = Some r) ->
  forall s, exists k r, walk_list (walk visit k w) l s = Some r.
Proof.
  induction l as [|x l IH]; intros H s.
  - exists O, s. reflexivity.
  - destruct (H x (or_introl eq_refl) s) as [k1 [s1 E1]].
    destruct (IH (fun y Hy => H y (or_intror Hy)) s1) as [k2 [s2 E2]].
    exists (Nat.max k1 k2), s2. cbn [walk_list].
    erewrite (walk_more k1) by (try exact E1; lia).
    eapply walk_list_ext; [|exact E2]. intros y s' r _ Hy. eapply walk_more; [|exact Hy]. lia.
Qed.
Lemma walk_enough n : forall v s, exists k r, walk visit k v n s = Some r.
Proof.
  induction n as [n IH] using fields_ind. intros v s.
  destruct (visit v (Some n) s) as [[w|] s1] eqn:E.
  - destruct (walk_list_enough w (walk_children n)) with (s := s1) as [k [r F]].
    + intros x Hx s'. apply IH. rewrite walk_shown in Hx. apply shown_field; auto.
    + exists (Datatypes.S k), (snd (visit w None r)). cbn [walk]. rewrite E, F. reflexivity.
  - exists 1%nat, s1. cbn [walk]. rewrite E. reflexivity.
Qed.

Lemma walk_traverses k : forall v n s r, walk visit k v n s = Some r -> traverses shown_children visit v n s r.
Proof.
  induction k as [|k IH]; intros v n s r E; [discriminate|]. cbn [walk] in E.
  destruct (visit v (Some n) s) as [[w|] s1] eqn:E1.
  - destruct (walk_list (walk visit k w) (walk_children n) s1) as [s2|] eqn:F; [|discriminate].
    destruct (visit w None s2) as [y s3] eqn:E3. cbn [snd] in E. inversion E; subst.
    eapply tr_entered; [exact E1| |exact E3]. rewrite walk_shown in F. clear E1 E E3.
    revert s1 F. induction (shown_children n) as [|x l IHl]; intros s1 F; cbn [walk_list] in F.
    + inversion F; constructor.
    + destruct (walk visit k w x s1) as [s'|] eqn:G; [|discriminate]. econstructor; eauto.
  - inversion E; subst. apply tr_declined; auto.
Qed.
End W.

(** * Inspect *)

Section I.
Context (enter : node -> bool).
Notation step := (inspector_visit (recorder enter)).

Lemma inspect_preorder n : forall log r, traverses shown_children step tt n log r ->
  exists l, preorder shown_children enter n l /\ r = log ++ l.
Proof.
  induction n as [n IH] using fields_ind. intros log r H. inversion H; subst.
  - cbn [inspector_visit recorder] in H0. destruct (enter n) eqn:E; [discriminate|].
    inversion H0; subst. exists [n]. split; auto. apply po_cut; auto.
  - cbn [inspector_visit recorder] in H0. destruct (enter n) eqn:E; [|discriminate].
    inversion H0; subst. cbn [inspector_visit] in H2. inversion H2; subst. clear H0 H2 H.
    assert (G : exists ls, Forall2 (preorder shown_children enter) (shown_children n) ls /\ r = (log ++ [n]) ++ concat ls).
    { assert (Sub : forall x, In x (shown_children n) -> In x (fields n)) by apply shown_field.
      revert Sub H1. generalize (log ++ [n]). generalize (shown_children n).
      induction l as [|x l IHl]; intros lg Sub TA; inversion TA; subst.
      - exists []. split; [constructor|]. cbn. rewrite app_nil_r. reflexivity.
      - match goal with X : traverses _ _ _ x _ _, Y : traverse_all _ _ _ l _ _ |- _ =>
          apply (IH x) in X; [|apply Sub; left; auto]; destruct X as [lx [Px ->]];
          apply IHl in Y; [|intros; apply Sub; right; auto]; destruct Y as [ls [Pl ->]] end.
        exists (lx :: ls). split; [constructor; auto|].
        cbn [concat]. rewrite !app_assoc. reflexivity. }
    destruct G as [ls [G1 ->]]. exists (n :: concat ls). split; [apply po_node; auto|].
    rewrite <- app_assoc. reflexivity.
Qed.

Lemma reached_up (kids : node -> list node) m : forall x n, reached kids enter x n -> enter m = true -> In x (kids m) ->
  reached kids enter m n.
Proof.
  induction 1; intros Hm HI.
  - eapply re_child; [constructor|auto|auto].
  - eapply re_child; eauto.
Qed.
Lemma reached_down (kids : node -> list node) root n : reached kids enter root n ->
  n = root \/ (enter root = true /\ exists x, In x (kids root) /\ reached kids enter x n).
Proof.
  induction 1; auto. right. destruct IHreached as [->|[E [x [Hx Hr]]]].
  - split; auto. exists n. split; auto. constructor.
  - split; auto. exists x. split; auto. eapply re_child; eauto.
Qed.

Lemma preorder_reached (kids : node -> list node) root : (forall n m, In m (kids n) -> In m (fields n)) ->
  forall l, preorder kids enter root l -> forall n, In n l <-> reached kids enter root n.
Proof.
  intros Sub. induction root as [root IH] using fields_ind. intros l H n. inversion H; subst.
  - split.
    + intros [<-|[]]. constructor.
    + intros R. apply reached_down in R. destruct R as [->|[E _]]; [left; auto|congruence].
  - assert (G : In n (concat ls) <-> exists x, In x (kids root) /\ reached kids enter x n).
    { assert (S2 : forall x, In x (kids root) -> In x (fields root)) by (intros; apply Sub; auto).
      revert S2 H1. clear H. generalize (kids root). intros k S2 F2. induction F2 as [|x lx k ls P F2 IHF].
      - cbn. split; [contradiction|intros [x [[] _]]].
      - cbn [concat]. rewrite in_app_iff, IHF by (intros; apply S2; right; auto).
        rewrite (IH x (S2 x (or_introl eq_refl)) lx P n). split.
        + intros [R|[y [Hy R]]]; [exists x; split; auto; left; auto|exists y; split; auto; right; auto].
        + intros [y [[<-|Hy] R]]; [left; auto|right; eauto]. }
    cbn [In]. rewrite G. split.
    + intros [<-|[x [Hx R]]]; [constructor|]. eapply reached_up; eauto.
    + intros R. apply reached_down in R. destruct R as [->|[E X]]; [left; auto|right; auto].
Qed.
End I.

(** * Trees whose nodes hold what their types promise *)

Definition all_typed (n : node) : Prop := forall m, within n m -> typed m.
Lemma within_step n m k : In m (fields n) -> within m k -> within n k.
Proof.
  intros H. induction 1.
  - eapply wi_field; [constructor|exact H].
  - eapply wi_field; eauto.
Qed.
Lemma all_typed_field n m : all_typed n -> In m (fields n) -> all_typed m.
Proof. intros H HI k W. apply H. eapply within_step; eauto. Qed.

Lemma typed_expr_fields n : is_expr n = true -> typed n -> forall m, In m (fields n) -> is_expr m = true.
Proof.
  assert (OE : forall o, opt_expr o -> forall m, In m (on o) -> is_expr m = true).
  { intros o [->|[x [-> E]]] m H; cbn in H; [contradiction|destruct H as [<-|[]]; auto]. }
  assert (EE : forall o, expr o -> forall m, In m (on o) -> is_expr m = true).
  { intros o E. apply OE. right; auto. }
  assert (XE : forall l, exprs l -> forall m, In m l -> is_expr m = true).
  { intros l E m H. unfold exprs in E. rewrite Forall_forall in E. apply E; auto. }
  assert (IE : forall l, idents l -> forall m, In m l -> is_expr m = true).
  { intros l E m H. unfold idents in E. rewrite Forall_forall in E. destruct (E m H) as [p [s ->]]. reflexivity. }
  intros E Ty m H. destruct n; try discriminate; cbn [fields typed] in *; try contradiction;
    rewrite ?in_app_iff in H;
    repeat match goal with X : _ /\ _ |- _ => destruct X end;
    repeat match goal with X : _ \/ _ |- _ => destruct X as [X|X] end;
    try solve [eauto].
  - destruct H1 as [q [s ->]]. destruct H as [<-|[]]. reflexivity.
  - apply in_flat_map in H. destruct H as [kv [H1 H2]]. rewrite Forall_forall in Ty. destruct (Ty _ H1) as [A B].
    apply in_app_iff in H2. destruct H2; eauto.
  - rewrite Forall_forall in Ty. destruct (Ty _ H) as [[q [s ->]]|[q [s ->]]]; reflexivity.
Qed.

Definition not_expr (n : node) : bool := negb (is_expr n).
Lemma flat_map_concat {A B} (f : A -> list B) l : flat_map f l = concat (map f l).
Proof. induction l; cbn; congruence. Qed.
Lemma filter_concat {A} (p : A -> bool) ls : filter p (concat ls) = concat (map (filter p) ls).
Proof. induction ls as [|l ls IH]; auto. cbn [concat map]. rewrite filter_app, IH. reflexivity. Qed.

Definition stmts_of (n : node) : list node := if is_expr n then [] else order n.
Lemma stmts_none l : (forall m, In m l -> is_expr m = true) -> flat_map stmts_of l = [].
Proof.
  induction l as [|x l IH]; intros H; auto. cbn [flat_map]. unfold stmts_of at 1.
  rewrite (H x (or_introl eq_refl)), IH; auto. intros; apply H; right; auto.
Qed.
Lemma stmts_all l : (forall m, In m l -> is_expr m = false) -> flat_map stmts_of l = flat_map order l.
Proof.
  induction l as [|x l IH]; intros H; auto. cbn [flat_map]. unfold stmts_of at 1.
  rewrite (H x (or_introl eq_refl)), IH; auto. intros; apply H; right; auto.
Qed.
Lemma stmts_body l : stmts l -> flat_map stmts_of l = flat_map order l.
Proof.
  intros H. apply stmts_all. intros m Hm. unfold stmts in H. rewrite Forall_forall in H. specialize (H m Hm).
  destruct m; cbn in *; auto; discriminate.
Qed.
Lemma stmts_exprs l : exprs l -> flat_map stmts_of l = [].
Proof. intros H. apply stmts_none. intros m Hm. unfold exprs in H. rewrite Forall_forall in H. auto. Qed.
Lemma stmts_idents l : idents l -> flat_map stmts_of l = [].
Proof.
  intros H. apply stmts_none. intros m Hm. unfold idents in H. rewrite Forall_forall in H.
  destruct (H m Hm) as [p [s ->]]. reflexivity.
Qed.
Lemma stmts_expr o : expr o -> flat_map stmts_of (on o) = [].
Proof. intros [x [-> E]]. cbn [on flat_map]. unfold stmts_of. rewrite E. reflexivity. Qed.
Lemma stmts_opt o : opt_expr o -> flat_map stmts_of (on o) = [].
Proof. intros [->|H]; auto using stmts_expr. Qed.
Lemma stmts_some o : match o with Some x => is_expr x = false | None => True end ->
  flat_map stmts_of (on o) = oo order o.
Proof. destruct o as [x|]; cbn [on flat_map oo]; auto. intros H. unfold stmts_of. rewrite H. apply app_nil_r. Qed.

Lemma order_shown n : typed n -> is_expr n = false -> order n = n :: flat_map stmts_of (shown_children n).
Proof.
  intros Ty E. destruct n; try discriminate; cbn [order shown_children children fields typed] in *;
    rewrite ?flat_map_app; repeat match goal with X : _ /\ _ |- _ => destruct X end; f_equal;
    repeat match goal with
    | X : stmts _ |- _ => rewrite (stmts_body _ X); clear X
    | X : exprs _ |- _ => rewrite (stmts_exprs _ X); clear X
    | X : idents _ |- _ => rewrite (stmts_idents _ X); clear X
    | X : expr _ |- _ => rewrite (stmts_expr _ X); clear X
    | X : opt_expr _ |- _ => rewrite (stmts_opt _ X); clear X
    end; cbn [app flat_map]; try reflexivity.
  all: repeat match goal with
    | X : exists _, _ |- _ => destruct X
    | X : _ = None \/ _ |- _ => destruct X
    end; subst; cbn [on oo flat_map app]; try (unfold stmts_of; cbn [is_expr]); rewrite ?app_nil_r; try reflexivity.
  all: match goal with X : Forall _ ?l |- _ => fold stmts_of; rewrite (stmts_all l); [reflexivity|];
         intros m Hm; rewrite Forall_forall in X; destruct (X m Hm) as [? [? [? [? ->]]]]; reflexivity end.
Qed.

Lemma preorder_order n : forall l, all_typed n -> preorder shown_children (fun _ => true) n l ->
  filter not_expr l = stmts_of n.
Proof.
  induction n as [n IH] using fields_ind. intros l Ty H. inversion H; subst; [discriminate|].
  assert (G : filter not_expr (concat ls) = flat_map stmts_of (shown_children n)).
  { assert (Sub : forall x, In x (shown_children n) -> In x (fields n)) by apply shown_field.
    revert Sub H1. clear H. generalize (shown_children n). intros k Sub F. induction F as [|x lx k ls P F IHF]; auto.
    cbn [concat flat_map]. rewrite filter_app, IHF by (intros; apply Sub; right; auto). f_equal.
    apply IH; auto. apply Sub; left; auto. eapply all_typed_field; eauto. apply Sub; left; auto. }
  cbn [filter]. unfold not_expr at 1, stmts_of at 1. rewrite G. destruct (is_expr n) eqn:E; cbn [negb].
  - apply stmts_none. intros m Hm. eapply typed_expr_fields; eauto. apply Ty; constructor. apply shown_field; auto.
  - symmetry. apply order_shown; auto. apply Ty; constructor.
Qed.

Lemma inspect_result enter n : exists k l, inspect k n (recorder enter) [] = Some l /\ preorder shown_children enter n l.
Proof.
  destruct (walk_enough (inspector_visit (recorder enter)) n tt []) as [k [r E]]. exists k, r. split; auto.
  apply walk_traverses in E. apply inspect_preorder in E. destruct E as [l [P ->]]. exact P.
Qed.
