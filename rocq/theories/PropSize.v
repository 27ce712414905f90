(** C69: the size of the tree is bounded by the size of the text. *)
From Coq Require Import Lia Permutation.
From Verif Require Import Base Utf8 Reader Vnode Token Cursor Ast Export Api Nodes Visits Walk WalkProof Places LinesProof ApiFile ApiExpr SizeProof PropAst PropWalk.
Local Open Scope nat_scope.

(** [log] lists all nodes of the tree, each with its fields behind it. *)
Definition all_nodes (root : node) (log : list node) : Prop := preorder fields (fun _ => true) root log.
(** [descent l]: each node of [l] is in a field of the one before it. *)
Inductive descent : list node -> Prop :=
| ds_one n : descent [n]
| ds_more n m l : In m (fields n) -> descent (m :: l) -> descent (n :: m :: l).

Lemma source_clen bs fails : clen (open_source (mkSource bs fails)) <= length bs + 1.
Proof.
  destruct (seen_exists bs) as [ts Hs]. pose proof (seen_total bs ts Hs) as H.
  unfold open_source. apply (seen_lines_iff _ _ fails) in Hs. rewrite <- Hs.
  pose proof (clen_reader ts). lia.
Qed.
Lemma accepted_size bs fails file root : accepted bs fails file root -> nsize root <= 2 * length bs + 3.
Proof.
  pose proof (source_clen bs fails) as L. intros [[opt H]|[_ H]].
  - destruct (ParseFile_cases (mkSource bs fails) file opt) as [[v [p [b [H1 [H2 H3]]]]]|[[msg [s [_ H3]]]|[k [_ H3]]]];
      rewrite H3 in H; inversion H; subst. apply script_size in H1. apply (new_ast_size file (vsize v)) in H2; lia.
  - destruct (ParseExpr_cases (mkSource bs fails)) as [[v [c' [n [H1 [H2 [_ H3]]]]]]|[msg [s [_ H3]]]];
      rewrite H3 in H; inversion H; subst. apply dexpr_fits in H1. unfold fits in H1.
    apply (new_ast_size [] (vsize v)) in H2; lia.
Qed.
Lemma field_size n m : In m (fields n) -> nsize m < nsize n.
Proof.
  intros H. rewrite (nsize_fields n). induction (fields n) as [|x l IH]; [destruct H|].
  unfold nsizes in *. cbn [map]. change (list_sum (nsize x :: map nsize l)) with (nsize x + list_sum (map nsize l)).
  destruct H as [->|H]; [lia|]. specialize (IH H). lia.
Qed.
Lemma nsizes_perm a b : Permutation a b -> nsizes a = nsizes b.
Proof. induction 1; unfold nsizes in *; cbn [map list_sum fold_right] in *; unfold list_sum in *; cbn [fold_right] in *; lia. Qed.
Lemma shown_size enter n : forall log, preorder shown_children enter n log -> length log <= nsize n.
Proof.
  induction n as [n IH] using fields_ind. intros log H. inversion H as [? E|? ls _ F]; subst.
  - rewrite nsize_fields. cbn [length]. lia.
  - rewrite nsize_fields. cbn [length]. apply le_n_S. pose proof (nsizes_perm _ _ (shown_hidden n)) as P.
    rewrite nsizes_app in P. enough (length (concat ls) <= nsizes (shown_children n)) by lia. clear P H.
    assert (K : forall x, In x (shown_children n) -> forall log, preorder shown_children enter x log -> length log <= nsize x)
      by (intros x Hx; apply IH, shown_field, Hx). clear IH.
    revert ls F. induction (shown_children n) as [|x l IHl]; intros ls F; inversion F; subst; [cbn; lia|].
    cbn [concat]. rewrite app_length. change (nsizes (x :: l)) with (nsize x + nsizes l).
    pose proof (K x (or_introl eq_refl) _ H1). specialize (IHl (fun z Hz => K z (or_intror Hz)) _ H3). lia.
Qed.
Lemma all_nodes_exists n : exists log, all_nodes n log.
Proof.
  unfold all_nodes. induction n as [n IH] using fields_ind.
  assert (G : exists ls, Forall2 (preorder fields (fun _ => true)) (fields n) ls).
  { induction (fields n) as [|x l IHl]; [exists []; constructor|].
    destruct (IH x (or_introl eq_refl)) as [lx Hx]. destruct IHl as [ls Hl]; [intros m Hm; apply IH; right; exact Hm|].
    exists (lx :: ls). constructor; assumption. }
  destruct G as [ls Hl]. exists (n :: concat ls). constructor; [reflexivity|exact Hl].
Qed.

(** A text of [n] bytes has a tree of at most 2n+3 nodes ... *)
Theorem C69_size : forall bs fails file root, accepted bs fails file root ->
  exists log, all_nodes root log /\ length log <= 2 * length bs + 3.
Proof.
  intros bs fails file root H. destruct (all_nodes_exists root) as [log L]. exists log. split; [exact L|].
  rewrite (preorder_size root log L). exact (accepted_size bs fails file root H).
Qed.
Print Assumptions C69_size.
(** ... which is nested at most that deep ... *)
Theorem C69_depth : forall bs fails file root l, accepted bs fails file root ->
  descent (root :: l) -> length (root :: l) <= 2 * length bs + 3.
Proof.
  intros bs fails file root l H D. apply accepted_size in H.
  enough (length (root :: l) <= nsize root) by lia. clear H.
  remember (root :: l) as L eqn:E. revert root l E. induction D as [n|n m k Hm D IH]; intros root l E; injection E as <- <-.
  - rewrite nsize_fields. cbn [length]. lia.
  - specialize (IH m k eq_refl). apply field_size in Hm. cbn [length] in *. lia.
Qed.
Print Assumptions C69_depth.
(** ... and Inspect calls its function at most that often with a node. *)
Theorem C69_inspect : forall bs fails file root enter k log, accepted bs fails file root ->
  inspect k root (recorder enter) [] = Some log -> length log <= 2 * length bs + 3.
Proof.
  intros bs fails file root enter k log H E. apply accepted_size in H.
  destruct (inspect_result enter root) as [k' [l [E' P]]].
  assert (l = log) by (eapply walk_same; [exact E'|exact E]). subst l.
  apply shown_size in P. lia.
Qed.
Print Assumptions C69_inspect.
(** 15 nodes for 37 bytes, the deepest in the fifth place. *)
Example C69_case : exists root l a b c d,
  accepted (T "if x|echo 1+y[2]|else|call F(3)|endif") false [] root /\
  inspect 9 root (recorder (fun _ => true)) [] = Some l /\ length l = 15 /\
  descent [root; a; b; c; d].
Proof.
  do 6 eexists. split; [left; exists None; vm_compute; reflexivity|].
  split; [vm_compute; reflexivity|]. split; [vm_compute; reflexivity|].
  eapply ds_more; [left; reflexivity|]. eapply ds_more; [cbn; left; reflexivity|].
  eapply ds_more; [cbn; left; reflexivity|]. eapply ds_more; [cbn; right; left; reflexivity|]. constructor.
Qed.
