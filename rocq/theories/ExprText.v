(** Compiled expressions are the specified S-expressions; quoting. *)
From Coq Require Import Lia ZifyBool ZifyNat ZifyN.
From Verif Require Import Base Utf8 CharClass Reader Vnode Token Ast Export RefCompiler Compiler Api Places Nodes Sexpr WalkProof
  ApiExpr ApiFile NodeFacts Blocks LinesProof ReaderFacts NodeText.

Lemma join_spaced l : join [32] l = spaced l.
Proof. induction l as [|x [|y l] IH]; auto. change (join [32] (x :: y :: l)) with (x ++ [32] ++ join [32] (y :: l)). rewrite IH. reflexivity. Qed.
Lemma join_concat l : join [] l = concat l.
Proof.
  induction l as [|x [|y l] IH]; auto. cbn. rewrite app_nil_r. reflexivity.
  change (join [] (x :: y :: l)) with (x ++ join [] (y :: l)). rewrite IH. reflexivity.
Qed.
Lemma spaced_cons x l : l <> [] -> spaced (x :: l) = x ++ [32] ++ spaced l.
Proof. destruct l; [congruence|reflexivity]. Qed.

Definition op_known (n : node) : Prop :=
  match n with
  | NBinary _ _ t _ => binary_level t <> None
  | NUnary _ t _ => In t [TNOT; TMINUS; TPLUS]
  | NHeredoc _ fs _ b => Forall (fun n => exists q s, n = NBasicLit q TSTRING s) (fs ++ b)
  | _ => True
  end.
Definition good (n : node) : Prop := forall m, within n m -> typed m /\ op_known m.
Lemma good_field n m : good n -> In m (fields n) -> good m.
Proof. intros H HI k W. apply H. eapply within_step; eauto. Qed.
Lemma accepted_good bs fails file root : accepted bs fails file root -> good root.
Proof.
  intros HA n Hn. split; [exact (node_typed bs fails file root HA n Hn)|].
  pose proof (node_nested bs fails file root HA n Hn) as K. destruct n; cbn [op_known well_nested] in *; auto.
  - destruct (binary_level op); [discriminate|contradiction].
  - apply K.
  - exact (node_words bs fails file root HA _ _ _ _ Hn).
Qed.

Lemma binary_name t : binary_level t <> None ->
  (if text_eqb (token_string t) (T ".") then T "concat" else token_string t) = op_name t.
Proof. destruct t; cbn [binary_level]; intros H; try congruence; reflexivity. Qed.
Lemma unary_name t : In t [TNOT; TMINUS; TPLUS] -> token_string t = op_name t.
Proof. intros [<-|[<-|[<-|[]]]]; reflexivity. Qed.

Lemma visible_escape s : escape s [10; 9; 13] = flat_map visible s.
Proof.
  unfold escape. apply flat_map_ext. intros c. unfold mem_N, visible. cbn [existsb].
  destruct (c =? 10) eqn:E1; [reflexivity|]. destruct (c =? 9) eqn:E2; [reflexivity|].
  destruct (c =? 13) eqn:E3; reflexivity.
Qed.

Definition speaks (n : node) : Prop := exists x, sexp n x /\ compile_expr n = sx_text x.
Lemma list_speaks l : (forall x, In x l -> speaks x) -> exists xs, Forall2 sexp l xs /\ map compile_expr l = map sx_text xs.
Proof.
  induction l as [|n l IH]; intros H.
  - exists []. split; constructor.
  - destruct (H n (or_introl eq_refl)) as [x [S1 E1]]. destruct IH as [xs [S2 E2]]; [intros; apply H; right; auto|].
    exists (x :: xs). split; [constructor; auto|]. cbn [map]. congruence.
Qed.

Lemma is_nil_map {A B} (f : A -> B) l : is_nil (map f l) = is_nil l.
Proof. destruct l; reflexivity. Qed.
Lemma group_head h (l : list sx) : sx_text (Group (Atom h :: l)) =
  if is_nil l then T "(" ++ h ++ T ")" else T "(" ++ h ++ [32] ++ spaced (map sx_text l) ++ T ")".
Proof.
  destruct l as [|x l]; [reflexivity|]. cbn [is_nil sx_text map]. rewrite spaced_cons by discriminate.
  rewrite <- !app_assoc. reflexivity.
Qed.
Lemma Forall2_nil {A B} (P : A -> B -> Prop) l r : Forall2 P l r -> is_nil l = is_nil r.
Proof. destruct 1; reflexivity. Qed.

Lemma expr_speaks n : good n -> is_expr n = true -> speaks n.
Proof.
  induction n as [n IH] using fields_ind. intros HG HE. destruct (HG n (wi_root n)) as [Ty Op].
  assert (HF : forall m, In m (fields n) -> speaks m).
  { intros m Hm. apply IH; auto. eapply good_field; eauto. eapply typed_expr_fields; eauto. }
  clear IH HG. destruct n; try discriminate HE; cbn [typed fields op_known] in *;
    repeat match goal with X : _ /\ _ |- _ => destruct X end;
    repeat match goal with
    | X : expr ?o |- _ => destruct X as [? [-> _]]; cbn [on] in HF
    end.
  all: try match goal with X : exists p s, ?r = Some _ |- _ => destruct X as [? [? ->]]; cbn [on] in HF end.
  - destruct (HF x1) as [y1 [S1 E1]]; [cbn; auto|]. destruct (HF x0) as [y2 [S2 E2]]; [cbn; auto|].
    destruct (HF x) as [y3 [S3 E3]]; [cbn; auto|].
    eexists. split; [constructor; eauto|]. cbn [compile_expr]. rewrite E1, E2, E3. cbn [sx_text map spaced].
    rewrite <- ?app_assoc. reflexivity.
  - destruct (HF x0) as [y1 [S1 E1]]; [cbn; auto|]. destruct (HF x) as [y2 [S2 E2]]; [cbn; auto|].
    eexists. split; [constructor; eauto|]. cbn [compile_expr]. rewrite E1, E2, binary_name by auto. cbn [sx_text map spaced].
    rewrite <- ?app_assoc. reflexivity.
  - match goal with |- context [NUnary _ _ (Some ?a)] => destruct (HF a) as [y1 [S1 E1]]; [cbn; auto|] end.
    eexists. split; [constructor; eauto|]. cbn [compile_expr]. rewrite E1, unary_name by auto. cbn [sx_text map spaced].
    rewrite <- ?app_assoc. reflexivity.
  - destruct (HF x0) as [y1 [S1 E1]]; [cbn; auto|]. destruct (HF x) as [y2 [S2 E2]]; [cbn; auto|].
    eexists. split; [constructor; eauto|]. cbn [compile_expr]. rewrite E1, E2. cbn [sx_text map spaced].
    rewrite <- ?app_assoc. reflexivity.
  - match goal with |- context [NSlice (Some ?a) _ _ _] => destruct (HF a) as [y1 [S1 E1]]; [cbn; auto|] end.
    assert (G : forall o, opt_expr o -> (forall m, In m (on o) -> speaks m) ->
      exists y, bound o y /\ match o with None => T "nil" | Some y => compile_expr y end = sx_text y).
    { intros o [->|[m [-> _]]] K. exists (Atom (T "nil")). split; [constructor|reflexivity].
      destruct (K m) as [y [Sy Ey]]; [cbn; auto|]. exists y. split; [constructor; auto|auto]. }
    destruct (G low) as [y2 [S2 E2]]; auto. { intros; apply HF. rewrite !in_app_iff; auto. }
    destruct (G high) as [y3 [S3 E3]]; auto. { intros; apply HF. rewrite !in_app_iff; auto. }
    eexists. split; [constructor; eauto|]. cbn [compile_expr]. unfold text in *. rewrite E1, E2, E3. cbn [sx_text map spaced].
    rewrite <- ?app_assoc. reflexivity.
  - destruct (HF x0) as [y1 [S1 E1]]; [cbn; auto|]. destruct (HF x) as [y2 [S2 E2]]; [cbn; auto|].
    destruct (list_speaks args) as [zs [S3 E3]]. { intros; apply HF. rewrite !in_app_iff; auto. }
    eexists. split; [constructor; eauto|]. cbn [compile_expr]. rewrite E1, E2, E3, join_spaced. cbn [sx_text map spaced].
    rewrite <- ?app_assoc. reflexivity.
  - destruct (HF x) as [y2 [S2 E2]]; [cbn; auto|].
    destruct (list_speaks args) as [zs [S3 E3]]. { intros; apply HF. rewrite !in_app_iff; auto. }
    eexists. split; [constructor; eauto|]. cbn [compile_expr]. rewrite E2, E3, join_spaced.
    rewrite (Forall2_nil _ _ _ S3). destruct zs as [|z zs]; [reflexivity|]. cbn [is_nil sx_text map].
    rewrite (spaced_cons (sx_text y2)) by discriminate. rewrite <- ?app_assoc. reflexivity.
  - destruct (HF x) as [y1 [S1 E1]]; [cbn; auto|].
    match goal with |- context [NDot _ _ (Some ?a)] => destruct (HF a) as [y2 [S2 E2]]; [cbn; auto|] end.
    eexists. split; [constructor; eauto|]. cbn [compile_expr]. cbn [compile_expr] in E2. rewrite E1, E2. cbn [sx_text map spaced].
    rewrite <- ?app_assoc. reflexivity.
  - eexists. split; [constructor|reflexivity].
  - destruct (list_speaks values) as [zs [S3 E3]]; auto.
    eexists. split; [constructor; eauto|]. rewrite group_head. cbn [compile_expr]. rewrite E3, join_spaced.
    rewrite (Forall2_nil _ _ _ S3). destruct zs; reflexivity.
  - assert (G : exists xs, Forall2 (fun e x => exists k v y z, e = (Some k, Some v) /\ x = Group [y; z] /\ sexp k y /\ sexp v z) entries xs /\
       map (fun e => match e with (k, v) => T "(" ++ match k with None => [] | Some x => compile_expr x end ++ [32] ++
              match v with None => [] | Some x => compile_expr x end ++ T ")" end) entries = map sx_text xs).
    { clear HE Op. induction entries as [|[k v] es IHe].
      - exists []. split; constructor.
      - inversion Ty as [|? ? [Hk Hv] Tys]; subst. cbn [fst snd flat_map] in *. destruct Hk as [k' [-> _]]. destruct Hv as [v' [-> _]].
        destruct (HF k') as [y1 [S1 E1]]; [cbn; auto|]. destruct (HF v') as [y2 [S2 E2]]; [cbn; auto|].
        destruct IHe as [xs [Sx Ex]]; auto. { intros; apply HF. cbn [on app]. right; right; auto. }
        exists (Group [y1; y2] :: xs). split; [constructor; eauto 10|]. cbn [map]. rewrite Ex, E1, E2. f_equal.
        cbn [sx_text map spaced]. rewrite <- ?app_assoc. reflexivity. }
    destruct G as [xs [S3 E3]]. eexists. split; [constructor; eauto|]. rewrite group_head. cbn [compile_expr].
    unfold text in *. rewrite E3, join_spaced. rewrite (Forall2_nil _ _ _ S3). destruct xs; reflexivity.
  - destruct (list_speaks parts) as [zs [S3 E3]]; auto.
    eexists. split; [constructor; eauto|]. cbn [compile_expr]. rewrite E3, join_concat. reflexivity.
  - eexists. split; [constructor|reflexivity].
  - destruct (HF x) as [y2 [S2 E2]]; [cbn; auto|].
    eexists. split; [constructor; eauto|]. cbn [compile_expr]. rewrite E2. cbn [sx_text map concat].
    rewrite <- ?app_assoc, ?app_nil_r. reflexivity.
  - eexists. split; [constructor|reflexivity].
  - match goal with |- context [NLambda _ _ (Some ?a)] => destruct (HF a) as [y2 [S2 E2]]; [rewrite in_app_iff; cbn; auto|] end.
    destruct (list_speaks params) as [zs [S3 E3]]. { intros; apply HF. rewrite !in_app_iff; auto. }
    eexists. split; [constructor; eauto|]. cbn [compile_expr]. rewrite E2, E3, join_spaced. cbn [sx_text map spaced].
    rewrite <- ?app_assoc. reflexivity.
  - match goal with |- context [NParen _ (Some ?a)] => destruct (HF a) as [y2 [S2 E2]]; [cbn; auto|] end.
    eexists. split; [constructor; eauto|]. exact E2.
  - eexists. split; [constructor|]. cbn [compile_expr]. apply Forall_app in Op. destruct Op as [O1 O2].
    assert (G1 : map (fun f => [34] ++ compile_expr f ++ [34]) flags = map sx_text (map (fun n => quoted (lit_text n)) flags)).
    { rewrite map_map. apply map_ext_in. intros f Hf. rewrite Forall_forall in O1. destruct (O1 f Hf) as [q [s ->]]. reflexivity. }
    assert (G2 : map (fun f => [34] ++ escape (compile_expr f) [10; 9; 13] ++ [34]) body =
                 map sx_text (map (fun n => quoted (flat_map visible (lit_text n))) body)).
    { rewrite map_map. apply map_ext_in. intros f Hf. rewrite Forall_forall in O2. destruct (O2 f Hf) as [q [s ->]].
      cbn [compile_expr lit_text quoted sx_text]. rewrite visible_escape. reflexivity. }
    unfold text in *. rewrite G1, G2, !join_spaced.
    set (A := map (fun n => quoted (lit_text n)) flags). set (B := map (fun n => quoted (flat_map visible (lit_text n))) body).
    change (sx_text (Group [Atom (T "heredoc"); Group (Atom (T "list") :: A); quoted endmarker; Group (Atom (T "list") :: B)]))
      with (T "(" ++ (T "heredoc" ++ [32] ++ sx_text (Group (Atom (T "list") :: A)) ++ [32] ++ (T """" ++ endmarker ++ T """") ++ [32] ++
            sx_text (Group (Atom (T "list") :: B))) ++ T ")").
    rewrite !group_head. replace (is_nil A) with (is_nil flags) by (symmetry; apply is_nil_map).
    replace (is_nil B) with (is_nil body) by (symmetry; apply is_nil_map).
    destruct (is_nil flags), (is_nil body); rewrite <- !app_assoc; reflexivity.
Qed.
