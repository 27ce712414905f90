(** Written expressions are read back as themselves. *)
From Coq Require Import Lia ZifyBool ZifyNat ZifyN.
From Verif Require Import Base CharClass Reader Vnode Tokenizer ExprParser Token Ast Export
  Cursor Grammar TokSafe Join Written.

(** * The exported form of a parsed tree *)

Definition shows (v : vnode) (n : node) : Prop :=
  exists n', new_ast [] v = Ok n' /\ is_expr n' = true /\ unplaced n' = unplaced n.

Lemma plain_expr n : is_expr (unplaced n) = is_expr n.
Proof. destruct n; reflexivity. Qed.

Definition shows_opt (o : option vnode) (x : option node) : Prop :=
  match o, x with Some v, Some n => shows v n | None, None => True | _, _ => False end.

Ltac sh := repeat match goal with
  | H : shows _ _ |- _ => destruct H as [? [H [? ?]]]
  end; unfold shows; cbn [new_ast]; repeat match goal with
  | H : new_ast _ _ = _ |- _ => rewrite H; clear H; cbn [bind]
  end; unfold to_expr; repeat match goal with H : is_expr _ = true |- _ => rewrite H; clear H end; cbn [bind]; eexists; split; [reflexivity|]; split; [reflexivity|];
  cbn [unplaced map_node option_map]; unfold unplaced in *; cbn [map_node option_map];
  repeat match goal with H : map_node nowhere _ = map_node nowhere _ |- _ => rewrite H; clear H end; try reflexivity.

Lemma shows_ternary p q a a' b b' d d' : shows a' a -> shows b' b -> shows d' d ->
  shows (VTernary p a' b' d') (NTernary q (Some a) (Some b) (Some d)).
Proof. intros. sh. Qed.
Lemma shows_bin o p q a a' b b' : shows a' a -> shows b' b ->
  shows (VBin o p a' b') (NBinary (Some a) q (bin_token o) (Some b)).
Proof. intros. sh. Qed.
Lemma shows_un o p q a a' : shows a' a -> shows (VUn o p a') (NUnary q (un_token o) (Some a)).
Proof. intros. sh. Qed.
Lemma shows_subscript p q a a' b b' : shows a' a -> shows b' b ->
  shows (VSubscript p a' b') (NSubscript q (Some a) (Some b)).
Proof. intros. sh. Qed.
Lemma shows_slice p q a a' x x' y y' : shows a' a -> shows_opt x' x -> shows_opt y' y ->
  shows (VSlice p a' x' y') (NSlice (Some a) q x y).
Proof.
  intros Ha Hx Hy. destruct x', x, y', y; cbn [shows_opt] in *; try contradiction; sh.
Qed.
Lemma shows_paren p q a a' : shows a' a -> shows (VParen p a') (NParen q (Some a)).
Proof. intros. sh. Qed.
Lemma shows_dot p q q' r a a' s : shows a' a ->
  shows (VDot p a' (VIdent r s)) (NDot (Some a) q (Some (NIdent q' s))).
Proof. intros. sh. Qed.
Lemma shows_items vs ns : Forall2 shows vs ns ->
  exists ns', mapM (fun x => let* y := new_ast [] x in expr_elem y) vs = Ok ns' /\ map unplaced ns' = map unplaced ns.
Proof.
  induction 1 as [|v n vs ns [n' [E [X P]]] _ [ns' [E' P']]]; cbn [mapM].
  - exists []. auto.
  - rewrite E'. rewrite E. cbn [bind]. unfold expr_elem. rewrite X. cbn [bind].
    exists (n' :: ns'). split; auto. cbn [map]. rewrite P, P'. reflexivity.
Qed.
Lemma shows_list p q vs ns : Forall2 shows vs ns -> shows (VList p vs) (NList q ns).
Proof.
  intros H. apply shows_items in H. destruct H as [ns' [E P]]. unfold shows. cbn [new_ast]. rewrite E. cbn [bind].
  eexists; split; [reflexivity|]. split; [reflexivity|]. unfold unplaced in *. cbn [map_node]. rewrite P. reflexivity.
Qed.
Lemma shows_call p q a a' vs ns : shows a' a -> Forall2 shows vs ns -> shows (VCall p a' vs) (NCall (Some a) q ns).
Proof.
  intros [n' [E' [X' P']]] H. apply shows_items in H. destruct H as [ns' [E P]]. unfold shows. cbn [new_ast].
  rewrite E'. cbn [bind]. rewrite E. cbn [bind]. unfold to_expr. rewrite X'.
  eexists; split; [reflexivity|]. split; [reflexivity|]. unfold unplaced in *. cbn [map_node option_map]. rewrite P, P'. reflexivity.
Qed.
Lemma shows_method p p' q a a' f f' vs ns : shows a' a -> shows f' f -> Forall2 shows vs ns ->
  shows (VMethod p a' (VCall p' f' vs)) (NMethod (Some a) (Some f) q ns).
Proof.
  intros [n' [E' [X' P']]] [m' [F' [Y' Q']]] H. apply shows_items in H. destruct H as [ns' [E P]]. unfold shows. cbn [new_ast].
  rewrite E'. cbn [bind]. rewrite F'. cbn [bind]. rewrite E. cbn [bind]. unfold to_expr. rewrite X', Y'.
  eexists; split; [reflexivity|]. split; [reflexivity|]. unfold unplaced in *. cbn [map_node option_map]. rewrite P, P', Q'. reflexivity.
Qed.
Lemma shows_lit k p q s : shows (VLit k p s) (NBasicLit q (lit_token k) s).
Proof. sh. Qed.
Lemma shows_name p q s : shows (VIdent p s) (NIdent q s).
Proof. sh. Qed.

Lemma shows_pairs vs ns : Forall2 (fun v n => exists k x, n = (Some k, Some x) /\ shows (fst v) k /\ shows (snd v) x) vs ns ->
  exists ns', mapM (fun kv => match kv with (k, v) => let* k' := (let* y := new_ast [] k in Ok (to_expr y)) in
                                let* v' := (let* y := new_ast [] v in Ok (to_expr y)) in Ok (k', v') end) vs = Ok ns' /\
    map (fun kv => match kv with (k, v) => (option_map unplaced k, option_map unplaced v) end) ns' =
    map (fun kv => match kv with (k, v) => (option_map unplaced k, option_map unplaced v) end) ns.
Proof.
  induction 1 as [|[v1 v2] n vs ns [k [x [-> [[k' [E1 [X1 P1]]] [x' [E2 [X2 P2]]]]]]] _ [ns' [E' P']]]; cbn [mapM].
  - exists []. auto.
  - cbn [fst snd] in *. rewrite E1, E2. cbn [bind]. rewrite E'. cbn [bind]. unfold to_expr. rewrite X1, X2.
    eexists. split; [reflexivity|]. cbn [map option_map]. rewrite P1, P2, P'. reflexivity.
Qed.
Lemma shows_dict p q vs ns : Forall2 (fun v n => exists k x, n = (Some k, Some x) /\ shows (fst v) k /\ shows (snd v) x) vs ns ->
  shows (VDict p vs) (NDict q ns).
Proof.
  intros H. apply shows_pairs in H. destruct H as [ns' [E P]]. unfold shows. cbn [new_ast]. rewrite E. cbn [bind].
  eexists; split; [reflexivity|]. split; [reflexivity|]. unfold unplaced in *. cbn [map_node]. f_equal. exact P.
Qed.

(** A parameter of a lambda. *)
Definition same_name (v : vnode) (n : node) : Prop := exists p q s, v = VIdent p s /\ n = NIdent q s.
Lemma shows_lambda p q vs ns v n : Forall2 same_name vs ns -> shows v n -> shows (VLambda p vs v) (NLambda q ns (Some n)).
Proof.
  intros H [n' [E [X P]]].
  assert (K : exists ns', mapM (fun x => let* y := new_ast [] x in assert_node is_ident y) vs = Ok ns' /\ map unplaced ns' = map unplaced ns).
  { induction H as [|v1 n1 vs ns [a [b [t [-> ->]]]] _ [ns' [E' P']]]; cbn [mapM].
    - exists []. auto.
    - rewrite E'. eexists. split; [reflexivity|]. cbn [map]. rewrite P'. reflexivity. }
  destruct K as [ns' [E' P']]. unfold shows. cbn [new_ast]. rewrite E'. cbn [bind]. rewrite E. cbn [bind]. unfold to_expr. rewrite X.
  eexists; split; [reflexivity|]. split; [reflexivity|]. unfold unplaced in *. cbn [map_node option_map]. rewrite P, P'. reflexivity.
Qed.

(** A part of a name with braces. *)
Definition shows_part (v : vnode) (n : node) : Prop :=
  match v, n with
  | VCurlyPart _ s, NCurlyLit _ s' => s = s'
  | VCurlyExpr _ x, NCurlyExpr _ (Some a) => shows x a
  | _, _ => False
  end.
Lemma shows_curly p q vs ns : Forall2 shows_part vs ns -> shows (VCurlyName p vs) (NCurlyName q ns).
Proof.
  intros H.
  assert (K : exists ns', mapM (fun x => let* y := new_ast [] x in assert_node is_curlypart y) vs = Ok ns' /\ map unplaced ns' = map unplaced ns).
  { induction H as [|v1 n1 vs ns H1 _ [ns' [E' P']]]; cbn [mapM].
    - exists []. auto.
    - destruct v1; try contradiction; destruct n1; try contradiction; cbn [shows_part] in H1.
      + subst. rewrite E'. eexists. split; [reflexivity|]. cbn [map]. rewrite P'. reflexivity.
      + destruct value as [a|]; [|contradiction]. destruct H1 as [n' [E [X P]]]. cbn [new_ast]. rewrite E. cbn [bind].
        unfold to_expr. rewrite X, E'. eexists. split; [reflexivity|]. cbn [map unplaced map_node option_map] in *. rewrite P'.
        unfold unplaced in *. rewrite P. reflexivity. }
  destruct K as [ns' [E' P']]. unfold shows. cbn [new_ast]. rewrite E'. cbn [bind].
  eexists; split; [reflexivity|]. split; [reflexivity|]. unfold unplaced in *. cbn [map_node]. rewrite P'. reflexivity.
Qed.

Lemma bind_ok {A B} (m : outcome A) (k : A -> outcome B) r : bind m k = Ok r -> exists a, m = Ok a /\ k a = Ok r.
Proof. destruct m; cbn; try discriminate. eauto. Qed.
Ltac unb H := repeat (apply bind_ok in H; destruct H as [? [? H]]).

Lemma shows_members v n : shows v n -> dot_left_ok v = has_members n.
Proof.
  intros [n' [E [_ P]]]. assert (Hn : has_members n = has_members n').
  { assert (K : forall m, has_members (unplaced m) = has_members m) by (intros []; reflexivity).
    rewrite <- (K n), <- P. auto. }
  rewrite Hn. clear Hn P. destruct v; cbn [new_ast] in E; try (unb E; injection E as <-; reflexivity).
  - destruct v2; try discriminate. unb E. injection E as <-. reflexivity.
  - destruct (ea_cmd ea); [|discriminate]. unb E. injection E as <-. reflexivity.
Qed.

(** * Following text *)

(** What follows an operand directly is not a part of it. *)
Definition fits (n : node) (c : ch) : bool := match c with CR r => negb (sticks n r) | _ => true end.

Lemma fits_in n f c : (forall r, f r = true -> sticks n r = true) -> fits n c = true -> ch_in f c = false.
Proof.
  intros H Hc. destruct c as [| |r]; auto. cbn [fits ch_in] in *. destruct (f r) eqn:E; auto.
  rewrite (H r E) in Hc. discriminate.
Qed.

(** The precedence level at which a token continues an expression; [white] tells whether
    a blank comes before, [op] whether a dot is an operator. *)
Definition lev (white op : bool) (k : tok) : nat :=
  match k with
  | KQuestion => 1 | KOrOr => 2 | KAndAnd => 3 | KCmp _ _ => 4
  | KPlus | KMinus | KDotDot => 5
  | KDot => if op then 5 else 8
  | KStar | KSlash | KPercent => 6
  | KSqOpen => if white then 0 else 8
  | KPOpen | KArrow => 8
  | _ => 0
  end%nat.

(** Whether a dot at [k], with the text [d] after it, is an operator after [n]. *)
Definition dot_op (n : node) (k d : cursor) : bool :=
  ch_in iswhite (peek k) || negb (has_members n) || negb (ch_in iswordc (peek d)).

(** The text at [k] ends an expression of level [l], of which [n] is the last operand. *)
Definition stop (e : bool) (n : node) (l : nat) (k : cursor) : Prop :=
  (e = true -> peek1 k = None) /\ fits n (peek k) = true /\
  exists t d, tget k = Ok (t, d) /\ (lev (ch_in iswhite (peek k)) (dot_op n k d) (tk t) < l)%nat.

Lemma stop_le e n l l' k : (l <= l')%nat -> stop e n l k -> stop e n l' k.
Proof. intros Hl [H1 [H2 [t [d [H3 H4]]]]]. repeat split; auto. exists t, d. split; auto. lia. Qed.

(** ** Blanks and characters *)

Lemma spells_split s1 s2 a b : spells (s1 ++ s2) a b -> exists m, spells s1 a m /\ spells s2 m b.
Proof.
  revert a; induction s1 as [|r s IH]; cbn [spells app]; intros a H; [eauto|].
  destruct a as [|[|r'] p t]; try contradiction. destruct H as [H1 H]. apply IH in H.
  destruct H as [m [H2 H3]]. exists m. auto.
Qed.

Lemma spells_head r s a b : spells (r :: s) a b -> exists p t, a = Cons (R r) p t /\ spells s t b.
Proof. cbn [spells]. destruct a as [|[|r'] p t]; try contradiction. intros [-> H]. eauto. Qed.

Lemma skip_gap w c d : gap w -> spells w c d -> ch_in iswhite (peek d) = false -> skip_white c = d.
Proof.
  intros Hw Sp Hd. symmetry. apply blank_fun. exists w. split; [|split]; auto.
  intros r Hr. destruct d as [|[|x] p t]; try discriminate. cbn in *. congruence.
Qed.

Lemma read_while_exact f s c k : spells s c k -> forallb f s = true -> ch_in f (peek k) = false -> read_while f c = (s, k).
Proof.
  revert c; induction s as [|r s IH]; cbn [spells forallb]; intros c Sp Hf Hk.
  - subst. destruct k as [|[|x] p t]; try reflexivity. cbn in *. rewrite Hk. reflexivity.
  - destruct c as [|[|r'] p t]; try contradiction. destruct Sp as [-> Sp]. apply andb_true_iff in Hf.
    destruct Hf as [Hr Hf]. cbn [read_while]. rewrite Hr, (IH t); auto.
Qed.

Lemma getn_exact n s c k : spells s c k -> length s = n -> getn n c = (s, k).
Proof.
  intros Sp <-. revert c Sp; induction s as [|r s IH]; cbn [spells length getn]; intros c Sp; [subst; auto|].
  destruct c as [|[|r'] p t]; try contradiction. destruct Sp as [-> Sp]. rewrite (IH t); auto.
Qed.

(** ** Characters after an operand *)

Definition numc (r : N) : bool := isalnum r || (r =? C ".").
Definition optc (r : N) : bool := iswordc r || (r =? C ":").

Lemma cls_in (g f : N -> bool) c : (forall r, f r = true -> g r = true) -> ch_in g c = false -> ch_in f c = false.
Proof. intros H Hc. destruct c as [| |r]; auto. cbn [ch_in] in *. destruct (f r) eqn:E; auto. rewrite (H r E) in Hc. discriminate. Qed.
Lemma cls_is (g : N -> bool) x c : g x = true -> ch_in g c = false -> ch_is c x = false.
Proof.
  intros H Hc. destruct c as [| |r]; auto. cbn [ch_in ch_is] in *. destruct (r =? x) eqn:E; auto.
  apply N.eqb_eq in E. subst. congruence.
Qed.
Lemma num_digit r : isdigit r = true -> numc r = true.
Proof. unfold numc, isalnum. intros ->. reflexivity. Qed.
Lemma num_xdigit r : isxdigit r = true -> numc r = true.
Proof. unfold isxdigit, numc, isalnum, isalpha, isdigit, isupper, islower, between. cbn. lia. Qed.
Lemma num_bdigit r : isbdigit r = true -> numc r = true.
Proof. unfold isbdigit, numc, isalnum, isalpha, isdigit, isupper, islower, between. cbn. lia. Qed.

(** ** Tokens *)

Definition op_of (l : nat) (k : tok) : option binop :=
  match l, k with
  | 4%nat, KCmp o m => Some (BCmp o m)
  | 4%nat, _ => None
  | _, _ => level_op l k
  end.

(** The characters that no operand starts with. *)
Definition never_head (r : N) : bool := mem_N r (T ">=~?|.").

Ltac settle := repeat match goal with
  | H : ?b = false |- context [?b] => rewrite H
  | H : ?b = true |- context [?b] => rewrite H
  end.

Lemma infix_get2 l sp t : In (l, sp, t) infix_ops ->
  exists k o, op_of l k = Some o /\ bin_token o = t /\ lev true true k = l /\ head_not iswhite sp /\ sp <> [] /\
    (k = KDot <-> sp = T ".") /\
    (forall d d', spells sp d d' -> wf d -> ch_in never_head (peek d') = false -> ch_in (lengthens sp) (peek d') = false ->
       get2 d = Ok (mkTok k sp (getpos d), d')).
Proof.
  intros H. unfold infix_ops in H. cbn [In] in H.
  repeat (destruct H as [H|H];
    [injection H as <- <- <-; do 2 eexists;
     match goal with |- _ /\ _ /\ _ /\ _ /\ _ /\ _ /\ ?P4 => assert (Z : P4) end;
     [intros d d' Sp Wf Hw Hl; repeat (apply spells_head in Sp; destruct Sp as [? [? [-> Sp]]]); cbn [spells] in Sp; subst;
      destruct d' as [|[|xr] p' t']; [exfalso; repeat (try (apply wf_next in Wf; discriminate Wf); apply wf_tail in Wf)|reflexivity|];
      cbn [peek ch_of_cell ch_in] in Hw, Hl; unfold never_head, lengthens, mem_N in Hw, Hl; cbn -[iswordc] in Hw, Hl;
      repeat (match goal with Hx : _ || _ = false |- _ => apply orb_false_iff in Hx; destruct Hx end);
      cbn -[iswordc]; settle; cbn -[iswordc]; settle; reflexivity
     |split; [reflexivity|split; [reflexivity|split; [reflexivity|split; [reflexivity|split; [discriminate|split; [|exact Z]]]]]];
      split; intros Hd; (discriminate Hd || reflexivity)]|]).
  contradiction.
Qed.

(** ** Literals *)

Lemma digit_not_white r : isdigit r = true -> iswhite r = false.
Proof. unfold isdigit, between, iswhite. cbn. lia. Qed.
Lemma namec1_not r : isnamec1 r = true -> iswhite r = false /\ isdigit r = false.
Proof. unfold isnamec1, iswordc1, isalpha, isupper, islower, isdigit, between, iswhite. cbn. lia. Qed.

Lemma get2_digits r p t : isdigit r = true -> get2 (Cons (R r) p t) = get2_digit r (Cons (R r) p t).
Proof. intros H. unfold get2. cbn [peek ch_of_cell]. rewrite (digit_not_white _ H), H. reflexivity. Qed.

Definition plain2 (c : ch) : bool :=
  negb (ch_is c (C "X") || ch_is c (C "x") || ch_is c (C "B") || ch_is c (C "b") || ch_is c (C "Z") || ch_is c (C "z")).

Lemma get2_digit_plain r p t : wf (Cons (R r) p t) -> plain2 (peek t) = true ->
  get2_digit r (Cons (R r) p t) = get2_number (Cons (R r) p t).
Proof.
  intros Hw H. unfold get2_digit. destruct (r =? C "0"); auto. rewrite p_S, p_0 by auto. cbn [bind].
  unfold plain2 in H. destruct (ch_is (peek t) (C "X")), (ch_is (peek t) (C "x")), (ch_is (peek t) (C "B")),
    (ch_is (peek t) (C "b")), (ch_is (peek t) (C "Z")), (ch_is (peek t) (C "z")); try discriminate. reflexivity.
Qed.

Lemma plain2_edge c : ch_in numc c = false -> plain2 c = true.
Proof. intros H. unfold plain2. rewrite !(fun x M => cls_is numc x c M H) by reflexivity. reflexivity. Qed.
Lemma plain2_digit r : isdigit r = true -> plain2 (CR r) = true.
Proof. unfold isdigit, between, plain2. cbn. lia. Qed.

Lemma plain2_after s k d : spells s d k -> forallb isdigit s = true -> plain2 (peek k) = true -> plain2 (peek d) = true.
Proof.
  destruct s as [|r s]; cbn [spells forallb]; intros Sp H Hk; [subst; auto|].
  destruct d as [|[|r'] p t]; try contradiction. destruct Sp as [-> _]. apply andb_true_iff in H. destruct H as [H _].
  cbn [peek ch_of_cell]. apply plain2_digit; auto.
Qed.

(** A number, read by the general rule. *)
Lemma number_start a m d : some_of isdigit a -> spells a d m -> wf d -> plain2 (peek m) = true ->
  get2 d = get2_number d.
Proof.
  intros [Ha Hd] Sp Hw Hm. destruct a as [|r a]; [congruence|]. apply spells_head in Sp.
  destruct Sp as [p [t [-> Sp]]]. cbn [forallb] in Hd. apply andb_true_iff in Hd. destruct Hd as [Hr Hd].
  rewrite get2_digits by auto. apply get2_digit_plain; auto. eapply plain2_after; eauto.
Qed.

Lemma edge_digit k : ch_in numc (peek k) = false -> ch_in isdigit (peek k) = false.
Proof. apply cls_in. apply num_digit. Qed.

Lemma spells_wf s a b : spells s a b -> wf a -> wf b.
Proof. intros H. apply wf_sfx. eapply spells_sfx; eauto. Qed.

Lemma number_get2 s d k : number_text s -> spells s d k -> wf d -> ch_in numc (peek k) = false ->
  get2 d = Ok (mkTok KNumber s (getpos d), k).
Proof.
  intros Hn Sp Hw Hk. destruct Hn as [s Hs|a b Ha Hb|a b e sg x Ha Hb He Hsg Hx|x s Hx Hs|x s Hx Hs].
  - rewrite (number_start s k) by (auto; apply plain2_edge; auto). unfold get2_number, read_digit.
    rewrite (read_while_exact isdigit s d k) by (auto; apply Hs || apply edge_digit; auto).
    rewrite p_0. cbn [bind]. rewrite (cls_is numc (C ".") _ eq_refl Hk). reflexivity.
  - apply spells_split in Sp. destruct Sp as [m [Sa Sp]]. pose proof Sp as Sp0. apply spells_head in Sp. destruct Sp as [p [t [-> Sp]]].
    change ([] ++ b) with b in Sp.
    rewrite (number_start a (Cons (R 46) p t)) by auto. unfold get2_number, read_digit.
    rewrite (read_while_exact isdigit a d (Cons (R 46) p t)) by (auto; apply Ha).
    rewrite p_0. cbn [bind peek ch_of_cell ch_is]. change (46 =? C ".") with true. cbv iota.
    pose proof (spells_wf _ _ _ Sa Hw) as Hwm. rewrite p_S, p_0 by auto. cbn [bind].
    destruct Hb as [Hb Hbd]. destruct b as [|r b]; [congruence|]. pose proof Sp as Sp1. apply spells_head in Sp1.
    destruct Sp1 as [p1 [t1 [-> Sp1]]]. cbn [forallb] in Hbd. apply andb_true_iff in Hbd. destruct Hbd as [Hr Hbd].
    cbn [peek ch_of_cell ch_in]. rewrite Hr. cbn [getn].
    rewrite (read_while_exact isdigit (r :: b) _ k) by (auto; cbn [forallb]; rewrite ?Hr; auto; apply edge_digit; auto).
    rewrite p_0. cbn [bind]. rewrite (cls_is numc (C "E") _ eq_refl Hk), (cls_is numc (C "e") _ eq_refl Hk). reflexivity.
  - apply spells_split in Sp. destruct Sp as [m [Sa Sp]]. apply spells_head in Sp. destruct Sp as [p [t [-> Sp]]].
    change ([] ++ b ++ e :: sg ++ x) with (b ++ e :: sg ++ x) in Sp.
    rewrite (number_start a (Cons (R 46) p t)) by auto. unfold get2_number, read_digit.
    rewrite (read_while_exact isdigit a d (Cons (R 46) p t)) by (auto; apply Ha).
    rewrite p_0. cbn [bind peek ch_of_cell ch_is]. change (46 =? C ".") with true. cbv iota.
    pose proof (spells_wf _ _ _ Sa Hw) as Hwm. pose proof (wf_tail _ _ _ Hwm) as Hwt. rewrite p_S, p_0 by auto. cbn [bind].
    apply spells_split in Sp. destruct Sp as [m2 [Sb Sp]]. pose proof (spells_wf _ _ _ Sb Hwt) as Hwm2.
    assert (Hdt : ch_in isdigit (peek t) = true).
    { destruct Hb as [Hb Hbd]. destruct b as [|r b]; [congruence|]. apply spells_head in Sb.
      destruct Sb as [p1 [t1 [-> _]]]. cbn [forallb] in Hbd. apply andb_true_iff in Hbd. apply Hbd. }
    rewrite Hdt. cbn [getn]. apply spells_head in Sp. destruct Sp as [p2 [t2 [-> Sp]]].
    assert (Hee : isdigit e = false) by (cbn [In] in He; destruct He as [<-|[<-|[]]]; reflexivity).
    rewrite (read_while_exact isdigit b t (Cons (R e) p2 t2)) by (auto; apply Hb).
    rewrite p_0. cbn [bind peek ch_of_cell ch_is].
    assert (Hee2 : (e =? C "E") || (e =? C "e") = true) by (cbn [In] in He; destruct He as [<-|[<-|[]]]; reflexivity).
    rewrite Hee2. rewrite p_S, p_0 by auto. cbn [bind].
    destruct Hx as [Hx Hxd]. destruct x as [|r x]; [congruence|].
    cbn [forallb] in Hxd. apply andb_true_iff in Hxd. destruct Hxd as [Hr Hxd].
    cbn [In] in Hsg. destruct Hsg as [<-|[<-|[<-|[]]]].
    + apply spells_head in Sp. destruct Sp as [p3 [t3 [-> Sp]]]. cbn [peek ch_of_cell ch_in]. rewrite Hr. cbn [getn].
      rewrite (read_while_exact isdigit x _ k) by (auto; apply edge_digit; auto). reflexivity.
    + apply spells_head in Sp. destruct Sp as [p3 [t3 [-> Sp]]]. cbn [peek ch_of_cell ch_in].
      change (isdigit (C "-")) with false. cbv iota. cbn [ch_is]. rewrite N.eqb_refl. cbn [orb].
      rewrite p_S, p_S, p_0 by (auto; eapply wf_tail; eauto). cbn [bind].
      apply spells_head in Sp. destruct Sp as [p4 [t4 [-> Sp]]]. cbn [peek ch_of_cell ch_in]. rewrite Hr. cbn [getn].
      rewrite (read_while_exact isdigit (r :: x) _ k) by (auto; cbn [forallb spells]; rewrite ?Hr; auto; apply edge_digit; auto). reflexivity.
    + apply spells_head in Sp. destruct Sp as [p3 [t3 [-> Sp]]]. cbn [peek ch_of_cell ch_in].
      change (isdigit (C "+")) with false. cbv iota. cbn [ch_is]. rewrite N.eqb_refl, orb_true_r.
      rewrite p_S, p_S, p_0 by (auto; eapply wf_tail; eauto). cbn [bind].
      apply spells_head in Sp. destruct Sp as [p4 [t4 [-> Sp]]]. cbn [peek ch_of_cell ch_in]. rewrite Hr. cbn [getn].
      rewrite (read_while_exact isdigit (r :: x) _ k) by (auto; cbn [forallb spells]; rewrite ?Hr; auto; apply edge_digit; auto). reflexivity.
  - apply spells_head in Sp. destruct Sp as [p [t [-> Sp]]]. apply spells_head in Sp. destruct Sp as [p1 [t1 [-> Sp]]].
    rewrite get2_digits by reflexivity. unfold get2_digit. change (C "0" =? C "0") with true. cbv iota.
    rewrite p_S, p_0 by auto. cbn [bind peek ch_of_cell ch_is].
    replace ((x =? C "X") || (x =? C "x")) with true by (cbn [In] in Hx; destruct Hx as [<-|[<-|[]]]; reflexivity).
    rewrite p_S, p_S, p_0 by (auto; eapply wf_tail; eauto). cbn [bind].
    destruct Hs as [Hs Hd]. destruct s as [|r s]; [congruence|]. apply spells_head in Sp. destruct Sp as [p2 [t2 [-> Sp]]].
    cbn [forallb] in Hd. apply andb_true_iff in Hd. destruct Hd as [Hr Hd]. cbn [peek ch_of_cell ch_in]. rewrite Hr.
    cbn [getn]. unfold read_xdigit. rewrite (read_while_exact isxdigit s t2 k) by (auto; apply (cls_in numc); auto; apply num_xdigit). reflexivity.
  - apply spells_head in Sp. destruct Sp as [p [t [-> Sp]]]. apply spells_head in Sp. destruct Sp as [p1 [t1 [-> Sp]]].
    rewrite get2_digits by reflexivity. unfold get2_digit. change (C "0" =? C "0") with true. cbv iota.
    rewrite p_S, p_0 by auto. cbn [bind peek ch_of_cell ch_is].
    replace ((x =? C "X") || (x =? C "x")) with false by (cbn [In] in Hx; destruct Hx as [<-|[<-|[]]]; reflexivity).
    replace ((x =? C "B") || (x =? C "b")) with true by (cbn [In] in Hx; destruct Hx as [<-|[<-|[]]]; reflexivity).
    rewrite p_S, p_S, p_0 by (auto; eapply wf_tail; eauto). cbn [bind].
    destruct Hs as [Hs Hd]. destruct s as [|r s]; [congruence|]. apply spells_head in Sp. destruct Sp as [p2 [t2 [-> Sp]]].
    cbn [forallb] in Hd. apply andb_true_iff in Hd. destruct Hd as [Hr Hd]. cbn [peek ch_of_cell ch_is].
    unfold isbdigit in Hr. rewrite Hr.
    cbn [getn]. unfold read_bdigit. rewrite (read_while_exact _ s t2 k) by (auto; apply (cls_in numc); auto; apply num_bdigit). reflexivity.
Qed.

Lemma blob_last a b s : blob_text s -> last (a :: b :: s) 0 <> C "." -> last s 0 <> C ".".
Proof. destruct s; cbn; auto. intros. discriminate. Qed.

Lemma read_blob_dot p x p1 t1 : isxdigit x = true ->
  read_blob (Cons (R (C ".")) p (Cons (R x) p1 t1)) = let* '(s, c') := read_blob (Cons (R x) p1 t1) in Ok (C "." :: s, c').
Proof. intros Hx. change (read_blob (Cons (R (C ".")) p (Cons (R x) p1 t1))) with (if isxdigit (C ".") && isxdigit x then let* '(s, c') := read_blob t1 in Ok (C "." :: x :: s, c') else if (C "." =? C ".") && isxdigit x then let* '(s, c') := read_blob (Cons (R x) p1 t1) in Ok (C "." :: s, c') else if isxdigit (C ".") && negb (isxdigit x) then raise (T "E973: Blob literal should have an even number of hex characters:" ++ [C "."; x]) (getpos (Cons (R (C ".")) p (Cons (R x) p1 t1))) else Ok ([], Cons (R (C ".")) p (Cons (R x) p1 t1))). rewrite Hx. reflexivity. Qed.

Lemma read_blob_exact b : blob_text b -> last b 0 <> C "." -> forall c k, spells b c k -> ch_in numc (peek k) = false ->
  read_blob c = Ok (b, k).
Proof.
  induction 1 as [|x y s Hx Hy Hs IH|s Hs IH Hh]; intros Hl c k Sp Hk.
  - cbn [spells] in Sp. subst c. destruct k as [|[|r] p t]; try reflexivity.
    pose proof (cls_in numc isxdigit _ num_xdigit Hk) as H1. pose proof (cls_is numc (C ".") _ eq_refl Hk) as H2.
    cbn [peek ch_of_cell ch_in ch_is] in H1, H2. cbn [read_blob]. destruct t as [|[|r2] p2 t2]; try reflexivity.
    rewrite H1, H2. reflexivity.
  - apply spells_head in Sp. destruct Sp as [p [t [-> Sp]]]. apply spells_head in Sp. destruct Sp as [p1 [t1 [-> Sp]]].
    cbn [read_blob]. rewrite Hx, Hy. cbn [andb]. rewrite (IH (blob_last _ _ _ Hs Hl) t1 k) by auto. reflexivity.
  - apply spells_head in Sp. destruct Sp as [p [t [-> Sp]]].
    assert (Hl' : last s 0 <> C ".") by (destruct s; [discriminate|exact Hl]).
    pose proof (IH Hl' t k Sp Hk) as E.
    inversion Hs as [E0|x y s' Hx Hy Hs' E0|s' Hs' Hh' E0]; subst s.
    + cbn in Hl. congruence.
    + apply spells_head in Sp. destruct Sp as [p1 [t1 [-> Sp]]]. rewrite read_blob_dot by auto. rewrite E. reflexivity.
    + cbn in Hh. congruence.
Qed.

Lemma blob_get2 z b d k : In z [C "z"; C "Z"] -> blob_text b -> hd_error b <> Some (C ".") -> last b 0 <> C "." ->
  spells (C "0" :: z :: b) d k -> wf d -> ch_in numc (peek k) = false ->
  get2 d = Ok (mkTok KBlob (C "0" :: z :: b) (getpos d), k).
Proof.
  intros Hz Hb Hh Hl Sp Hw Hk.
  apply spells_head in Sp. destruct Sp as [p [t [-> Sp]]]. apply spells_head in Sp. destruct Sp as [p1 [t1 [-> Sp]]].
  rewrite get2_digits by reflexivity. unfold get2_digit. change (C "0" =? C "0") with true. cbv iota.
  rewrite p_S, p_0 by auto. cbn [bind peek ch_of_cell ch_is].
  replace ((z =? C "X") || (z =? C "x")) with false by (cbn [In] in Hz; destruct Hz as [<-|[<-|[]]]; reflexivity).
  replace ((z =? C "B") || (z =? C "b")) with false by (cbn [In] in Hz; destruct Hz as [<-|[<-|[]]]; reflexivity).
  replace ((z =? C "Z") || (z =? C "z")) with true by (cbn [In] in Hz; destruct Hz as [<-|[<-|[]]]; reflexivity).
  rewrite p_S, p_S, p_0 by (auto; eapply wf_tail; eauto). cbn [bind].
  assert (Hd : ch_is (peek t1) (C ".") = false).
  { destruct b as [|x b]; [cbn in Sp; subst; apply (cls_is numc); auto|]. apply spells_head in Sp.
    destruct Sp as [p2 [t2 [-> Sp]]]. cbn in Hh |- *. destruct (x =? 46) eqn:E; auto. apply N.eqb_eq in E. congruence. }
  rewrite Hd. cbn [negb getn]. rewrite (read_blob_exact b Hb Hl t1 k) by auto. reflexivity.
Qed.

Lemma option_get2 sc w d k : In sc [[]; T "g:"; T "l:"] -> forallb iswordc w = true ->
  spells (C "&" :: sc ++ w) d k -> wf d -> ch_in optc (peek k) = false -> (sc ++ w = [] -> ch_is (peek k) (C "&") = false) ->
  get2 d = Ok (mkTok KOption (C "&" :: sc ++ w) (getpos d), k).
Proof.
  intros Hsc Hw Sp Hwf Hk Ha. assert (Ho : forall r, iswordc r = true -> optc r = true) by (unfold optc; intros ? ->; auto). apply spells_head in Sp. destruct Sp as [p [t [-> Sp]]]. unfold get2.
  cbn [peek ch_of_cell]. change (iswhite (C "&")) with false. change (isdigit (C "&")) with false.
  change (isnamec1 (C "&")) with false. change (C "&" =? C "|") with false. rewrite N.eqb_refl. cbv iota.
  rewrite p_S, p_0 by auto. cbn [bind]. pose proof (wf_tail _ _ _ Hwf) as Hwt.
  assert (Hrd : read_word k = ([], k)).
  { apply read_while_exact; auto. reflexivity. apply (cls_in optc); auto. }
  cbn [In] in Hsc. destruct Hsc as [<-|[<-|[<-|[]]]].
  - cbn [app] in Sp. destruct w as [|r w].
    + cbn in Sp. subst t. rewrite (Ha eq_refl), !(fun x M => cls_is optc x _ M Hk) by reflexivity. cbn [orb bind].
      cbn [getn]. rewrite Hrd. reflexivity.
    + pose proof Sp as Sp0. apply spells_head in Sp. destruct Sp as [p1 [t1 [-> Sp]]]. cbn [forallb] in Hw. apply andb_true_iff in Hw.
      destruct Hw as [Hr Hw]. cbn [peek ch_of_cell ch_is].
      replace (r =? C "&") with false by (unfold iswordc, isalnum, isdigit, isalpha, isupper, islower, between in Hr; cbn in *; lia).
      assert (Hc : ch_is (peek t1) (C ":") = false).
      { destruct w as [|r2 w]; [cbn in Sp; subst; apply (cls_is optc); auto|]. apply spells_head in Sp.
        destruct Sp as [p2 [t2 [-> Sp]]]. cbn [forallb] in Hw. apply andb_true_iff in Hw. destruct Hw as [Hr2 _].
        cbn [peek ch_of_cell ch_is]. unfold iswordc, isalnum, isdigit, isalpha, isupper, islower, between in Hr2; cbn in *; lia. }
      assert (Hsc : (if (r =? C "g") || (r =? C "l") then let* y := p_ 2 (Cons (R (C "&")) p (Cons (R r) p1 t1)) in Ok (ch_is y (C ":")) else Ok false) = Ok false).
      { destruct ((r =? C "g") || (r =? C "l")); auto. rewrite p_S, p_S, p_0 by auto. cbn [bind]. rewrite Hc. reflexivity. }
      rewrite Hsc. cbn [bind getn]. unfold read_word.
      rewrite (read_while_exact iswordc (r :: w) _ k) by (auto; cbn [forallb]; rewrite ?Hr; auto; apply (cls_in optc); auto). reflexivity.
  - apply spells_head in Sp. destruct Sp as [p1 [t1 [-> Sp]]]. apply spells_head in Sp. destruct Sp as [p2 [t2 [-> Sp]]].
    rewrite (p_S 1), p_S, p_0 by auto. cbn -[read_word]. change ([] ++ w) with w in Sp. unfold read_word.
    rewrite (read_while_exact iswordc w t2 k) by (auto; apply (cls_in optc); auto). reflexivity.
  - apply spells_head in Sp. destruct Sp as [p1 [t1 [-> Sp]]]. apply spells_head in Sp. destruct Sp as [p2 [t2 [-> Sp]]].
    rewrite (p_S 1), p_S, p_0 by auto. cbn -[read_word]. change ([] ++ w) with w in Sp. unfold read_word.
    rewrite (read_while_exact iswordc w t2 k) by (auto; apply (cls_in optc); auto). reflexivity.
Qed.

Lemma env_get2 w d k : forallb iswordc w = true -> spells (C "$" :: w) d k -> ch_in iswordc (peek k) = false ->
  get2 d = Ok (mkTok KEnv (C "$" :: w) (getpos d), k).
Proof.
  intros Hw Sp Hk. apply spells_head in Sp. destruct Sp as [p [t [-> Sp]]]. cbn -[read_word]. unfold read_word.
  rewrite (read_while_exact iswordc w t k) by auto. reflexivity.
Qed.

Lemma reg_get2 w d k : (length w <= 1)%nat -> (w = [] -> peek1 k = None) -> spells (C "@" :: w) d k ->
  get2 d = Ok (mkTok KReg (C "@" :: w) (getpos d), k).
Proof.
  intros Hw He Sp. apply spells_head in Sp. destruct Sp as [p [t [-> Sp]]]. destruct w as [|r [|r2 w]]; cbn [length] in Hw; try lia.
  - cbn [spells] in Sp. subst t. specialize (He eq_refl). destruct k as [|[|x] q u]; try discriminate; reflexivity.
  - apply spells_head in Sp. destruct Sp as [p1 [t1 [-> Sp]]]. cbn [spells] in Sp. subst t1. reflexivity.
Qed.

(** Strings. *)
Lemma sstring_exact b : sq_body b -> forall c k, spells (b ++ T "'") c k -> ch_is (peek k) (C "'") = false ->
  sstring_loop c = Ok (b, k).
Proof.
  induction 1 as [|r s Hr Hs IH|s Hs IH]; intros c k Sp Hk.
  - apply spells_head in Sp. destruct Sp as [p [t [-> Sp]]]. cbn [spells] in Sp. subst t. cbn [sstring_loop].
    rewrite N.eqb_refl. destruct k as [|[|r] p1 t1]; try reflexivity. cbn [peek ch_of_cell ch_is] in Hk. rewrite Hk. reflexivity.
  - apply spells_head in Sp. destruct Sp as [p [t [-> Sp]]]. cbn [sstring_loop].
    destruct (r =? C "'") eqn:E; [apply N.eqb_eq in E; congruence|]. rewrite (IH t k) by auto. reflexivity.
  - apply spells_head in Sp. destruct Sp as [p [t [-> Sp]]]. apply spells_head in Sp. destruct Sp as [p1 [t1 [-> Sp]]].
    change (sstring_loop (Cons (R (C "'")) p (Cons (R (C "'")) p1 t1))) with
      (let* '(s, c') := sstring_loop t1 in Ok (T "''" ++ s, c')). rewrite (IH t1 k) by auto. reflexivity.
Qed.

Lemma dstring_exact b : dq_body b -> forall c k, spells (b ++ T """") c k -> dstring_loop c = Ok (b, k).
Proof.
  induction 1 as [|r s Hr Hr' Hs IH|r s Hs IH]; intros c k Sp.
  - apply spells_head in Sp. destruct Sp as [p [t [-> Sp]]]. cbn [spells] in Sp. subst t. reflexivity.
  - apply spells_head in Sp. destruct Sp as [p [t [-> Sp]]]. cbn [dstring_loop].
    destruct (r =? C """") eqn:E; [apply N.eqb_eq in E; congruence|].
    destruct (r =? 92) eqn:E2; [apply N.eqb_eq in E2; congruence|]. rewrite (IH t k) by auto. reflexivity.
  - apply spells_head in Sp. destruct Sp as [p [t [-> Sp]]]. apply spells_head in Sp. destruct Sp as [p1 [t1 [-> Sp]]].
    change (dstring_loop (Cons (R 92) p (Cons (R r) p1 t1))) with
      (let* '(s, c') := dstring_loop t1 in Ok (92 :: r :: s, c')). rewrite (IH t1 k) by auto. reflexivity.
Qed.

Section Operands.
Context (e1 : cursor -> outcome (vnode * cursor)).

(** [d] is the place after leading blanks. *)
Lemma lit_expr9 e k s p c d k' : lit_text k s -> (s = T "@" -> e = true) -> skip_white c = d -> spells s d k' -> wf d ->
  (e = true -> peek1 k' = None) -> fits (NBasicLit p k s) (peek k') = true ->
  exists v, parse_expr9 e1 c = Ok (v, k') /\ shows v (NBasicLit p k s).
Proof.
  intros Hl Hb Hc Sp Hw He Hk. unfold parse_expr9, tget. rewrite Hc.
  destruct k; cbn [lit_text] in Hl; try contradiction.
  - rewrite (number_get2 s d k') by (auto; exact (fits_in (NBasicLit p TNUMBER s) numc _ (fun r H => H) Hk)). cbn [bind tk tp tv]. eexists; split; [reflexivity|]. apply (shows_lit LNumber).
  - destruct Hl as [z [b [Hz [Hbd [Hh [Hla ->]]]]]]. rewrite (blob_get2 z b d k') by (auto; exact (fits_in (NBasicLit p TBLOB (C "0" :: z :: b)) numc _ (fun r H => H) Hk)).
    cbn [bind tk tp tv]. eexists; split; [reflexivity|]. apply (shows_lit LBlob).
  - destruct Hl as [sc [w [Hsc [Hwd ->]]]]. assert (Ho1 : ch_in optc (peek k') = false)
      by (eapply fits_in; [|exact Hk]; unfold optc; cbn [sticks]; intros r ->; auto).
    assert (Ho2 : sc ++ w = [] -> ch_is (peek k') (C "&") = false).
    { intros Hn. assert (Hq : ch_in (fun r => r =? C "&") (peek k') = false).
      { eapply fits_in; [|exact Hk]. rewrite Hn. cbn [sticks]. intros r Hr. rewrite Hr, orb_true_r. reflexivity. }
      destruct (peek k'); auto. }
    rewrite (option_get2 sc w d k') by auto.
    cbn [bind tk tp tv]. eexists; split; [reflexivity|]. apply (shows_lit LOption).
  - destruct Hl as [w [Hwd ->]]. rewrite (env_get2 w d k') by (auto; exact (fits_in (NBasicLit p TENV (C "$" :: w)) iswordc _ (fun r H => H) Hk)).
    cbn [bind tk tp tv]. eexists; split; [reflexivity|]. apply (shows_lit LEnv).
  - destruct Hl as [w [Hwd ->]]. rewrite (reg_get2 w d k') by (auto; intros ->; auto).
    cbn [bind tk tp tv]. eexists; split; [reflexivity|]. apply (shows_lit LReg).
  - destruct Hl as [[b [Hbd ->]]|[b [Hbd ->]]]; apply spells_head in Sp; destruct Sp as [p0 [t [Hd Sp]]].
    + subst d. rewrite Hd. cbn -[get_dstring]. unfold get_dstring. rewrite Hd. rewrite p_0. cbn -[dstring_loop].
      rewrite (dstring_exact b Hbd t k') by auto. cbn [bind]. eexists; split; [reflexivity|]. apply (shows_lit LString).
    + subst d. rewrite Hd. cbn -[get_sstring]. unfold get_sstring. rewrite Hd. rewrite p_0. cbn -[sstring_loop].
      rewrite (sstring_exact b Hbd t k') by
        (auto; pose proof (fits_in (NBasicLit p TSTRING (T "'" ++ b ++ T "'")) (fun r => r =? C "'") _ (fun r Hr => Hr) Hk) as Hq; destruct (peek k'); auto). cbn [bind]. eexists; split; [reflexivity|]. apply (shows_lit LString).
Qed.

Lemma curly_loop_end n k : ch_in isnamec (peek k) = false -> ch_is (peek k) (C "{") = false -> curly_loop e1 (S n) k = Ok ([], k).
Proof. intros H1 H2. cbn [curly_loop]. rewrite H1, H2. reflexivity. Qed.

Lemma namec1_namec r : isnamec1 r = true -> isnamec r = true.
Proof.
  unfold isnamec, iswordc, isalnum, isnamec1, iswordc1. intros H. apply orb_true_iff in H. destruct H as [->| ->].
  - rewrite !orb_true_r. reflexivity.
  - rewrite !orb_true_r. reflexivity.
Qed.

Lemma name_next w t k : spells w t k -> forallb isnamec w = true -> ch_in isnamec (peek k) = false ->
  forall r, isnamec r = true -> ch_is (peek t) r = true -> exists w', w = r :: w'.
Proof.
  intros Sp Hw Hk r Hr H. destruct w as [|x w].
  - cbn [spells] in Sp. subst t. destruct (peek k) as [| |y]; try discriminate.
    cbn [ch_is ch_in] in *. apply N.eqb_eq in H. subst. congruence.
  - apply spells_head in Sp. destruct Sp as [p [t1 [-> Sp]]]. cbn [peek ch_of_cell ch_is] in H. apply N.eqb_eq in H. subst. eauto.
Qed.
Lemma name_quest w t k : spells w t k -> forallb isnamec w = true -> (w = [] -> ch_is (peek k) (C "?") = false) ->
  ch_is (peek t) (C "?") = false.
Proof.
  intros Sp Hw Hq. destruct w as [|x w]; [cbn [spells] in Sp; subst t; auto|].
  apply spells_head in Sp. destruct Sp as [p [t1 [-> Sp]]]. cbn [forallb] in Hw. apply andb_true_iff in Hw. destruct Hw as [Hx Hw].
  cbn [peek ch_of_cell ch_is]. destruct (x =? C "?") eqn:E; auto. apply N.eqb_eq in E. subst. discriminate.
Qed.

Lemma lower_lt a : to_lower a = C "<" -> a = C "<".
Proof.
  unfold to_lower, isupper, between. change (C "<") with 60. change (C "i") with 105. change (C "k") with 107.
  change (C "A") with 65. change (C "Z") with 90.
  repeat match goal with |- context [if ?b then _ else _] => destruct b eqn:? end; lia.
Qed.

Lemma sid_head s : is_sid s -> exists b w, s = C "<" :: b :: w /\ length w = 3%nat /\
  ch_is (CR b) (C "=") = false /\ ch_is (CR b) (C "?") = false /\ ch_is (CR b) (C "#") = false /\ equalci (b :: w) (T "SID>") = true.
Proof.
  unfold is_sid, equalci. intros H. destruct s as [|a [|b w]]; try discriminate.
  { cbn in H. rewrite andb_false_r in H. discriminate. }
  cbn [map text_eqb] in H. apply andb_true_iff in H. destruct H as [Ha H].
  assert (a = C "<").
  { apply N.eqb_eq in Ha. apply lower_lt. exact Ha. }
  subst a. exists b, w. split; auto. assert (H' := H). apply andb_true_iff in H. destruct H as [Hb H].
  split.
  { apply text_eqb_eq in H. apply (f_equal (@length N)) in H. rewrite !map_length in H. exact H. }
  assert (Hn : forall x, to_lower x <> 115 -> ch_is (CR b) x = false).
  { intros x Hx. cbn [ch_is]. destruct (b =? x) eqn:E; auto. apply N.eqb_eq in E. subst.
    apply N.eqb_eq in Hb. exfalso. apply Hx. rewrite Hb. reflexivity. }
  repeat split; try (apply Hn; vm_compute; discriminate). exact H'.
Qed.

Lemma name_ident s c d k : name_text s -> skip_white c = d -> spells s d k -> wf d ->
  ch_in isnamec (peek k) = false -> ch_is (peek k) (C "{") = false ->
  parse_identifier e1 c = Ok (VIdent (getpos d) s, k).
Proof.
  intros Hn Hc Sp Hw Hk Hk2. unfold parse_identifier. rewrite Hc. unfold parse_curly_parts. destruct Hn as [[r [w [-> [Hr Hwd]]]]|Hs].
    - pose proof Sp as Sp0. apply spells_head in Sp. destruct Sp as [q [t [-> Sp]]].
      cbn [peek ch_of_cell ch_is]. replace (r =? C "<") with false by (symmetry; apply N.eqb_neq; intros ->; discriminate).
      cbn [andb curly_loop peek ch_of_cell ch_in]. rewrite (namec1_namec _ Hr). unfold read_name.
      rewrite (read_while_exact isnamec (r :: w) _ k) by
        (auto; cbn [forallb]; rewrite ?(namec1_namec _ Hr); auto).
      cbn [clen]. rewrite curly_loop_end by auto. reflexivity.
    - destruct (sid_head _ Hs) as [b [w [-> [Hl [_ [_ [_ Hq]]]]]]].
      unfold peekn. rewrite (getn_exact 5 (C "<" :: b :: w) d k) by (auto; cbn [length]; rewrite ?Hl; auto). cbn [fst].
      pose proof Sp as Sp0. apply spells_head in Sp. destruct Sp as [q [t [-> Sp]]].
      cbn [peek ch_of_cell ch_is]. rewrite N.eqb_refl. rewrite Hs. cbn [andb].
      rewrite curly_loop_end by auto. reflexivity.
Qed.

Lemma p_match_name u : forall pre c t w k, wf c -> spells pre c t -> spells w t k -> forallb isnamec w = true ->
  ch_in isnamec (peek k) = false -> forallb isnamec u = true ->
  exists b, p_match (length pre) u c = Ok b /\ (b = true -> exists w', w = u ++ w').
Proof.
  induction u as [|r u IH]; intros pre c t w k Hw Sp Sw Hwd Hk Hu; cbn [p_match].
  - exists true. split; auto. intros _. exists w. auto.
  - rewrite (p_spells (length pre) pre c t) by auto. cbn [bind].
    cbn [forallb] in Hu. apply andb_true_iff in Hu. destruct Hu as [Hr Hu].
    destruct (ch_is (peek t) r) eqn:E; [|exists false; split; [auto|discriminate]].
    destruct (name_next _ _ _ Sw Hwd Hk r Hr E) as [w2 ->].
    apply spells_head in Sw. destruct Sw as [q [t1 [-> Sw]]].
    assert (Sp2 : spells (pre ++ [r]) c t1) by (eapply spells_app; eauto; cbn; auto).
    cbn [forallb] in Hwd. apply andb_true_iff in Hwd. destruct Hwd as [_ Hwd].
    destruct (IH (pre ++ [r]) c t1 w2 k Hw Sp2 Sw Hwd Hk Hu) as [b [Hb Hb2]].
    replace (S (length pre)) with (length (pre ++ [r])) by (rewrite app_length; cbn; lia).
    exists b. split; auto. intros H. destruct (Hb2 H) as [w' ->]. exists w'. reflexivity.
Qed.

Definition name_kinds : list tok := [KIdent; KCmp OIs MNone; KCmp OIs MCs; KCmp OIsNot MNone; KCmp OIsNot MCs].

Lemma name_cmp o s c d : (o = OIs \/ o = OIsNot) -> spells s c d -> wf c -> ch_is (peek d) (C "?") = false ->
  exists t' d', tok_cmp o (length s) s c = Ok (t', d') /\ In (tk t') name_kinds.
Proof.
  intros Ho S0 W0 Hq. unfold tok_cmp. rewrite (p_spells _ s c d) by auto. cbn [bind]. rewrite Hq.
  destruct (ch_is (peek d) (C "#")) eqn:E.
  - apply ch_is_peek in E. destruct E as [q1 [t1 E]].
    rewrite (seek_spells (S (length s)) (s ++ T "#") c t1); cycle 1.
    + eapply spells_app; eauto. rewrite E. cbn. auto.
    + rewrite app_length. cbn. lia.
    + cbn [bind]. do 2 eexists. split; [reflexivity|]. destruct Ho as [->| ->]; cbn; tauto.
  - rewrite (seek_spells _ s c d) by auto. cbn [bind]. do 2 eexists. split; [reflexivity|].
    destruct Ho as [->| ->]; cbn; tauto.
Qed.

Lemma name_ident_tok c : exists t d, get2_ident c = Ok (t, d) /\ In (tk t) name_kinds.
Proof. unfold get2_ident. destruct (read_name c). do 2 eexists. split; [reflexivity|]. left. reflexivity. Qed.

Lemma forallb_app_r f (a b : text) : forallb f (a ++ b) = true -> forallb f b = true.
Proof. rewrite forallb_app, andb_true_iff. tauto. Qed.

Lemma name_word r w d k : isnamec1 r = true -> forallb isnamec w = true -> spells (r :: w) d k -> wf d ->
  ch_in isnamec (peek k) = false -> (In (r :: w) [T "is"; T "isnot"] -> ch_is (peek k) (C "?") = false) ->
  exists t d', get2_word r d = Ok (t, d') /\ In (tk t) name_kinds.
Proof.
  intros Hr Hwd Sp Hw Hk Hqs. pose proof (name_ident_tok d) as Hi. unfold get2_word.
  destruct (r =? C "i") eqn:Ei; [|exact Hi]. apply N.eqb_eq in Ei. subst r.
  pose proof Sp as Sp0. apply spells_head in Sp. destruct Sp as [q [t [Hd Sp]]].
  assert (S1 : spells (T "i") d t) by (rewrite Hd; cbn; auto).
  rewrite (p_spells 1 (T "i") d t) by auto. cbn [bind].
  destruct (ch_is (peek t) (C "s")) eqn:Es; [|exact Hi].
  destruct (name_next _ _ _ Sp Hwd Hk (C "s") eq_refl Es) as [w2 ->].
  apply spells_head in Sp. destruct Sp as [q1 [t1 [Ht Sp]]].
  assert (S2 : spells (T "is") d t1) by (rewrite Hd, Ht; cbn; auto).
  rewrite (p_spells 2 (T "is") d t1) by auto. cbn [bind].
  assert (Hwd2 : forallb isnamec w2 = true) by (cbn [forallb] in Hwd; apply andb_true_iff in Hwd; apply Hwd).
  destruct (ch_in iswordc (peek t1)) eqn:Ew; cbn [negb]; cycle 1.
  { assert (Hq : ch_is (peek t1) (C "?") = false) by (apply (name_quest w2 t1 k); auto; intros ->; apply Hqs; left; reflexivity).
    apply (name_cmp OIs (T "is") d t1); auto. }
  destruct (p_match_name (T "not") (T "is") d t1 w2 k Hw S2 Sp Hwd2 Hk eq_refl) as [b [Hb Hb2]].
  change (length (T "is")) with 2%nat in Hb. rewrite Hb. cbn [bind]. destruct b; [|exact Hi].
  destruct (Hb2 eq_refl) as [w' ->]. apply spells_split in Sp. destruct Sp as [t4 [S4 Sp]].
  assert (S5 : spells (T "isnot") d t4) by (apply (spells_app (T "is") (T "not") d t1 t4); auto).
  rewrite (p_spells 5 (T "isnot") d t4) by auto. cbn [bind].
  destruct (ch_in iswordc (peek t4)) eqn:Ew5; cbn [negb]; [exact Hi|].
  apply forallb_app_r in Hwd2.
  assert (Hq : ch_is (peek t4) (C "?") = false) by (apply (name_quest w' t4 k); auto; intros ->; apply Hqs; right; left; reflexivity).
  apply (name_cmp OIsNot (T "isnot") d t4); auto.
Qed.

Lemma get2_named r p t : isnamec1 r = true -> get2 (Cons (R r) p t) = get2_word r (Cons (R r) p t).
Proof.
  intros Hr. unfold get2. cbn [peek ch_of_cell]. destruct (namec1_not _ Hr) as [H1 H2]. rewrite H1, H2, Hr. reflexivity.
Qed.

Lemma get2_lt p t : get2 (Cons (R (C "<")) p t) =
  let* x := p_ 1 (Cons (R (C "<")) p t) in
  if ch_is x (C "=") then tok_cmp OLtEq 2 (T "<=") (Cons (R (C "<")) p t) else tok_cmp OLt 1 (T "<") (Cons (R (C "<")) p t).
Proof. reflexivity. Qed.

Lemma name_token s d k : name_text s -> spells s d k -> wf d ->
  ch_in isnamec (peek k) = false -> (In s [T "is"; T "isnot"] -> ch_is (peek k) (C "?") = false) ->
  exists t d', get2 d = Ok (t, d') /\
     (In (tk t) name_kinds \/ tk t = KCmp OLt MNone /\ equalci (peekn 4 d') (T "SID>") = true).
Proof.
  intros Hn Sp Hw Hk Hqs. destruct Hn as [[r [w [-> [Hr Hwd]]]]|Hs].
  - pose proof Sp as Sp0. apply spells_head in Sp. destruct Sp as [q [t [-> Sp]]].
    rewrite get2_named by auto. destruct (name_word r w _ k Hr Hwd Sp0 Hw Hk Hqs) as [t' [d' [H1 H2]]]. exists t', d'. auto.
  - destruct (sid_head _ Hs) as [b [w [-> [Hl [Hb1 [Hb2 [Hb3 Hq]]]]]]].
    apply spells_head in Sp. destruct Sp as [q [t [-> Sp]]]. pose proof Sp as Sp1. apply spells_head in Sp1.
    destruct Sp1 as [q1 [t1 [Ht Sp1]]]. rewrite get2_lt.
    assert (S1 : spells (T "<") (Cons (R (C "<")) q t) t) by (cbn; auto).
    rewrite (p_spells 1 (T "<") _ t) by auto. cbn [bind].
    assert (Hp : peek t = CR b) by (rewrite Ht; reflexivity). rewrite Hp, Hb1.
    unfold tok_cmp. rewrite (p_spells 1 (T "<") _ t) by auto. cbn [bind]. rewrite Hp, Hb2, Hb3.
    rewrite (seek_spells 1 (T "<") _ t) by auto. cbn [bind].
    do 2 eexists. split; [reflexivity|]. right. split; auto.
    unfold peekn. rewrite (getn_exact 4 (b :: w) _ k) by (auto; cbn; rewrite ?Hl; auto). exact Hq.
Qed.

Lemma named_expr9 t c d' r : tget c = Ok (t, d') ->
  (In (tk t) name_kinds \/ tk t = KCmp OLt MNone /\ equalci (peekn 4 d') (T "SID>") = true) ->
  parse_identifier e1 c = r -> parse_expr9 e1 c = r.
Proof.
  intros Hg Hk' Hid. unfold parse_expr9. rewrite Hg. cbn [bind]. destruct Hk' as [Hk'|[-> Hk']].
  - cbn [In] in Hk'. destruct Hk' as [<-|[<-|[<-|[<-|[<-|[]]]]]]; exact Hid.
  - rewrite Hk'. exact Hid.
Qed.

Lemma name_fits p s c : fits (NIdent p s) c = true ->
  ch_in isnamec c = false /\ ch_is c (C "{") = false /\ (In s [T "is"; T "isnot"] -> ch_is c (C "?") = false).
Proof.
  intros H. destruct c as [| |r]; auto. cbn [fits sticks] in H. cbn [ch_in ch_is].
  destruct (isnamec r); [discriminate|]. destruct (r =? C "{"); [discriminate|]. repeat split; auto. intros Hi.
  apply mem_text_In in Hi. rewrite Hi in H. cbn [orb andb negb] in H. destruct (r =? C "?"); auto.
Qed.

Lemma name_expr9 s p c d k : name_text s -> skip_white c = d -> spells s d k -> wf d -> fits (NIdent p s) (peek k) = true ->
  exists v, parse_expr9 e1 c = Ok (v, k) /\ shows v (NIdent p s).
Proof.
  intros Hn Hc Sp Hw Hf. apply name_fits in Hf. destruct Hf as [Hk [Hk2 Hk3]].
  pose proof (name_ident _ _ _ _ Hn Hc Sp Hw Hk Hk2) as Hid.
  destruct (name_token _ _ _ Hn Sp Hw Hk Hk3) as [t [d' [Hg Hk']]].
  exists (VIdent (getpos d) s). split; [|apply shows_name].
  eapply named_expr9; eauto. unfold tget. rewrite Hc. exact Hg.
Qed.

End Operands.

(** * Structure of the parser *)

Definition at_ (f l : nat) : cursor -> outcome (vnode * cursor) :=
  match l with
  | 1 => expr1_body (parse_expr1 f)
  | 2 => parse_expr2 (parse_expr1 f)
  | 3 => parse_expr3 (parse_expr1 f)
  | 4 => parse_expr4 (parse_expr1 f)
  | 5 => parse_expr5 (parse_expr1 f)
  | 6 => parse_expr6 (parse_expr1 f)
  | 7 => parse_expr7 (parse_expr1 f)
  | 8 => parse_expr8 (parse_expr1 f)
  | _ => parse_expr9 (parse_expr1 f)
  end%nat.

Definition bin_at (l : nat) : bool := match l with 2 | 3 | 5 | 6 => true | _ => false end%nat.
Definition loops (l : nat) : bool := bin_at l || (l =? 8)%nat.
Definition qs (l : nat) : nat := if loops l then S l else l.

(** What remains to be done at level [l] after an operand. *)
Definition loop_at (f l m : nat) (v : vnode) (k : cursor) : outcome (vnode * cursor) :=
  if bin_at l then bin_loop (at_ f (S l)) (level_op l) m v k
  else if (l =? 8)%nat then expr8_loop (parse_expr1 f) m v k
  else Ok (v, k).

Lemma bin_loop_ext sub o1 o2 : (forall k, o1 k = o2 k) -> forall n v c, bin_loop sub o1 n v c = bin_loop sub o2 n v c.
Proof.
  intros H. induction n as [|n IH]; intros v c; cbn [bin_loop]; auto.
  destruct (tget c) as [[t c1]| | |]; cbn [bind]; auto. rewrite H. destruct (o2 (tk t)); auto.
  destruct (sub c1) as [[v2 c2]| | |]; cbn [bind]; auto.
Qed.

Lemma at_loop f l c : loops l = true -> at_ f l c = let* '(v, c1) := at_ f (S l) c in loop_at f l (S (clen c1)) v c1.
Proof.
  intros H. destruct l as [|[|[|[|[|[|[|[|[|l]]]]]]]]]; try discriminate; cbn [at_]; unfold loop_at; cbn [bin_at Nat.eqb]; try reflexivity;
  unfold parse_expr2, parse_expr3, parse_expr5, parse_expr6, bin_level;
  match goal with |- bind ?m _ = _ => destruct m as [[v c1]| | |] end; cbn [bind]; auto;
  apply bin_loop_ext; intros []; reflexivity.
Qed.

Lemma tget_lev_bin l k w o : bin_at l = true -> (lev w o k < l)%nat -> level_op l k = None.
Proof.
  intros Hl H. destruct l as [|[|[|[|[|[|[|l]]]]]]]; try discriminate; destruct k; try reflexivity; cbn [lev] in H; destruct w, o; lia.
Qed.

Lemma loop_stop f l m v k e n : (l <= 9)%nat -> (0 < m)%nat -> stop e n l k -> (l = 8%nat -> dot_left_ok v = has_members n) ->
  loop_at f l m v k = Ok (v, k).
Proof.
  intros Hl Hm [_ [_ [t [d [Ht Hv]]]]] Hd. unfold loop_at. destruct m as [|m]; [lia|].
  destruct (bin_at l) eqn:Hb.
  - cbn [bin_loop]. rewrite Ht. cbn [bind]. rewrite (tget_lev_bin _ _ _ _ Hb Hv). reflexivity.
  - destruct (l =? 8)%nat eqn:H8; auto. apply Nat.eqb_eq in H8. subst l. specialize (Hd eq_refl). cbn [expr8_loop].
    unfold dot_op in Hv. set (w := ch_in iswhite (peek k)) in *. clearbody w. rewrite Ht. cbn [bind].
    destruct (tk t); try reflexivity; cbn [lev] in Hv; destruct w; try lia; try reflexivity.
    unfold parse_dot. rewrite Hd. destruct (has_members n); [|reflexivity]. cbn [negb orb] in *.
    rewrite p_0. cbn [bind]. destruct (ch_in iswordc (peek d)); [cbn in Hv; lia|reflexivity].
Qed.

Lemma expr7_more e1 n c r : expr7_loop e1 n c = Ok r -> forall m, (n <= m)%nat -> expr7_loop e1 m c = Ok r.
Proof.
  revert c r; induction n as [|n IH]; intros c r H m Hm; [discriminate|]. destruct m as [|m]; [lia|].
  cbn [expr7_loop] in *. destruct (tget c) as [[t c1]| | |]; cbn [bind] in *; try discriminate.
  destruct (tk t); auto; apply bind_ok in H; destruct H as [[v c2] [H1 H2]]; rewrite (IH _ _ H1 m) by lia; exact H2.
Qed.

(** The first token of an expression. *)
Definition opens (k : tok) : bool :=
  match k with KPClose | KSqClose | KCClose | KColon | KComma | KArrow | KDotDotDot => false
  | KCmp OLt MNone | KCmp OIs _ | KCmp OIsNot _ => true | KCmp _ _ => false | _ => true end.
Definition opens8 (k : tok) : bool :=
  match k with KNot | KMinus | KPlus => false | _ => opens k end.

Lemma opens_p k : opens k = true -> tok_eqb k KPClose = false.
Proof. destruct k; intros H; try discriminate H; try reflexivity; match goal with |- tok_eqb (KCmp ?o ?m) _ = _ => destruct o, m; reflexivity end. Qed.
Lemma opens_sq k : opens k = true -> tok_eqb k KSqClose = false.
Proof. destruct k; intros H; try discriminate H; try reflexivity; match goal with |- tok_eqb (KCmp ?o ?m) _ = _ => destruct o, m; reflexivity end. Qed.
Lemma opens_c k : opens k = true -> tok_eqb k KColon = false.
Proof. destruct k; intros H; try discriminate H; try reflexivity; match goal with |- tok_eqb (KCmp ?o ?m) _ = _ => destruct o, m; reflexivity end. Qed.

Lemma opens_cc k : opens k = true -> tok_eqb k KCClose = false.
Proof. destruct k; intros H; try discriminate H; try reflexivity; match goal with |- tok_eqb (KCmp ?o ?m) _ = _ => destruct o, m; reflexivity end. Qed.

Lemma first9 e1 c r : parse_expr9 e1 c = Ok r -> exists t d, tget c = Ok (t, d) /\ opens8 (tk t) = true.
Proof.
  unfold parse_expr9. intros H. apply bind_ok in H. destruct H as [[t d] [H1 H2]]. exists t, d. split; auto.
  destruct (tk t); auto; try discriminate. destruct o, m; auto; discriminate.
Qed.
Lemma first8 e1 c r : parse_expr8 e1 c = Ok r -> exists t d, tget c = Ok (t, d) /\ opens8 (tk t) = true.
Proof. unfold parse_expr8. intros H. apply bind_ok in H. destruct H as [r' [H1 H2]]. eapply first9; eauto. Qed.
Lemma first7 e1 n c r : expr7_loop e1 n c = Ok r -> exists t d, tget c = Ok (t, d) /\ opens (tk t) = true.
Proof.
  destruct n as [|n]; [discriminate|]. cbn [expr7_loop]. intros H. apply bind_ok in H. destruct H as [[t d] [H1 H2]].
  exists t, d. split; auto. destruct (tk t) eqn:E; auto; apply first8 in H2; destruct H2 as [t' [d' [G1 G2]]]; congruence ||
    (rewrite H1 in G1; injection G1 as <- <-; rewrite E in G2; (discriminate || exact G2)).
Qed.
Lemma first1 f c r : parse_expr1 f c = Ok r -> exists t d, tget c = Ok (t, d) /\ opens (tk t) = true.
Proof.
  destruct f as [|f]; [discriminate|]. cbn [parse_expr1]. unfold expr1_body, parse_expr2, parse_expr3, parse_expr4, parse_expr5,
    parse_expr6, parse_expr7, bin_level. intros H. do 6 (apply bind_ok in H; destruct H as [? [H _]]). eapply first7; eauto.
Qed.

(** ** Heads *)

Definition head_ok (r : N) : bool := negb (iswhite r || never_head r).
Definition good_head (s : text) : Prop := exists r w, s = r :: w /\ head_ok r = true.

Lemma good_app s s' : good_head s -> good_head (s ++ s').
Proof. intros [r [w [-> H]]]. exists r, (w ++ s'). auto. Qed.

Lemma digits_head s s' : some_of isdigit s -> good_head (s ++ s').
Proof.
  intros [H1 H2]. destruct s as [|r s]; [congruence|]. apply good_app. exists r, s. split; auto.
  cbn [forallb] in H2. apply andb_true_iff in H2. destruct H2 as [H2 _]. unfold head_ok, never_head, iswhite, isdigit, between in *. cbn in *. lia.
Qed.

Lemma namec1_head r : isnamec1 r = true -> head_ok r = true.
Proof. unfold head_ok, never_head, iswhite, isnamec1, iswordc1, isalpha, isupper, islower, between in *. cbn in *. lia. Qed.

Lemma written_head e l n s : written e l n s -> good_head s.
Proof.
  induction 1; auto; try (apply good_app; assumption).
  - unfold prefix_ops in *. cbn [In] in *.
    repeat match goal with H : _ \/ _ |- _ => destruct H as [H|H] | H : (_, _) = (_, _) |- _ => injection H as <- <- end;
      try contradiction; do 2 eexists; split; reflexivity.
  - destruct k; cbn [lit_text] in *; try contradiction.
    + match goal with H : number_text _ |- _ => destruct H as [s Hs|a b Ha Hb|a b ex sg x Ha Hb He Hsg Hx|x s Hx Hs|x s Hx Hs] end;
        try (apply digits_head; auto); try (do 2 eexists; split; reflexivity).
      rewrite <- (app_nil_r s). apply digits_head; auto.
    + destruct H as [z [b [_ [_ [_ [_ ->]]]]]]. do 2 eexists; split; reflexivity.
    + destruct H as [sc [w [_ [_ ->]]]]. do 2 eexists; split; reflexivity.
    + destruct H as [w [_ ->]]. do 2 eexists; split; reflexivity.
    + destruct H as [w [_ ->]]. do 2 eexists; split; reflexivity.
    + destruct H as [[b [_ ->]]|[b [_ ->]]]; do 2 eexists; split; reflexivity.
  - do 2 eexists; split; reflexivity.
  - do 2 eexists; split; reflexivity.
  - destruct H as [[r [w [-> [Hr _]]]]|Hs].
    + exists r, w. split; auto. apply namec1_head; auto.
    + destruct (sid_head _ Hs) as [b [w [-> _]]]. do 2 eexists; split; reflexivity.
  - destruct lit; do 2 eexists; split; reflexivity.
  - do 2 eexists; split; reflexivity.
  - do 2 eexists. split; [reflexivity|]. apply namec1_head; auto.
  - destruct (sid_head s) as [b [w [-> _]]]; auto. do 2 eexists; split; reflexivity.
  - do 2 eexists; split; reflexivity.
Qed.

Lemma head_peek s d k : good_head s -> spells s d k -> exists r, peek d = CR r /\ head_ok r = true.
Proof. intros [r [w [-> H]]] Sp. apply spells_head in Sp. destruct Sp as [p [t [-> _]]]. exists r. auto. Qed.

Lemma head_nonwhite s d k : good_head s -> spells s d k -> ch_in iswhite (peek d) = false.
Proof.
  intros H Sp. destruct (head_peek _ _ _ H Sp) as [r [-> Hr]]. cbn [ch_in]. unfold head_ok in Hr. destruct (iswhite r); auto.
Qed.

(** ** Punctuation *)

Definition punct (x : N) : option tok :=
  if x =? C "(" then Some KPOpen else if x =? C ")" then Some KPClose
  else if x =? C "[" then Some KSqOpen else if x =? C "]" then Some KSqClose
  else if x =? C "," then Some KComma else if x =? C ":" then Some KColon
  else if x =? C "?" then Some KQuestion else if x =? C "{" then Some KCOpen
  else if x =? C "}" then Some KCClose else None.

Lemma punct_in x k : punct x = Some k -> In (x, k) [(C "(", KPOpen); (C ")", KPClose); (C "[", KSqOpen); (C "]", KSqClose); (C ",", KComma); (C ":", KColon); (C "?", KQuestion);
  (C "{", KCOpen); (C "}", KCClose)].
Proof.
  unfold punct. repeat match goal with |- context [if ?b then _ else _] => destruct b eqn:? end; intros H; try discriminate;
    injection H as <-; repeat match goal with H : (_ =? _) = true |- _ => apply N.eqb_eq in H; subst end; cbn [In]; tauto.
Qed.

Lemma punct_get x k w c d : punct x = Some k -> gap w -> spells (w ++ [x]) c d ->
  exists q, tget c = Ok (mkTok k [x] q, d).
Proof.
  intros Hp Hw Sp. apply spells_split in Sp. destruct Sp as [m [Sw Sx]]. apply spells_head in Sx. destruct Sx as [p [t [-> Sx]]].
  cbn [spells] in Sx. subst t. apply punct_in in Hp. unfold tget. exists (getpos (Cons (R x) p d)).
  rewrite (skip_gap w c (Cons (R x) p d) Hw Sw).
  - cbn [In] in Hp. repeat (destruct Hp as [Hp|Hp]; [injection Hp as <- <-; reflexivity|]). contradiction.
  - cbn [In] in Hp. repeat (destruct Hp as [Hp|Hp]; [injection Hp as <- <-; reflexivity|]). contradiction.
Qed.

(** Blanks, brackets, commas and arrows end every operand. *)
Lemma sticks_not n x : In x (32 :: 9 :: T "()[],-}") -> sticks n x = false.
Proof.
  intros H. cbn [In] in H. repeat (destruct H as [<-|H]; [destruct n; try reflexivity; cbn [sticks];
    [destruct kind; try reflexivity; cbn; rewrite ?andb_false_r; reflexivity|cbn; rewrite andb_false_r; reflexivity]|]). contradiction.
Qed.

Lemma gap_fits n w s c d : gap w -> w <> [] -> spells (w ++ s) c d -> fits n (peek c) = true /\ ch_in iswhite (peek c) = true.
Proof.
  intros Hw Hn Sp. destruct w as [|r w]; [congruence|]. apply spells_head in Sp. destruct Sp as [p [t [-> _]]].
  unfold gap in Hw. cbn [forallb] in Hw. apply andb_true_iff in Hw. destruct Hw as [Hr _]. cbn [peek ch_of_cell fits ch_in].
  split; auto. rewrite sticks_not; auto. unfold iswhite in Hr. apply orb_true_iff in Hr. cbn [In].
  destruct Hr as [Hr|Hr]; apply N.eqb_eq in Hr; auto.
Qed.

Lemma follows_fits n w s c d : follows n w s -> gap w -> s <> [] -> spells (w ++ s) c d -> fits (rightmost n) (peek c) = true.
Proof.
  intros [H|H] Hw Hs Sp; [eapply gap_fits; eauto|]. destruct w as [|r w]; [|eapply gap_fits; eauto; discriminate].
  cbn [app] in Sp. destruct s as [|r s]; [congruence|]. apply spells_head in Sp. destruct Sp as [p [t [-> _]]].
  cbn [peek ch_of_cell fits]. cbn [head_not] in H. rewrite H. reflexivity.
Qed.

(** A gap, then a punctuation character that does not stick: it ends everything of a
    higher level. *)
Lemma stop_punct n x k w c d l : punct x = Some k -> gap w -> spells (w ++ [x]) c d -> follows n w [x] ->
  (forall b o, (lev b o k < l)%nat) -> stop false (rightmost n) l c.
Proof.
  intros Hp Hw Sp He Hl. destruct (punct_get _ _ _ _ _ Hp Hw Sp) as [q Ht]. split; [discriminate|]. split; [|eauto].
  eapply follows_fits; eauto. discriminate.
Qed.

Lemma follows_any n w x : In x (32 :: 9 :: T "()[],-}") -> follows n w [x].
Proof. right. apply sticks_not. auto. Qed.

(** * Reading back *)

Definition reads (e : bool) (l : nat) (n : node) (s : text) : Prop := ((8 <= l)%nat -> rightmost n = n) /\ forall f ws c k,
  gap ws -> spells (ws ++ s) c k -> wf c -> (clen c <= f)%nat -> stop e (rightmost n) (qs l) k ->
  exists v m, (clen k < m)%nat /\ at_ f l c = loop_at f l m v k /\ shows v n.

Lemma qs_bounds l : (l <= qs l <= S l)%nat.
Proof. unfold qs. destruct (loops l); lia. Qed.

Lemma reads_all e l n s : (l <= 9)%nat -> reads e l n s -> forall f ws c k,
  gap ws -> spells (ws ++ s) c k -> wf c -> (clen c <= f)%nat -> stop e (rightmost n) l k ->
  exists v, at_ f l c = Ok (v, k) /\ shows v n.
Proof.
  intros Hl [Hr HM] f ws c k Hw Sp Wf Hf Hs.
  destruct (HM f ws c k Hw Sp Wf Hf) as [v [m [Hm [E Sh]]]].
  { eapply stop_le; [|exact Hs]. apply qs_bounds. }
  exists v. split; auto. rewrite E. eapply loop_stop; eauto; [lia|]. intros ->. rewrite Hr by lia. apply shows_members. auto.
Qed.

Lemma reads1 e n s : reads e 1 n s -> forall f ws c k,
  gap ws -> spells (ws ++ s) c k -> wf c -> (clen c < f)%nat -> stop e (rightmost n) 1 k ->
  exists v, parse_expr1 f c = Ok (v, k) /\ shows v n.
Proof.
  intros HM f ws c k Hw Sp Wf Hf Hs. destruct f as [|f]; [lia|]. cbn [parse_expr1].
  change (expr1_body (parse_expr1 f) c) with (at_ f 1 c). eapply (reads_all e 1 n s); eauto; lia.
Qed.

Lemma reads_up e l n s : (1 <= l <= 8)%nat -> reads e (S l) n s -> reads e l n s.
Proof.
  intros Hl HM. split; [intros; apply HM; lia|]. intros f ws c k Hw Sp Wf Hf Hs.
  destruct (reads_all e (S l) n s ltac:(lia) HM f ws c k Hw Sp Wf Hf) as [v [E Sh]].
  { eapply stop_le; [|exact Hs]. apply qs_bounds. }
  exists v, (S (clen k)). split; [lia|]. split; auto.
  destruct (loops l) eqn:Hlp; [rewrite at_loop, E by auto; reflexivity|].
  unfold qs in Hs. rewrite Hlp in Hs. destruct Hs as [_ [_ [t [d [Ht Hv]]]]].
  assert (Hc : l = 1%nat \/ l = 4%nat \/ l = 7%nat).
  { destruct l as [|[|[|[|[|[|[|[|[|l]]]]]]]]]; try discriminate; try lia. }
  destruct Hc as [->|[->| ->]].
  - change (at_ f 1 c) with (expr1_body (parse_expr1 f) c). unfold expr1_body.
    change (parse_expr2 (parse_expr1 f) c) with (at_ f 2 c). rewrite E. cbn [bind]. rewrite Ht. cbn [bind].
    revert Hv. destruct (tk t); intros Hv; try reflexivity; cbn in Hv; try (destruct (ch_in iswhite (peek k)) in Hv); try (destruct (dot_op (rightmost n) k d) in Hv); lia.
  - change (at_ f 4 c) with (parse_expr4 (parse_expr1 f) c). unfold parse_expr4.
    change (parse_expr5 (parse_expr1 f) c) with (at_ f 5 c). rewrite E. cbn [bind]. rewrite Ht. cbn [bind].
    revert Hv. destruct (tk t); intros Hv; try reflexivity; cbn in Hv; try (destruct (ch_in iswhite (peek k)) in Hv); try (destruct (dot_op (rightmost n) k d) in Hv); lia.
  - change (at_ f 7 c) with (expr7_loop (parse_expr1 f) (S (clen c)) c). cbn [expr7_loop].
    change (at_ f 8 c) with (parse_expr8 (parse_expr1 f) c) in E.
    destruct (first8 _ _ _ E) as [t1 [d1 [Ht1 Ho]]]. rewrite Ht1. cbn [bind].
    destruct (tk t1); try discriminate; exact E.
Qed.

Lemma spells_le s a b : spells s a b -> (clen b <= clen a)%nat.
Proof. intros H. apply spells_clen in H. lia. Qed.
Lemma spells_lt s a b : spells s a b -> s <> [] -> (clen b < clen a)%nat.
Proof. intros H Hn. apply spells_clen in H. destruct s; [congruence|]. cbn [length] in H. lia. Qed.

Lemma text_first y c k : y <> [] -> spells y c k -> exists r, peek c = CR r /\ hd 0 y = r.
Proof. intros Hy Sp. destruct y as [|r y]; [congruence|]. apply spells_head in Sp. destruct Sp as [p [t [-> _]]]. exists r. auto. Qed.

Lemma head_not_in f y c k : y <> [] -> spells y c k -> head_not f y -> ch_in f (peek c) = false.
Proof. intros Hy Sp H. destruct y as [|r y]; [congruence|]. apply spells_head in Sp. destruct Sp as [p [t [-> _]]]. exact H. Qed.

Lemma gap_head w s : gap w -> good_head s -> w ++ s <> [] /\ head_not never_head (w ++ s).
Proof.
  intros Hw [r [s' [-> Hr]]]. destruct w as [|x w]; cbn [app head_not].
  - split; [discriminate|]. unfold head_ok in Hr. destruct (never_head r); auto. rewrite orb_true_r in Hr. discriminate.
  - split; [discriminate|]. unfold gap in Hw. cbn [forallb] in Hw. apply andb_true_iff in Hw. destruct Hw as [Hx _].
    unfold iswhite, never_head, mem_N in *. cbn in *. lia.
Qed.

(** A binary operator. *)
Lemma infix_tget l sp t a w1 w2 sb c k : In (l, sp, t) infix_ops -> gap w1 -> gap w2 -> good_head sb ->
  follows a w1 sp -> head_not (lengthens sp) (w2 ++ sb) ->
  (sp = T "." -> w1 = [] -> has_members (rightmost a) = true -> head_not iswordc (w2 ++ sb)) ->
  spells (w1 ++ sp ++ w2 ++ sb) c k -> wf c ->
  exists kd o q c2, op_of l kd = Some o /\ bin_token o = t /\ tget c = Ok (mkTok kd sp q, c2) /\
    spells (w2 ++ sb) c2 k /\ (clen c2 < clen c)%nat /\ (forall l', (l < l')%nat -> stop false (rightmost a) l' c) /\ wf c2.
Proof.
  intros Hin Hw1 Hw2 Hh Hfo Hlen Hdot Sp Wf.
  destruct (infix_get2 _ _ _ Hin) as [kd [o [H1 [H2 [H3 [Hnw [Hne [Hkd H4]]]]]]]].
  pose proof Sp as Sp0. apply spells_split in Sp. destruct Sp as [d [S1 Sp]]. apply spells_split in Sp. destruct Sp as [c2 [S2 Sp]].
  destruct (gap_head _ _ Hw2 Hh) as [Hne2 Hnh]. pose proof (spells_wf _ _ _ S1 Wf) as Wfd.
  assert (G1 : get2 d = Ok (mkTok kd sp (getpos d), c2)).
  { apply H4; auto; eapply head_not_in; eauto. }
  assert (Ht : tget c = Ok (mkTok kd sp (getpos d), c2)).
  { unfold tget. rewrite (skip_gap w1 c d Hw1 S1 (head_not_in iswhite sp d c2 Hne S2 Hnw)). exact G1. }
  exists kd, o, (getpos d), c2. split; [auto|]. split; [auto|]. split; [auto|]. split; [auto|].
  split; [apply spells_le in S1; apply spells_lt in S2; auto; lia|]. split; [|eapply spells_wf; eauto].
  intros l' Hl'. split; [discriminate|]. split.
  { eapply (follows_fits a w1 (sp ++ w2 ++ sb)); eauto.
    - destruct Hfo as [?|Hfo]; [left; auto|right]. destruct sp; [congruence|exact Hfo].
    - destruct sp; [congruence|discriminate]. }
  exists (mkTok kd sp (getpos d)), c2. split; auto. cbn [tk].
  assert (Hlev : lev (ch_in iswhite (peek c)) (dot_op (rightmost a) c c2) kd = l); [|lia].
  destruct (tok_eqb kd KDot) eqn:Ek.
  - assert (kd = KDot) as -> by (clear - Ek; destruct kd; try discriminate; auto; match goal with H : tok_eqb (KCmp ?o ?m) _ = _ |- _ => destruct o, m; discriminate end).
    assert (dot_op (rightmost a) c c2 = true) as ->; [|exact H3]. unfold dot_op.
    destruct w1 as [|x w1].
    + destruct (has_members (rightmost a)) eqn:Em; [|cbn [negb]; rewrite orb_true_r; reflexivity].
      rewrite (head_not_in iswordc _ c2 k Hne2 Sp) by (apply Hdot; auto; apply Hkd; auto). rewrite !orb_true_r. reflexivity.
    + destruct (gap_fits (rightmost a) (x :: w1) _ _ _ Hw1 ltac:(discriminate) Sp0) as [_ ->]. reflexivity.
  - clear - H1 H3 Ek. destruct kd; try exact H3; try discriminate Ek. destruct l as [|[|[|[|[|[|[|l]]]]]]]; discriminate.
Qed.

Lemma reads_binary e l sp t p a b sa sb w1 w2 : In (l, sp, t) infix_ops ->
  reads false (left_level l) a sa -> reads e (S l) b sb -> gap w1 -> gap w2 -> good_head sb ->
  follows a w1 sp -> head_not (lengthens sp) (w2 ++ sb) ->
  (sp = T "." -> w1 = [] -> has_members (rightmost a) = true -> head_not iswordc (w2 ++ sb)) ->
  reads e l (NBinary (Some a) p t (Some b)) (sa ++ w1 ++ sp ++ w2 ++ sb).
Proof.
  intros Hin Ha Hb Hw1 Hw2 Hh Hfo Hlen Hdot.
  assert (Hl : (2 <= l <= 6)%nat).
  { unfold infix_ops in Hin. cbn [In] in Hin. repeat (destruct Hin as [Hin|Hin]; [injection Hin as <- <- <-; lia|]). contradiction. }
  split; [lia|]. intros f ws c k Hw Sp Wf Hf Hs.
  rewrite app_assoc in Sp. apply spells_split in Sp. destruct Sp as [k1 [Sa Sp]].
  pose proof (spells_wf _ _ _ Sa Wf) as Wf1.
  destruct (infix_tget _ _ _ _ _ _ _ _ _ Hin Hw1 Hw2 Hh Hfo Hlen Hdot Sp Wf1) as [kd [o [q [c2 [Ho [Hbt [Ht [Sb [Hlt [Hst Wf2]]]]]]]]]]. pose proof (spells_le _ _ _ Sa) as L1.
  assert (Hs2 : stop e (rightmost b) (S l) k) by (eapply stop_le; [|exact Hs]; apply qs_bounds).
  destruct (reads_all e (S l) b sb ltac:(lia) Hb f w2 c2 k Hw2 Sb Wf2 ltac:(lia) Hs2) as [v2 [Eb Shb]].
  destruct (Nat.eq_dec l 4) as [->|Hn4].
  - cbn [left_level] in Ha.
    destruct (reads_all false 5 a sa ltac:(lia) Ha f ws c k1 Hw Sa Wf Hf (Hst 5%nat ltac:(lia))) as [v1 [Ea Sha]].
    exists (VBin o q v1 v2), (S (clen k)). split; [lia|]. split.
    + change (at_ f 4 c) with (parse_expr4 (parse_expr1 f) c). unfold parse_expr4.
      change (parse_expr5 (parse_expr1 f)) with (at_ f 5). rewrite Ea. cbn [bind]. rewrite Ht. cbn [bind tk tp].
      destruct kd; try discriminate. rewrite Eb. cbn in Ho. injection Ho as <-. reflexivity.
    + rewrite <- Hbt. apply shows_bin; auto.
  - assert (Hba : bin_at l = true) by (destruct l as [|[|[|[|[|[|[|l]]]]]]]; auto; lia).
    assert (Hll : left_level l = l) by (destruct l as [|[|[|[|[|[|[|l]]]]]]]; auto; lia). rewrite Hll in Ha.
    assert (Hop : level_op l kd = Some o) by (destruct l as [|[|[|[|[|[|[|l]]]]]]]; auto; lia).
    assert (Hq : qs l = S l) by (unfold qs, loops; rewrite Hba; auto).
    destruct (proj2 Ha f ws c k1 Hw Sa Wf Hf) as [v1 [m [Hm [Ea Sha]]]]; [rewrite Hq; apply Hst; lia|].
    destruct m as [|m]; [lia|]. exists (VBin o q v1 v2), m. split; [|split].
    + apply spells_lt in Sb; [lia|]. apply gap_head; auto.
    + rewrite Ea. unfold loop_at. rewrite Hba. cbn [bin_loop]. rewrite Ht. cbn [bind tk tp]. rewrite Hop, Eb. reflexivity.
    + rewrite <- Hbt. apply shows_bin; auto.
Qed.

Lemma reads_ternary e p a b d sa sb sd w1 w2 w3 w4 :
  reads false 2 a sa -> reads false 1 b sb -> reads e 1 d sd ->
  gap w1 -> gap w2 -> gap w3 -> gap w4 -> follows a w1 (T "?") -> follows b w3 (T ":") ->
  reads e 1 (NTernary p (Some a) (Some b) (Some d)) (sa ++ w1 ++ T "?" ++ w2 ++ sb ++ w3 ++ T ":" ++ w4 ++ sd).
Proof.
  intros Ha Hb Hd Hw1 Hw2 Hw3 Hw4 Hq1 Hq3. split; [lia|]. intros f ws c k Hw Sp Wf Hf Hs.
  rewrite app_assoc in Sp. apply spells_split in Sp. destruct Sp as [k1 [Sa Sp]].
  rewrite app_assoc in Sp. apply spells_split in Sp. destruct Sp as [c2 [S1 Sp]].
  rewrite app_assoc in Sp. apply spells_split in Sp. destruct Sp as [k2 [Sb Sp]].
  rewrite app_assoc in Sp. apply spells_split in Sp. destruct Sp as [c4 [S3 Sd]].
  pose proof (spells_wf _ _ _ Sa Wf) as Wf1. pose proof (spells_wf _ _ _ S1 Wf1) as Wf2.
  pose proof (spells_wf _ _ _ Sb Wf2) as Wf3. pose proof (spells_wf _ _ _ S3 Wf3) as Wf4.
  pose proof (spells_le _ _ _ Sa) as L1. pose proof (spells_le _ _ _ Sb) as L3. pose proof (spells_le _ _ _ S3) as L4.
  assert (L2 : (clen c2 < clen k1)%nat) by (eapply spells_lt; eauto; destruct w1; discriminate).
  destruct (punct_get (C "?") KQuestion w1 k1 c2 eq_refl Hw1 S1) as [q Ht].
  destruct (punct_get (C ":") KColon w3 k2 c4 eq_refl Hw3 S3) as [q3 Ht3].
  destruct (reads_all false 2 a sa ltac:(lia) Ha f ws c k1 Hw Sa Wf Hf) as [v1 [Ea Sha]].
  { apply (stop_punct _ (C "?") KQuestion w1 k1 c2); [reflexivity|apply Hw1|exact S1|exact Hq1|intros; cbn; lia]. }
  destruct (reads1 false b sb Hb f w2 c2 k2 Hw2 Sb Wf2 ltac:(lia)) as [v2 [Eb Shb]].
  { apply (stop_punct _ (C ":") KColon w3 k2 c4); [reflexivity|apply Hw3|exact S3|exact Hq3|intros; cbn; lia]. }
  destruct (reads1 e d sd Hd f w4 c4 k Hw4 Sd Wf4 ltac:(lia)) as [v3 [Ed Shd]].
  { exact Hs. }
  exists (VTernary q v1 v2 v3), (S (clen k)). split; [lia|]. split; [|apply shows_ternary; auto].
  change (at_ f 1 c) with (expr1_body (parse_expr1 f) c). unfold expr1_body.
  change (parse_expr2 (parse_expr1 f) c) with (at_ f 2 c). rewrite Ea. cbn [bind]. rewrite Ht. cbn [bind tk tp tok_eqb tok_num].
  change (KQuestion : tok) with KQuestion. rewrite Eb. cbn [bind]. rewrite Ht3. cbn [bind]. rewrite Ed. reflexivity.
Qed.

Lemma get2_not p t : get2 (Cons (R (C "!")) p t) =
  let* x := p_ 1 (Cons (R (C "!")) p t) in
  if ch_is x (C "=") then tok_cmp ONeq 2 (T "!=") (Cons (R (C "!")) p t)
  else if ch_is x (C "~") then tok_cmp ONoMatch 2 (T "!~") (Cons (R (C "!")) p t)
  else tok_fix KNot (T "!") (Cons (R (C "!")) p t).
Proof. reflexivity. Qed.
Lemma get2_minus p t : get2 (Cons (R (C "-")) p t) =
  let* x := p_ 1 (Cons (R (C "-")) p t) in
  if ch_is x (C ">") then tok_fix KArrow (T "->") (Cons (R (C "-")) p t) else tok_fix KMinus (T "-") (Cons (R (C "-")) p t).
Proof. reflexivity. Qed.

Lemma prefix_tget sp t w sa c k ws : In (sp, t) prefix_ops -> gap ws -> gap w -> good_head sa ->
  spells (ws ++ sp ++ w ++ sa) c k -> wf c ->
  exists kd o q c1, tget c = Ok (mkTok kd sp q, c1) /\ prefix_op kd = Some o /\ un_token o = t /\ spells (w ++ sa) c1 k /\
    (clen c1 < clen c)%nat /\ wf c1.
Proof.
  intros Hin Hws Hw Hh Sp Wf. apply spells_split in Sp. destruct Sp as [d [S1 Sp]]. apply spells_split in Sp. destruct Sp as [c1 [S2 Sp]].
  pose proof (spells_wf _ _ _ S1 Wf) as Wf1. pose proof (spells_wf _ _ _ S2 Wf1) as Wf2.
  destruct (gap_head _ _ Hw Hh) as [Hne Hnh]. destruct (text_first _ _ _ Hne Sp) as [r [Hp Hr]].
  assert (Hr' : (r =? C ">") = false /\ (r =? C "=") = false /\ (r =? C "~") = false).
  { destruct (w ++ sa) as [|x y]; [congruence|]. cbn [head_not hd] in *. subst x. unfold never_head, mem_N in Hnh. cbn in Hnh |- *. lia. }
  destruct Hr' as [R1 [R2 R3]].
  assert (Hlen : (clen c1 < clen c)%nat).
  { apply spells_le in S1. apply spells_lt in S2; [lia|]. unfold prefix_ops in Hin. cbn [In] in Hin.
    repeat (destruct Hin as [Hin|Hin]; [injection Hin as <- <-; discriminate|]). contradiction. }
  unfold prefix_ops in Hin. cbn [In] in Hin.
  assert (Hsk : forall x, sp = [x] -> iswhite x = false -> skip_white c = d).
  { intros x -> Hx. apply (skip_gap ws); auto. apply spells_head in S2. destruct S2 as [p [t' [-> _]]]. exact Hx. }
  destruct Hin as [Hin|[Hin|[Hin|[]]]]; injection Hin as <- <-.
  - exists KNot, UNot, (getpos d), c1. split; [|auto 8]. unfold tget. rewrite (Hsk (C "!") eq_refl eq_refl).
    pose proof S2 as S3. apply spells_head in S2. destruct S2 as [p [t' [Hd _]]].
    rewrite Hd, get2_not, <- Hd. rewrite (p_spells 1 (T "!") d c1) by auto. cbn [bind]. rewrite Hp. cbn [ch_is]. rewrite R2, R3.
    unfold tok_fix. rewrite (seek_spells (length (T "!")) (T "!") d c1) by auto. reflexivity.
  - exists KMinus, UMinus, (getpos d), c1. split; [|auto 8]. unfold tget. rewrite (Hsk (C "-") eq_refl eq_refl).
    pose proof S2 as S3. apply spells_head in S2. destruct S2 as [p [t' [Hd _]]].
    rewrite Hd, get2_minus, <- Hd. rewrite (p_spells 1 (T "-") d c1) by auto. cbn [bind]. rewrite Hp. cbn [ch_is]. rewrite R1.
    unfold tok_fix. rewrite (seek_spells (length (T "-")) (T "-") d c1) by auto. reflexivity.
  - exists KPlus, UPlus, (getpos d), c1. split; [|auto 8]. unfold tget. rewrite (Hsk (C "+") eq_refl eq_refl).
    apply spells_head in S2. destruct S2 as [p [t' [-> S2]]]. cbn [spells] in S2. subst t'. reflexivity.
Qed.

Lemma reads_unary e sp t p a sa w : In (sp, t) prefix_ops -> good_head sa -> reads e 7 a sa -> gap w ->
  reads e 7 (NUnary p t (Some a)) (sp ++ w ++ sa).
Proof.
  intros Hin Hh Ha Hwg. split; [lia|]. intros f ws c k Hw Sp Wf Hf Hs.
  destruct (prefix_tget _ _ _ _ _ _ _ Hin Hw Hwg Hh Sp Wf) as [kd [o [q [c1 [Ht [Ho [Hu [Sa [L Wf1]]]]]]]]].
  destruct (reads_all e 7 a sa ltac:(lia) Ha f w c1 k Hwg Sa Wf1 ltac:(lia)) as [v [E Sh]].
  { exact Hs. }
  exists (VUn o q v), (S (clen k)). split; [lia|]. split; [|rewrite <- Hu; apply shows_un; auto].
  change (at_ f 7 c) with (expr7_loop (parse_expr1 f) (S (clen c)) c). cbn [expr7_loop]. rewrite Ht. cbn [bind tk tp].
  change (at_ f 7 c1) with (expr7_loop (parse_expr1 f) (S (clen c1)) c1) in E.
  pose proof (expr7_more _ _ _ _ E (clen c) ltac:(lia)) as E2.
  destruct kd; try discriminate; cbn in Ho; injection Ho as <-; rewrite E2; reflexivity.
Qed.

(** ** Operands and what follows them *)

Lemma reads_lit e p k s : lit_text k s -> (s = T "@" -> e = true) -> good_head s -> reads e 9 (NBasicLit p k s) s.
Proof.
  intros Hl Hb Hh. split; [reflexivity|]. intros f ws c k' Hw Sp Wf Hf Hs. apply spells_split in Sp. destruct Sp as [d [S1 Sp]].
  destruct Hs as [G1 [G2 _]]. cbn [rightmost] in G2.
  destruct (lit_expr9 (parse_expr1 f) e k s p c d k' Hl Hb) as [v [E Sh]]; auto.
  - eapply skip_gap; eauto. eapply head_nonwhite; eauto.
  - eapply spells_wf; eauto.
  - exists v, (S (clen k')). split; [lia|]. split; auto.
Qed.

Lemma reads_name e p s : name_text s -> good_head s -> reads e 9 (NIdent p s) s.
Proof.
  intros Hn Hh. split; [reflexivity|]. intros f ws c k Hw Sp Wf Hf Hs. apply spells_split in Sp. destruct Sp as [d [S1 Sp]].
  destruct Hs as [G1 [G2 _]]. cbn [rightmost] in G2.
  destruct (name_expr9 (parse_expr1 f) s p c d k Hn) as [v [E Sh]]; auto.
  - eapply skip_gap; eauto. eapply head_nonwhite; eauto.
  - eapply spells_wf; eauto.
  - exists v, (S (clen k)). split; [lia|]. split; auto.
Qed.

Lemma reads_paren e p a sa w1 w2 : reads false 1 a sa -> gap w1 -> gap w2 ->
  reads e 9 (NParen p (Some a)) (T "(" ++ w1 ++ sa ++ w2 ++ T ")").
Proof.
  intros Ha Hw1 Hw2. split; [reflexivity|]. intros f ws c k Hw Sp Wf Hf Hs.
  rewrite app_assoc in Sp. apply spells_split in Sp. destruct Sp as [c1 [S1 Sp]].
  rewrite app_assoc in Sp. apply spells_split in Sp. destruct Sp as [c2 [Sa Sp]].
  destruct (punct_get (C "(") KPOpen ws c c1 eq_refl Hw S1) as [q Ht].
  destruct (punct_get (C ")") KPClose w2 c2 k eq_refl Hw2 Sp) as [q2 Ht2].
  pose proof (spells_wf _ _ _ S1 Wf) as Wf1. assert (L : (clen c1 < clen c)%nat) by (eapply spells_lt; eauto; destruct ws; discriminate).
  destruct (reads1 false a sa Ha f w1 c1 c2 Hw1 Sa Wf1 ltac:(lia)) as [v [E Sh]].
  { apply (stop_punct _ (C ")") KPClose w2 c2 k); [reflexivity|auto|auto|apply follows_any; cbn; auto 12|intros; cbn; lia]. }
  exists (VParen q v), (S (clen k)). split; [lia|]. split; [|apply shows_paren; auto].
  change (at_ f 9 c) with (parse_expr9 (parse_expr1 f) c). unfold parse_expr9. rewrite Ht. cbn [bind tk tp].
  rewrite E. cbn [bind]. rewrite Ht2. reflexivity.
Qed.

(** Comma-separated expressions before the closing bracket [x]. *)
Definition reads_items (xs : list node) (s : text) : Prop := forall x kx f c d,
  In (x, kx) [(C ")", KPClose); (C "]", KSqClose)] -> spells (s ++ [x]) c d -> wf c -> (clen c < f)%nat ->
  exists vs, Forall2 shows vs xs /\
    match xs with
    | [] => exists q, tget c = Ok (mkTok kx [x] q, d)
    | _ => (exists t c1, tget c = Ok (t, c1) /\ opens (tk t) = true) /\
           forall n, (clen c < n)%nat ->
             match kx with
             | KPClose => exists t, rlist_loop (parse_expr1 f) n c = Ok (vs, t, d)
             | _ => list_loop (parse_expr1 f) n c = Ok (vs, d)
             end
    end.

Lemma closing_punct x kx : In (x, kx) [(C ")", KPClose); (C "]", KSqClose)] -> punct x = Some kx /\ (forall n w, follows n w [x]) /\ forall b o, (lev b o kx < 1)%nat.
Proof. cbn [In]. intros [H|[H|[]]]; injection H as <- <-; repeat split; intros; try (apply follows_any; cbn; auto 12); cbn; lia. Qed.

Lemma items_nil w : gap w -> reads_items [] w.
Proof.
  intros Hw x kx f c d Hx Sp Wf Hf. exists []. split; [constructor|]. destruct (closing_punct _ _ Hx) as [Hp _].
  eapply punct_get; eauto.
Qed.

Lemma items_last n s w1 w2 : reads false 1 n s -> gap w1 -> gap w2 -> reads_items [n] (w1 ++ s ++ w2).
Proof.
  intros Hn Hw1 Hw2 x kx f c d Hx Sp Wf Hf. destruct (closing_punct _ _ Hx) as [Hp [Hm Hl]].
  rewrite app_assoc, <- app_assoc in Sp. apply spells_split in Sp. destruct Sp as [k [Sn Sp]].
  destruct (punct_get x kx w2 k d Hp Hw2 Sp) as [q Ht].
  destruct (reads1 false n s Hn f w1 c k Hw1 Sn Wf Hf) as [v [E Sh]].
  { apply (stop_punct _ x kx w2 k d); auto. }
  exists [v]. split; [constructor; auto|]. split; [eapply first1; eauto|].
  intros m Hm'. destruct m as [|m]; [lia|]. cbn [In] in Hx. destruct Hx as [Hx|[Hx|[]]]; injection Hx as <- <-.
  - cbn [rlist_loop]. rewrite E. cbn [bind]. rewrite Ht. cbn [bind tk]. eauto.
  - cbn [list_loop]. rewrite E. cbn [bind]. rewrite Ht. reflexivity.
Qed.

Lemma items_cons n s xs sx w1 w2 : reads false 1 n s -> gap w1 -> gap w2 -> reads_items xs sx ->
  reads_items (n :: xs) (w1 ++ s ++ w2 ++ T "," ++ sx).
Proof.
  intros Hn Hw1 Hw2 Hxs x kx f c d Hx Sp Wf Hf.
  assert (Sp' : spells ((w1 ++ s) ++ (w2 ++ T ",") ++ sx ++ [x]) c d) by (rewrite <- !app_assoc in *; exact Sp). clear Sp. rename Sp' into Sp.
  apply spells_split in Sp. destruct Sp as [k [Sn Sp]]. apply spells_split in Sp. destruct Sp as [k2 [Sc Sp]].
  destruct (punct_get (C ",") KComma w2 k k2 eq_refl Hw2 Sc) as [q Ht].
  destruct (reads1 false n s Hn f w1 c k Hw1 Sn Wf Hf) as [v [E Sh]].
  { apply (stop_punct _ (C ",") KComma w2 k k2); [reflexivity|auto|auto|apply follows_any; cbn; auto 12|intros; cbn; lia]. }
  pose proof (spells_le _ _ _ Sn) as L1. assert (L2 : (clen k2 < clen k)%nat) by (eapply spells_lt; eauto; destruct w2; discriminate).
  pose proof (spells_wf _ _ _ Sn Wf) as Wf1. pose proof (spells_wf _ _ _ Sc Wf1) as Wf2.
  destruct (Hxs x kx f k2 d Hx Sp Wf2 ltac:(lia)) as [vs [Hvs Hrest]].
  exists (v :: vs). split; [constructor; auto|]. split; [eapply first1; eauto|].
  intros m Hm. destruct m as [|m]; [lia|]. destruct xs as [|x1 xs].
  - inversion Hvs; subst vs. destruct Hrest as [q2 Ht2]. cbn [In] in Hx. destruct Hx as [Hx|[Hx|[]]]; injection Hx as <- <-.
    + cbn [rlist_loop]. rewrite E. cbn [bind]. rewrite Ht. cbn [bind tk]. rewrite Ht2. cbn [bind tk]. eexists. reflexivity.
    + cbn [list_loop]. rewrite E. cbn [bind]. rewrite Ht. cbn [bind tk]. rewrite Ht2. reflexivity.
  - destruct Hrest as [[t1 [c1 [Ht1 Ho]]] Hrest]. specialize (Hrest m ltac:(lia)).
    cbn [In] in Hx. destruct Hx as [Hx|[Hx|[]]]; injection Hx as <- <-.
    + destruct Hrest as [t2 Hrest]. cbn [rlist_loop]. rewrite E. cbn [bind]. rewrite Ht. cbn [bind tk]. rewrite Ht1. cbn [bind].
      rewrite (opens_p _ Ho).
      rewrite Hrest. cbn [bind]. eexists. reflexivity.
    + cbn [list_loop]. rewrite E. cbn [bind]. rewrite Ht. cbn [bind tk]. rewrite Ht1. cbn [bind].
      rewrite (opens_sq _ Ho).
      rewrite Hrest. reflexivity.
Qed.

Lemma reads_list e p xs sx : reads_items xs sx -> reads e 9 (NList p xs) (T "[" ++ sx ++ T "]").
Proof.
  intros Hxs. split; [reflexivity|]. intros f ws c k Hw Sp Wf Hf Hs. rewrite app_assoc in Sp. apply spells_split in Sp. destruct Sp as [c1 [S1 Sp]].
  destruct (punct_get (C "[") KSqOpen ws c c1 eq_refl Hw S1) as [q Ht].
  pose proof (spells_wf _ _ _ S1 Wf) as Wf1. assert (L : (clen c1 < clen c)%nat) by (eapply spells_lt; eauto; destruct ws; discriminate).
  destruct (Hxs (C "]") KSqClose f c1 k (or_intror (or_introl eq_refl)) Sp Wf1 ltac:(lia)) as [vs [Hvs Hr]].
  exists (VList q vs), (S (clen k)). split; [lia|]. split; [|apply shows_list; auto].
  change (at_ f 9 c) with (parse_expr9 (parse_expr1 f) c). unfold parse_expr9. rewrite Ht. cbn [bind tk tp]. unfold parse_list.
  destruct xs as [|x xs].
  - inversion Hvs; subst vs. destruct Hr as [q2 Ht2]. rewrite Ht2. reflexivity.
  - destruct Hr as [[t1 [c2 [Ht1 Ho]]] Hr]. rewrite Ht1. cbn [bind].
    rewrite (opens_sq _ Ho).
    rewrite (Hr (S (clen c1))) by lia. reflexivity.
Qed.

(** The argument list of a call, after the parenthesis. *)
Lemma items_rlist xs sx f c d : reads_items xs sx -> (length xs <= 20)%nat -> spells (sx ++ T ")") c d -> wf c -> (clen c < f)%nat ->
  exists vs, parse_rlist (parse_expr1 f) c = Ok (vs, d) /\ Forall2 shows vs xs.
Proof.
  intros Hxs Hlen Sp Wf Hf.
  destruct (Hxs (C ")") KPClose f c d (or_introl eq_refl) Sp Wf Hf) as [vs [Hvs Hr]]. exists vs. split; auto.
  unfold parse_rlist. destruct xs as [|x xs].
  - inversion Hvs; subst vs. destruct Hr as [q2 Ht2]. rewrite Ht2. reflexivity.
  - destruct Hr as [[t1 [c2 [Ht1 Ho]]] Hr]. rewrite Ht1. cbn [bind].
    rewrite (opens_p _ Ho).
    destruct (Hr (S (clen c)) ltac:(lia)) as [t2 E]. rewrite E. cbn [bind].
    assert (Hl : length vs = length (x :: xs)) by (clear - Hvs; induction Hvs; cbn; auto).
    rewrite Hl. replace (Nat.ltb MAX_FUNC_ARGS (length (x :: xs))) with false; auto.
    symmetry. apply Nat.ltb_ge. exact Hlen.
Qed.

(** A level 8 suffix: given the operand up to [k1], one more round of the loop. *)
Lemma reads_suffix e a sa n rest :
  reads false 8 a sa -> rightmost n = n ->
  (forall f k1 k, spells rest k1 k -> wf k1 -> (clen k1 <= f)%nat -> stop e n 9 k ->
     stop false a 9 k1 /\ (clen k < clen k1)%nat /\
     forall v m, shows v a -> exists v', shows v' n /\ expr8_loop (parse_expr1 f) (S m) v k1 = expr8_loop (parse_expr1 f) m v' k) ->
  reads e 8 n (sa ++ rest).
Proof.
  intros Ha Hrn Hrest. split; [auto|]. rewrite Hrn. intros f ws c k Hw Sp Wf Hf Hs. rewrite app_assoc in Sp. apply spells_split in Sp. destruct Sp as [k1 [Sa Sp]].
  pose proof (spells_wf _ _ _ Sa Wf) as Wf1. pose proof (spells_le _ _ _ Sa) as L1.
  destruct (Hrest f k1 k Sp Wf1 ltac:(lia) Hs) as [Hst [L2 Hstep]].
  destruct (proj2 Ha f ws c k1 Hw Sa Wf Hf) as [v [m [Hm [E Sh]]]]; [rewrite (proj1 Ha) by lia; exact Hst|]. destruct m as [|m]; [lia|].
  destruct (Hstep v m Sh) as [v' [Sh' E']]. exists v', m. split; [lia|]. split; auto.
  rewrite E. unfold loop_at. cbn [bin_at Nat.eqb]. exact E'.
Qed.

Lemma reads_call e p a xs sa sx w : reads false 8 a sa -> reads_items xs sx -> (length xs <= 20)%nat -> gap w ->
  reads e 8 (NCall (Some a) p xs) (sa ++ w ++ T "(" ++ sx ++ T ")").
Proof.
  intros Ha Hxs Hlen Hw. apply reads_suffix with (a := a); [auto|reflexivity|]. intros f k1 k Sp Wf Hf Hs.
  rewrite app_assoc in Sp. apply spells_split in Sp. destruct Sp as [c1 [S1 Sp]].
  destruct (punct_get (C "(") KPOpen w k1 c1 eq_refl Hw S1) as [q Ht].
  assert (L1 : (clen c1 < clen k1)%nat) by (eapply spells_lt; eauto; destruct w; discriminate).
  pose proof (spells_le _ _ _ Sp) as L2. pose proof (spells_wf _ _ _ S1 Wf) as Wf1.
  split; [|split; [lia|]].
  { rewrite <- (proj1 Ha ltac:(lia)). apply (stop_punct _ (C "(") KPOpen w k1 c1); [reflexivity|auto|auto|apply follows_any; cbn; auto 12|intros; cbn; lia]. }
  intros v m Sh. destruct (items_rlist xs sx f c1 k Hxs Hlen Sp Wf1 ltac:(lia)) as [vs [E Hvs]].
  exists (VCall q v vs). split; [apply shows_call; auto|]. cbn [expr8_loop]. rewrite Ht. cbn [bind tk tp]. rewrite E. reflexivity.
Qed.

Lemma arrow_tget w c d : gap w -> spells (w ++ T "->") c d -> wf c -> (exists q, tget c = Ok (mkTok KArrow (T "->") q, d)) /\
  forall n, stop false n 9 c.
Proof.
  intros Hw Sp Wf. pose proof Sp as Sp0. apply spells_split in Sp. destruct Sp as [m [Sw Sx]]. pose proof (spells_wf _ _ _ Sw Wf) as Wfm.
  apply spells_head in Sx. destruct Sx as [p [t [-> Sx]]]. apply spells_head in Sx. destruct Sx as [p1 [t1 [-> Sx]]].
  cbn [spells] in Sx. subst t1.
  assert (Ht : tget c = Ok (mkTok KArrow (T "->") p, d)).
  { unfold tget. rewrite (skip_gap w c _ Hw Sw) by reflexivity. reflexivity. }
  split; [eauto|]. intros n. split; [discriminate|]. split.
  - destruct w as [|r w]; [cbn [spells] in Sw; subst c; cbn [peek ch_of_cell fits]; rewrite sticks_not; auto; cbn; auto 12|].
    apply (gap_fits n (r :: w) (T "->") c d); auto. discriminate.
  - do 2 eexists. split; [exact Ht|]. cbn. lia.
Qed.

Lemma reads_method e p a f xs sa sf sx w1 w2 w3 :
  reads false 8 a sa -> reads false 9 f sf -> reads_items xs sx -> (length xs <= 20)%nat -> gap w1 -> gap w2 -> gap w3 ->
  reads e 8 (NMethod (Some a) (Some f) p xs) (sa ++ w1 ++ T "->" ++ w2 ++ sf ++ w3 ++ T "(" ++ sx ++ T ")").
Proof.
  intros Ha Hfn Hxs Hlen Hw1 Hw2 Hw3. apply reads_suffix with (a := a); [auto|reflexivity|]. intros fu k1 k Sp Wf Hf Hs.
  rewrite app_assoc in Sp. apply spells_split in Sp. destruct Sp as [c1 [S1 Sp]].
  rewrite app_assoc in Sp. apply spells_split in Sp. destruct Sp as [c2 [S2 Sp]].
  rewrite app_assoc in Sp. apply spells_split in Sp. destruct Sp as [c3 [S3 Sp]].
  pose proof (spells_wf _ _ _ S1 Wf) as Wf1. pose proof (spells_wf _ _ _ S2 Wf1) as Wf2. pose proof (spells_wf _ _ _ S3 Wf2) as Wf3.
  assert (L1 : (clen c1 < clen k1)%nat) by (eapply spells_lt; eauto; destruct w1; discriminate).
  pose proof (spells_le _ _ _ S2). pose proof (spells_le _ _ _ S3). pose proof (spells_le _ _ _ Sp).
  destruct (arrow_tget w1 k1 c1 Hw1 S1 Wf) as [[q Ht] Hst].
  split; [apply Hst|]. split; [lia|]. intros v m Sh.
  destruct (punct_get (C "(") KPOpen w3 c2 c3 eq_refl Hw3 S3) as [q3 Ht3].
  destruct (reads_all false 9 f sf ltac:(lia) Hfn fu w2 c1 c2 Hw2 S2 Wf1 ltac:(lia)) as [v2 [E2 Sh2]].
  { apply (stop_punct _ (C "(") KPOpen w3 c2 c3); [reflexivity|auto|auto|apply follows_any; cbn; auto 12|intros; cbn; lia]. }
  destruct (items_rlist xs sx fu c3 k Hxs Hlen Sp Wf3 ltac:(lia)) as [vs [E Hvs]].
  exists (VMethod q3 v (VCall q3 v2 vs)). split; [apply shows_method; auto|].
  cbn [expr8_loop]. rewrite Ht. cbn [bind tk tp]. change (parse_expr9 (parse_expr1 fu) c1) with (at_ fu 9 c1). rewrite E2. cbn [bind].
  rewrite Ht3. cbn [bind tk tp tok_eqb]. rewrite E. reflexivity.
Qed.

Lemma reads_dot e p q a sa s : reads false 8 a sa -> has_members a = true -> some_of iswordc s ->
  reads e 8 (NDot (Some a) p (Some (NIdent q s))) (sa ++ T "." ++ s).
Proof.
  intros Ha Hm [Hs0 Hsw]. apply reads_suffix with (a := a); [auto|reflexivity|]. intros f k1 k Sp Wf Hf Hs.
  apply spells_head in Sp. destruct Sp as [p0 [t [-> Sp]]]. change ([] ++ s) with s in Sp.
  destruct Hs as [G1 [G2 G3]].
  assert (Hnc : ch_in isnamec (peek k) = false) by exact (fits_in (NDot (Some a) p (Some (NIdent q s))) isnamec _ (fun r H => H) G2).
  assert (Hwc : ch_in iswordc (peek k) = false) by (eapply cls_in; [|exact Hnc]; unfold isnamec; intros r ->; reflexivity).
  assert (Hw : ch_in iswordc (peek t) = true /\ ch_is (peek t) (C ".") = false).
  { destruct s as [|r s]; [congruence|]. apply spells_head in Sp. destruct Sp as [p1 [t1 [-> _]]]. cbn [forallb] in Hsw.
    apply andb_true_iff in Hsw. destruct Hsw as [Hr _]. cbn [peek ch_of_cell ch_in ch_is]. split; auto.
    destruct (r =? C ".") eqn:E; auto. apply N.eqb_eq in E. subst. discriminate. }
  destruct Hw as [Hw1 Hw2].
  assert (Ht : tget (Cons (R (C ".")) p0 t) = Ok (mkTok KDot (T ".") p0, t)).
  { change (tget (Cons (R (C ".")) p0 t)) with (let* x := p_ 1 (Cons (R (C ".")) p0 t) in
      if ch_is x (C ".") then let* y := p_ 2 (Cons (R (C ".")) p0 t) in
        if ch_is y (C ".") then tok_fix KDotDotDot (T "...") (Cons (R (C ".")) p0 t) else tok_fix KDotDot (T "..") (Cons (R (C ".")) p0 t)
      else tok_fix KDot (T ".") (Cons (R (C ".")) p0 t)).
    rewrite p_S, p_0 by auto. cbn [bind]. rewrite Hw2. reflexivity. }
  split; [|split].
  - split; [discriminate|]. split; [cbn [peek ch_of_cell fits]; destruct a; try discriminate Hm; try reflexivity; cbn; rewrite andb_false_r; reflexivity|]. do 2 eexists. split; [exact Ht|]. cbn [tk lev]. destruct dot_op; lia.
  - apply spells_le in Sp. cbn [clen]. lia.
  - intros v m Sh. exists (VDot p0 v (VIdent (getpos t) s)). split; [apply shows_dot; auto|].
    cbn [expr8_loop]. rewrite Ht. cbn [bind tk tp peek ch_of_cell ch_in]. change (iswhite (C ".")) with false. cbv iota.
    unfold parse_dot. rewrite (shows_members _ _ Sh), Hm. cbn [negb]. rewrite p_0. cbn [bind]. rewrite Hw1. cbn [negb].
    unfold read_word. rewrite (read_while_exact iswordc s t k) by auto. rewrite p_0. cbn [bind].
    rewrite Hnc. reflexivity.
Qed.

Lemma sq_open c d : spells (T "[") c d ->
  (exists q, tget c = Ok (mkTok KSqOpen (T "[") q, d)) /\ ch_in iswhite (peek c) = false /\ forall n, stop false (rightmost n) 9 c.
Proof.
  intros Sp. pose proof Sp as S0. apply spells_head in S0. destruct S0 as [p [t [-> _]]].
  split; [exact (punct_get (C "[") KSqOpen [] _ d eq_refl eq_refl Sp)|]. split; auto.
  intros n. apply (stop_punct n (C "[") KSqOpen [] _ d); [reflexivity|reflexivity|exact Sp|apply follows_any; cbn; auto 12|intros []; cbn; lia].
Qed.

Lemma reads_subscript e p a b sa sb w1 w2 : reads false 8 a sa -> reads false 1 b sb -> gap w1 -> gap w2 ->
  reads e 8 (NSubscript p (Some a) (Some b)) (sa ++ T "[" ++ w1 ++ sb ++ w2 ++ T "]").
Proof.
  intros Ha Hb Hw1 Hw2. apply reads_suffix with (a := a); [auto|reflexivity|]. intros f k1 k Sp Wf Hf Hs.
  apply spells_split in Sp. destruct Sp as [c1 [S1 Sp]]. rewrite app_assoc in Sp. apply spells_split in Sp. destruct Sp as [c2 [Sb Sp]].
  destruct (sq_open _ _ S1) as [[q Ht] [Hwh Hst]]. pose proof (spells_wf _ _ _ S1 Wf) as Wf1.
  pose proof (spells_le _ _ _ Sb). pose proof (spells_le _ _ _ Sp).
  assert (L1 : (clen c1 < clen k1)%nat) by (eapply spells_lt; eauto; discriminate).
  split; [rewrite <- (proj1 Ha ltac:(lia)); auto|]. split; [lia|]. intros v m Sh.
  destruct (punct_get (C "]") KSqClose w2 c2 k eq_refl Hw2 Sp) as [q2 Ht2].
  destruct (reads1 false b sb Hb f w1 c1 c2 Hw1 Sb Wf1 ltac:(lia)) as [v2 [E Sh2]].
  { apply (stop_punct _ (C "]") KSqClose w2 c2 k); [reflexivity|auto|auto|apply follows_any; cbn; auto 12|intros; cbn; lia]. }
  exists (VSubscript q v v2). split; [apply shows_subscript; auto|]. cbn [expr8_loop]. rewrite Hwh, Ht. cbn [bind tk tp].
  unfold parse_subscript. destruct (first1 _ _ _ E) as [t1 [d1 [Ht1 Ho]]]. rewrite Ht1. cbn [bind].
  rewrite (opens_c _ Ho).
  rewrite E. cbn [bind]. rewrite Ht2. reflexivity.
Qed.

(** A bound of a slice before the character [x]. *)
Definition reads_bound (fst : bool) (o : option node) (s : text) : Prop := forall f c d,
  spells (s ++ (if fst then T ":" else T "]")) c d -> wf c -> (clen c < f)%nat ->
  let kx := if fst then KColon else KSqClose in
  match o with
  | None => exists q, tget c = Ok (mkTok kx (if fst then T ":" else T "]") q, d)
  | Some n => exists v k q, shows v n /\ parse_expr1 f c = Ok (v, k) /\
                tget k = Ok (mkTok kx (if fst then T ":" else T "]") q, d)
  end.

Lemma bound_none fst w : gap w -> reads_bound fst None w.
Proof. intros Hw f c d Sp Wf Hf. destruct fst; eapply punct_get; eauto; reflexivity. Qed.

Lemma bound_some (fst : bool) n s w1 w2 : reads false 1 n s -> gap w1 -> gap w2 -> (fst = true -> follows n w2 (T ":")) ->
  reads_bound fst (Some n) (w1 ++ s ++ w2).
Proof.
  intros Hn Hw1 Hw2 Hfo f c d Sp Wf Hf. rewrite app_assoc, <- app_assoc in Sp. apply spells_split in Sp. destruct Sp as [k [Sn Sp]].
  assert (Hst : stop false (rightmost n) 1 k).
  { destruct fst.
    - apply (stop_punct _ (C ":") KColon w2 k d); [reflexivity|auto|auto|apply Hfo; auto|intros; cbn; lia].
    - apply (stop_punct _ (C "]") KSqClose w2 k d); [reflexivity|auto|auto|apply follows_any; cbn; auto 12|intros; cbn; lia]. }
  destruct (reads1 false n s Hn f w1 c k Hw1 Sn Wf Hf Hst) as [v [E Sh]].
  assert (Ht : exists q, tget k = Ok (mkTok (if fst then KColon else KSqClose) (if fst then T ":" else T "]") q, d)).
  { destruct fst; eapply punct_get; eauto; reflexivity. }
  destruct Ht as [q Ht]. exists v, k, q. auto.
Qed.

Lemma bound_tail f y sy q lft r0 r0n c d : reads_bound false y sy -> spells (sy ++ T "]") c d -> wf c -> (clen c < f)%nat ->
  shows_opt r0 r0n -> exists y', shows_opt y' y /\ slice_tail (parse_expr1 f) q lft r0 c = Ok (VSlice q lft r0 y', d).
Proof.
  intros Hy Sp Wf Hf _. specialize (Hy f c d Sp Wf Hf). cbn zeta in Hy. unfold slice_tail, tpeek. destruct y as [n|].
  - destruct Hy as [v [k [q1 [Sh [E Ht]]]]]. exists (Some v). split; auto.
    destruct (first1 _ _ _ E) as [t1 [d1 [Ht1 Ho]]]. rewrite Ht1. cbn [bind].
    rewrite (opens_sq _ Ho).
    cbn [negb]. rewrite E. cbn [bind]. rewrite Ht. reflexivity.
  - destruct Hy as [q1 Ht]. exists None. split; [exact I|]. rewrite Ht. cbn. rewrite Ht. reflexivity.
Qed.

Lemma reads_slice e p a x y sa sx sy : reads false 8 a sa -> reads_bound true x sx -> reads_bound false y sy ->
  reads e 8 (NSlice (Some a) p x y) (sa ++ T "[" ++ sx ++ T ":" ++ sy ++ T "]").
Proof.
  intros Ha Hx Hy. apply reads_suffix with (a := a); [auto|reflexivity|]. intros f k1 k Sp Wf Hf Hs.
  apply spells_split in Sp. destruct Sp as [c1 [S1 Sp]]. rewrite app_assoc in Sp. apply spells_split in Sp. destruct Sp as [c2 [Sx Sp]].
  destruct (sq_open _ _ S1) as [[q Ht] [Hwh Hst]]. pose proof (spells_wf _ _ _ S1 Wf) as Wf1. pose proof (spells_wf _ _ _ Sx Wf1) as Wf2.
  pose proof (spells_le _ _ _ Sx). pose proof (spells_le _ _ _ Sp).
  assert (L1 : (clen c1 < clen k1)%nat) by (eapply spells_lt; eauto; discriminate).
  split; [rewrite <- (proj1 Ha ltac:(lia)); auto|]. split; [lia|]. intros v m Sh.
  specialize (Hx f c1 c2 Sx Wf1 ltac:(lia)). cbn zeta in Hx. destruct x as [n|].
  - destruct Hx as [v2 [k2 [q2 [Sh2 [E Ht2]]]]].
    destruct (bound_tail f y sy q v (Some v2) (Some n) c2 k Hy Sp Wf2 ltac:(lia) Sh2) as [y' [Shy Ey]].
    exists (VSlice q v (Some v2) y'). split; [apply shows_slice; auto|]. cbn [expr8_loop]. rewrite Hwh, Ht. cbn [bind tk tp].
    unfold parse_subscript. destruct (first1 _ _ _ E) as [t1 [d1 [Ht1 Ho]]]. rewrite Ht1. cbn [bind].
    rewrite (opens_c _ Ho).
    rewrite E. cbn [bind]. rewrite Ht2. cbn [bind tk]. change (tok_eqb KColon KColon) with true. cbv iota. rewrite Ey. reflexivity.
  - destruct Hx as [q2 Ht2].
    destruct (bound_tail f y sy q v None None c2 k Hy Sp Wf2 ltac:(lia) I) as [y' [Shy Ey]].
    exists (VSlice q v None y'). split; [apply shows_slice; cbn; auto|]. cbn [expr8_loop]. rewrite Hwh, Ht. cbn [bind tk tp].
    unfold parse_subscript. rewrite Ht2. cbn [bind tk]. change (tok_eqb KColon KColon) with true. cbv iota. rewrite Ey. reflexivity.
Qed.

