(** Outcomes of the command parser. *)
From Coq Require Import Lia ZifyBool ZifyNat ZifyN.
From Verif Require Import Base CharClass Reader Vnode Tokenizer ExprParser Cursor Grammar Script Fault TokSafe ExprSafe.

(** An outcome that is a value satisfying [P], or a ParseError located at a place of the
    text [B] whose message is true of it; neither another panic nor the model's fuel
    exhaustion. *)
Definition located (B : cursor) (e : parse_error) : Prop :=
  exists s, sfx s B /\ e = Err_ (e_msg e) (getpos s) /\ cmd_fault B s (e_msg e).
Definition safe {A} (B : cursor) (P : A -> Prop) (o : outcome A) : Prop :=
  match o with
  | Ok a => P a
  | PErr e => located B e
  | Panic _ | OutOfFuel => False
  end.

Lemma located_here B s msg : sfx s B -> cmd_fault B s msg -> located B (Err_ msg (getpos s)).
Proof. intros H. exists s. split; auto. Qed.

Lemma safe_raise {A} B (P : A -> Prop) msg s : sfx s B -> cmd_fault B s msg -> safe B P (raise msg (getpos s)).
Proof. intros H. apply located_here; auto. Qed.

Lemma safe_bind {A A'} B (P : A -> Prop) (Q : A' -> Prop) m k :
  safe B P m -> (forall a, P a -> safe B Q (k a)) -> safe B Q (bind m k).
Proof. destruct m; cbn; auto; contradiction. Qed.

Lemma safe_imp {A} B (P Q : A -> Prop) o :
  (forall a, P a -> Q a) -> safe B P o -> safe B Q o.
Proof. destruct o; cbn; auto. Qed.

Lemma safe_ok {A} B (P : A -> Prop) a : P a -> safe B P (Ok a).
Proof. auto. Qed.

Lemma safe_of_esafe {A} B (P : A -> Prop) o : esafe B (argument_due B) P o -> safe B P o.
Proof. destruct o; cbn; auto. intros [s [H1 [H2 H3]]]. exists s. split; [auto|split; [auto|]]. constructor; auto. Qed.

Lemma ends_safe {A} B (P P' : A -> Prop) (Q : cursor -> text -> Prop) o : ends P Q o -> (forall a, P a -> P' a) ->
  (forall s x, Q s x -> sfx s B /\ cmd_fault B s x) -> safe B P' o.
Proof. destruct o; cbn; auto. intros [s [E H]] _ HQ. destruct (HQ _ _ H). exists s. auto. Qed.

Ltac safe_b :=
  match goal with
  | |- safe _ _ (bind (Ok _) _) => cbn [bind]
  | |- safe _ _ (bind _ _) => eapply safe_bind
  end.

Lemma tget_safe B c : wf B -> sfx c B -> safe B (fun '(t, c') => token_at c t c') (tget c).
Proof. intros. apply safe_of_esafe, tget_esafe; auto. Qed.
Lemma tpeek_safe B c : wf B -> sfx c B -> safe B (fun t => exists c', token_at c t c') (tpeek c).
Proof. intros. apply safe_of_esafe, tpeek_esafe; auto. Qed.
Lemma parse_expr1_safe B : wf B -> forall f c, sfx c B -> operand_due B (argument_due B) c -> (clen c < f)%nat ->
  safe B (is_expr_at 1 c) (parse_expr1 f c).
Proof. intros. apply safe_of_esafe, parse_expr1_esafe; auto. Qed.
Lemma parse_expr_safe B c : wf B -> sfx c B -> operand_due B (argument_due B) c -> safe B (is_expr_at 1 c) (parse_expr c).
Proof. intros. apply safe_of_esafe, parse_expr_esafe; auto. Qed.
Lemma parse_lvalue_safe B c : wf B -> sfx c B -> target_due B (argument_due B) c -> safe B (is_lval_at c) (parse_lvalue_ c).
Proof. intros. apply safe_of_esafe, parse_lvalue_esafe; auto. Qed.
Lemma unexpected_safe B {A} (P : A -> Prop) c t c' ks :
  token_at c t c' -> sfx c B -> (forall d, blank c d -> wanted B (argument_due B) d ks) -> ~ In (tk t) ks ->
  safe B P (unexpected_token t).
Proof. intros. eapply safe_of_esafe, unexpected_esafe; eauto. Qed.
Lemma raise_tok_safe B {A} (P : A -> Prop) msg c t c' :
  token_at c t c' -> sfx c B -> (forall d, blank c d -> stands d t -> cmd_fault B d msg) ->
  safe B P (raise msg (tp t)).
Proof.
  intros Ht Hs Hw. destruct (stands_of _ _ _ Ht) as [d [Hb [Hp Hd]]].
  rewrite Hp. apply safe_raise; auto. eapply sfx_trans; eauto. apply blank_sfx; auto.
Qed.
