(** Specification vocabulary for positions in a text, and its basic lemmas. Nothing
    here mentions the parser. *)
From Coq Require Import Lia ZifyBool ZifyNat ZifyN.
From Verif Require Import Base CharClass Reader.

(** * Specification *)

(** [sfx a c]: [a] is reached from [c] by moving forward. *)
Inductive sfx : cursor -> cursor -> Prop :=
| sfx_refl c : sfx c c
| sfx_cons a x p t : sfx a t -> sfx a (Cons x p t).

(** The cells of a buffer are numbered, and the last one is a line end. *)
Fixpoint wf (c : cursor) : Prop :=
  match c with
  | Eof _ => True
  | Cons x p t => p_i (getpos t) = p_i p + 1 /\ match t with Eof _ => x = EOL | Cons _ _ _ => wf t end
  end.

(** [spells s a b]: the characters between [a] and [b] are exactly [s], all of them on
    one logical line. *)
Fixpoint spells (s : text) (a b : cursor) : Prop :=
  match s with
  | [] => a = b
  | r :: s' => match a with Cons (R r') _ t => r' = r /\ spells s' t b | _ => False end
  end.

(** [c] is at a line end or at the end of the text. *)
Definition at_end (c : cursor) : Prop := peek1 c = None.

(** * Lemmas *)

Lemma sfx_trans a b c : sfx a b -> sfx b c -> sfx a c.
Proof. intros H1 H2; induction H2; auto. constructor; auto. Qed.

Lemma sfx_clen a c : sfx a c -> (clen a <= clen c)%nat.
Proof. induction 1; cbn [clen]; lia. Qed.

Lemma sfx_tail a x p t : sfx (Cons x p t) a -> sfx t a.
Proof. intros H; eapply sfx_trans; eauto. constructor; constructor. Qed.

Lemma sfx_same a c : sfx a c -> clen a = clen c -> a = c.
Proof.
  destruct 1; auto. intros H1. apply sfx_clen in H. cbn [clen] in H1. lia.
Qed.

Lemma sfx_total a b c : sfx a c -> sfx b c -> sfx a b \/ sfx b a.
Proof.
  induction 1 as [|a x p t H IH]; intros Hb; auto.
  inversion Hb; subst; auto. left; constructor; auto.
Qed.

Lemma sfx_le a b c : sfx a c -> sfx b c -> (clen a <= clen b)%nat -> sfx a b.
Proof.
  intros Ha Hb Hl. destruct (sfx_total _ _ _ Ha Hb) as [H|H]; auto.
  pose proof (sfx_clen _ _ H).
  replace b with a by (symmetry; apply sfx_same; auto; lia). constructor.
Qed.

Lemma wf_sfx a c : sfx a c -> wf c -> wf a.
Proof.
  induction 1 as [|a x p t H IH]; auto. intros Hw. apply IH.
  cbn [wf] in Hw. destruct t; [exact I|]. apply Hw.
Qed.

Lemma wf_next r p t : wf (Cons (R r) p t) -> is_eof t = false.
Proof. cbn [wf]. destruct t; cbn; auto. intros [_ H]; discriminate. Qed.

Lemma wf_tail x p t : wf (Cons x p t) -> wf t.
Proof. intros H; eapply wf_sfx; eauto. constructor; constructor. Qed.

Lemma spells_sfx s a b : spells s a b -> sfx b a.
Proof.
  revert a; induction s as [|r s IH]; cbn [spells]; intros a H.
  - subst; constructor.
  - destruct a as [|[|r'] p t]; try contradiction. destruct H as [_ H].
    constructor; auto.
Qed.

Lemma spells_clen s a b : spells s a b -> clen a = (length s + clen b)%nat.
Proof.
  revert a; induction s as [|r s IH]; cbn [spells length]; intros a H.
  - subst; auto.
  - destruct a as [|[|r'] p t]; try contradiction. destruct H as [_ H].
    apply IH in H. cbn [clen]. lia.
Qed.

Lemma spells_app s1 s2 a b c : spells s1 a b -> spells s2 b c -> spells (s1 ++ s2) a c.
Proof.
  revert a; induction s1 as [|r s IH]; cbn [spells app]; intros a H H2.
  - subst; auto.
  - destruct a as [|[|r'] p t]; try contradiction. destruct H as [H1 H]. auto.
Qed.

Lemma spells_fun s a b c : spells s a b -> spells s a c -> b = c.
Proof.
  revert a; induction s as [|r s IH]; cbn [spells]; intros a H H2.
  - congruence.
  - destruct a as [|[|r'] p t]; try contradiction. destruct H, H2; eauto.
Qed.

Lemma spells_inj s1 s2 a b : spells s1 a b -> spells s2 a b -> s1 = s2.
Proof.
  revert s2 a; induction s1 as [|r s IH]; intros s2 a H H2.
  - cbn in H; subst. apply spells_clen in H2. destruct s2; auto. cbn [length] in H2. lia.
  - destruct s2 as [|r2 s2].
    + cbn in H2; subst. apply spells_clen in H. cbn [length] in H. lia.
    + cbn [spells] in *. destruct a as [|[|r'] p t]; try contradiction.
      destruct H as [H0 H], H2 as [H1 H2]. f_equal; [congruence|]. eauto.
Qed.

Lemma spells_not_eof s a b : wf a -> s <> [] -> spells s a b -> is_eof b = false.
Proof.
  revert a; induction s as [|r s IH]; intros a Hw Hn H; [congruence|].
  cbn [spells] in H. destruct a as [|[|r'] p t]; try contradiction. destruct H as [_ H].
  destruct s as [|r2 s2].
  - cbn in H; subst. eapply wf_next; eauto.
  - apply (IH t); auto; [eapply wf_tail; eauto | congruence].
Qed.

Lemma spells_getstr_n s a b : spells s a b -> getstr_n (length s) a = s.
Proof.
  revert a; induction s as [|r s IH]; cbn [spells length getstr_n]; intros a H; auto.
  destruct a as [|[|r'] p t]; try contradiction. destruct H as [H1 H]. subst. f_equal; auto.
Qed.

Lemma spells_getstr s a b : spells s a b -> getstr a b = s.
Proof.
  intros H. unfold getstr. rewrite (spells_clen _ _ _ H).
  replace (length s + clen b - clen b)%nat with (length s) by lia.
  eapply spells_getstr_n; eauto.
Qed.

Lemma getn_spells n c s c' : getn n c = (s, c') -> spells s c c'.
Proof.
  revert c s c'; induction n; cbn [getn]; intros c s c' H.
  - inversion H; cbn; auto.
  - destruct c as [|[|r'] p t]; try (inversion H; cbn; auto; fail).
    destruct (getn n t) as [s0 c0] eqn:E. inversion H; subst. cbn [spells]. eauto.
Qed.

Lemma getn_len n c s c' : getn n c = (s, c') -> (length s <= n)%nat.
Proof.
  revert c s c'; induction n; cbn [getn]; intros c s c' H.
  - inversion H; cbn; auto.
  - destruct c as [|[|r'] p t]; try (inversion H; cbn; lia).
    destruct (getn n t) as [s0 c0] eqn:E. inversion H; subst. cbn [length].
    apply IHn in E. lia.
Qed.

Lemma getn_all_spells c s c' : getn_all c = (s, c') -> spells s c c' /\ at_end c'.
Proof.
  revert s c'; induction c as [|x p t IH]; cbn [getn_all]; intros s c' H.
  - inversion H; subst. cbn; split; reflexivity.
  - destruct x.
    + inversion H; subst. cbn; split; reflexivity.
    + destruct (getn_all t) as [s0 c0] eqn:E. inversion H; subst. cbn [spells].
      destruct (IH _ _ eq_refl); auto.
Qed.

Lemma read_while_spells f c s c' : read_while f c = (s, c') ->
  spells s c c' /\ forallb f s = true /\ (forall r, peek1 c' = Some r -> f r = false).
Proof.
  revert s c'; induction c as [|x p t IH]; cbn [read_while]; intros s c' H.
  - inversion H; subst. cbn; repeat split; discriminate.
  - destruct x.
    + inversion H; subst. cbn; repeat split; discriminate.
    + destruct (f r) eqn:E.
      * destruct (read_while f t) as [s0 c0] eqn:E2. inversion H; subst. cbn [spells forallb].
        destruct (IH _ _ eq_refl) as [H1 [H2 H3]]. rewrite E, H2. auto.
      * inversion H; subst. cbn; repeat split. intros r' Hr; inversion Hr; congruence.
Qed.

Lemma skip_while_spells f c :
  exists s, spells s c (skip_while f c) /\ forallb f s = true /\
            (forall r, peek1 (skip_while f c) = Some r -> f r = false).
Proof.
  unfold skip_while. destruct (read_while f c) as [s c'] eqn:E. exists s.
  apply read_while_spells in E. exact E.
Qed.

Lemma skip_while_sfx f c : sfx (skip_while f c) c.
Proof. destruct (skip_while_spells f c) as [s [H _]]. eapply spells_sfx; eauto. Qed.

Lemma p_0 c : p_ 0 c = Ok (peek c).
Proof. destruct c as [|[] ? ?]; reflexivity. Qed.

Lemma p_S k r p t : wf (Cons (R r) p t) -> p_ (S k) (Cons (R r) p t) = p_ k t.
Proof.
  intros H. apply wf_next in H. destruct t; [discriminate|]. reflexivity.
Qed.

Lemma p_spells k s c c' : wf c -> spells s c c' -> length s = k -> p_ k c = Ok (peek c').
Proof.
  intros Hw H <-. revert c Hw H; induction s as [|r s IH]; cbn [length spells]; intros c Hw H.
  - subst; apply p_0.
  - destruct c as [|[|r'] p t]; try contradiction. destruct H as [_ H].
    rewrite p_S by auto. apply IH; auto. eapply wf_tail; eauto.
Qed.

Lemma seek_spells k s c c' : spells s c c' -> length s = k -> seek_cur k c = Ok c'.
Proof.
  intros H <-. revert c H; induction s as [|r s IH]; cbn [length spells seek_cur]; intros c H.
  - congruence.
  - destruct c as [|[|r'] p t]; try contradiction. destruct H as [_ H]. auto.
Qed.

Lemma ch_is_peek c r : ch_is (peek c) r = true -> exists p t, c = Cons (R r) p t.
Proof.
  destruct c as [|[|r'] p t]; cbn; try discriminate. intros H. apply N.eqb_eq in H. subst. eauto.
Qed.

Lemma ch_is_true x r : ch_is x r = true -> x = CR r.
Proof. destruct x; cbn; try discriminate. intros H. apply N.eqb_eq in H. congruence. Qed.

Lemma ch_in_peek f c : ch_in f (peek c) = true -> exists r p t, c = Cons (R r) p t /\ f r = true.
Proof.
  destruct c as [|[|r'] p t]; cbn; try discriminate. eauto.
Qed.

Lemma text_eqb_eq a b : text_eqb a b = true <-> a = b.
Proof.
  revert b; induction a as [|x a IH]; destruct b as [|y b]; cbn [text_eqb]; split;
    try discriminate; auto.
  - rewrite andb_true_iff, N.eqb_eq, IH. intros [-> ->]; auto.
  - intros H; inversion H; subst. rewrite andb_true_iff, N.eqb_eq, IH. auto.
Qed.

Lemma mem_text_In a l : mem_text a l = true <-> In a l.
Proof.
  induction l as [|b l IH]; cbn [mem_text In].
  - split; [discriminate|contradiction].
  - rewrite orb_true_iff, IH, text_eqb_eq. split; intros [H|H]; auto.
Qed.

(** The buffer built from a list of lines ends with a line end. *)
Lemma put_first_wf t i l c o k : (forall j, wf (k j)) -> (forall j, is_eof (k j) = false) -> (forall j, p_i (getpos (k j)) = j) ->
  wf (put_first t i l c o k) /\ is_eof (put_first t i l c o k) = false /\ p_i (getpos (put_first t i l c o k)) = i.
Proof.
  intros Hk He Hi. revert i c o; induction t as [|r t IH]; cbn [put_first]; intros; auto.
  split; auto. destruct (IH (i + 1) (c + Utf8.rune_len r) (o + Utf8.rune_len r)) as [H1 [H2 H3]].
  cbn [wf]. split; [rewrite H3; reflexivity|]. destruct (put_first t _ _ _ _ _); [discriminate|auto].
Qed.

Lemma put_cont_wf t i l c k : (forall j, wf (k j)) -> (forall j, is_eof (k j) = false) -> (forall j, p_i (getpos (k j)) = j) ->
  wf (put_cont t i l c k) /\ is_eof (put_cont t i l c k) = false /\ p_i (getpos (put_cont t i l c k)) = i.
Proof.
  intros Hk He Hi. revert i c; induction t as [|r t IH]; cbn [put_cont]; intros; auto.
  split; auto. destruct (IH (i + 1) (c + Utf8.rune_len r)) as [H1 [H2 H3]].
  cbn [wf]. split; [rewrite H3; reflexivity|]. destruct (put_cont t _ _ _ _); [discriminate|auto].
Qed.

Lemma build_more_wf ls i l c o : wf (build_more ls i l c o) /\ is_eof (build_more ls i l c o) = false /\
  p_i (getpos (build_more ls i l c o)) = i.
Proof.
  revert i l c o; induction ls as [|x ls IH]; cbn [build_more]; intros.
  - cbn. auto.
  - destruct (re_continuation x).
    + destruct (skip_backslash x 0) as [t c']. apply put_cont_wf; intros; apply IH.
    + split; auto.
      match goal with |- wf (Cons EOL _ ?t) => assert (H : wf t /\ is_eof t = false /\ p_i (getpos t) = i + 1) end.
      { apply put_first_wf; intros; apply IH. }
      cbn [wf]. destruct H as [H1 [H2 H3]]. split; [exact H3|]. destruct (put_first _ _ _ _ _ _); auto.
Qed.

Lemma new_reader_wf ls : wf (new_reader ls).
Proof.
  destruct ls; cbn [new_reader]. exact I. apply put_first_wf; intros; apply build_more_wf.
Qed.
