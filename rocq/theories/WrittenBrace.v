(** Written dictionaries, lambdas and names with braces are read back, and with them
    every written expression. *)
From Coq Require Import Lia ZifyBool ZifyNat ZifyN.
From Verif Require Import Base CharClass Reader Vnode Tokenizer ExprParser Token Ast Export
  Cursor Grammar TokSafe Join Written WrittenProof Lookahead.

(** * Dictionaries *)

Definition reads_pair (lit fst : bool) (k v : node) (s : text) : Prop := forall x kx f c d,
  In (x, kx) [(C ",", KComma); (C "}", KCClose)] -> spells (s ++ [x]) c d -> wf c -> (clen c < f)%nat ->
  exists v1 c1 t c2 v2 c3 q, shows v1 k /\ shows v2 v /\
    (if lit then parse_dict_literal_key c else parse_expr1 f c) = Ok (v1, c1) /\
    tget c1 = Ok (t, c2) /\ tk t = KColon /\ parse_expr1 f c2 = Ok (v2, c3) /\ tget c3 = Ok (mkTok kx [x] q, d) /\
    (exists t0 c0, tget c = Ok (t0, c0) /\ tok_eqb (tk t0) KCClose = false) /\ (fst = true -> ahead c).

Lemma pair_punct x kx : In (x, kx) [(C ",", KComma); (C "}", KCClose)] ->
  punct x = Some kx /\ (forall n w, follows n w [x]) /\ forall b o, (lev b o kx < 1)%nat.
Proof. cbn [In]. intros [H|[H|[]]]; injection H as <- <-; repeat split; intros; try (apply follows_any; cbn; auto 12); cbn; lia. Qed.

Lemma pair_expr (fst : bool) k v sk sv w1 w2 w3 w4 : reads false 1 k sk -> reads false 1 v sv -> good_head sk ->
  gap w1 -> gap w2 -> gap w3 -> gap w4 -> follows k w2 (T ":") -> (fst = true -> brace_head k sk) ->
  reads_pair false fst k v (w1 ++ sk ++ w2 ++ T ":" ++ w3 ++ sv ++ w4).
Proof.
  intros Hk Hv Hh Hw1 Hw2 Hw3 Hw4 Hf Hb x kx f c d Hx Sp Wf Hlen. destruct (pair_punct _ _ Hx) as [Hp [Hfo Hl]].
  assert (Sp' : spells ((w1 ++ sk) ++ (w2 ++ T ":") ++ (w3 ++ sv) ++ w4 ++ [x]) c d) by (rewrite <- !app_assoc in *; exact Sp). clear Sp. rename Sp' into Sp.
  apply spells_split in Sp. destruct Sp as [c1 [S1 Sp]]. apply spells_split in Sp. destruct Sp as [c2 [S2 Sp]].
  apply spells_split in Sp. destruct Sp as [c3 [S3 Sp]].
  pose proof (spells_wf _ _ _ S1 Wf) as Wf1. pose proof (spells_wf _ _ _ S2 Wf1) as Wf2.
  pose proof (spells_le _ _ _ S1). pose proof (spells_le _ _ _ S2).
  destruct (punct_get (C ":") KColon w2 c1 c2 eq_refl Hw2 S2) as [q1 Ht1].
  destruct (punct_get x kx w4 c3 d Hp Hw4 Sp) as [q2 Ht2].
  destruct (reads1 false k sk Hk f w1 c c1 Hw1 S1 Wf Hlen) as [v1 [E1 Sh1]].
  { apply (stop_punct _ (C ":") KColon w2 c1 c2); auto. }
  destruct (reads1 false v sv Hv f w3 c2 c3 Hw3 S3 Wf2 ltac:(lia)) as [v2 [E2 Sh2]].
  { apply (stop_punct _ x kx w4 c3 d); auto. }
  exists v1, c1, (mkTok KColon [C ":"] q1), c2, v2, c3, q2. do 7 (split; [auto|]).
  destruct (first1 _ _ _ E1) as [t0 [c0 [Ht0 Ho]]]. split; [exists t0, c0; split; auto; apply opens_cc; auto|].
  intros Hfst. apply (ahead_expr f c v1 c1 k sk w1 w2 (C ":") c2); cbn; auto.
Qed.

Lemma litkey_first w s w2 c k : gap w -> litkey_text s -> no_blob s -> gap w2 -> spells (w ++ s ++ w2 ++ T ":") c k -> wf c ->
  exists t c1, tget c = Ok (t, c1) /\ tok_eqb (tk t) KCClose = false.
Proof.
  intros Hw [Hne Hs] Hnb Hw2 Sp Wf. apply spells_split in Sp. destruct Sp as [d [S1 Sp]].
  change (forallb is_litkey s = true) in Hs.
  destruct s as [|r s0] eqn:Es; [congruence|]. rewrite <- Es in *. pose proof Sp as Sp0. rewrite Es in Sp0. cbn [app] in Sp0. apply spells_head in Sp0.
  destruct Sp0 as [p [t [Hd Sp0]]]. pose proof (spells_wf _ _ _ S1 Wf) as Wfd.
  assert (Hr : is_litkey r = true) by (rewrite Es in Hs; cbn [forallb] in Hs; apply andb_true_iff in Hs; apply Hs).
  assert (Hrw : ch_in iswhite (peek d) = false).
  { rewrite Hd. cbn [peek ch_of_cell ch_in]. clear - Hr. unfold is_litkey, iswhite, isalnum, isalpha, isupper, islower, isdigit, between in *. cbn in *. lia. }
  assert (Hsk : skip_white c = d) by (apply (skip_gap w); auto).
  assert (Hskd : skip_white d = d) by (apply (skip_gap []); auto; reflexivity).
  assert (Hnbs : nb s) by (intros z s' Hz E; apply (Hnb (T "0") z s'); cbn [In]; auto).
  destruct (key_tok s w2 d k Hs Hnbs Hw2 Sp Wfd) as [t1 [d1 [Ht1 Hk1]]]. exists t1, d1. split.
  - unfold tget in *. rewrite Hsk. rewrite Hskd in Ht1. exact Ht1.
  - destruct (tok_eqb (tk t1) KCClose) eqn:E; auto. apply tok_eqb_true in E; [|cbn; auto]. rewrite E in Hk1. unfold key_kind in Hk1.
    destruct Hk1 as [H|[[o [m H]]|[H|[H|H]]]]; discriminate.
Qed.

Lemma pair_word (fst : bool) p v sk sv w1 w2 w3 w4 : litkey_text sk -> reads false 1 v sv ->
  gap w1 -> gap w2 -> gap w3 -> gap w4 ->
  no_blob sk -> (fst = true -> isnamec1 (hd 0 sk) = true -> w2 ++ w3 <> []) ->
  reads_pair true fst (NBasicLit p TSTRING (T "'" ++ sk ++ T "'")) v (w1 ++ sk ++ w2 ++ T ":" ++ w3 ++ sv ++ w4).
Proof.
  intros Hk Hv Hw1 Hw2 Hw3 Hw4 Hnb Hb x kx f c d Hx Sp Wf Hlen. destruct (pair_punct _ _ Hx) as [Hp [Hfo Hl]].
  assert (Sp' : spells ((w1 ++ sk) ++ (w2 ++ T ":") ++ (w3 ++ sv) ++ w4 ++ [x]) c d) by (rewrite <- !app_assoc in *; exact Sp). clear Sp. rename Sp' into Sp.
  apply spells_split in Sp. destruct Sp as [c1 [S1 Sp]]. apply spells_split in Sp. destruct Sp as [c2 [S2 Sp]].
  apply spells_split in Sp. destruct Sp as [c3 [S3 Sp]].
  pose proof (spells_wf _ _ _ S1 Wf) as Wf1. pose proof (spells_wf _ _ _ S2 Wf1) as Wf2.
  pose proof (spells_le _ _ _ S1). pose proof (spells_le _ _ _ S2).
  assert (S12 : spells (w1 ++ sk ++ w2 ++ T ":") c c2) by (rewrite app_assoc; eapply spells_app; eauto).
  destruct (punct_get (C ":") KColon w2 c1 c2 eq_refl Hw2 S2) as [q1 Ht1].
  destruct (punct_get x kx w4 c3 d Hp Hw4 Sp) as [q2 Ht2].
  destruct (litkey_parse w1 sk w2 c c1 c2 Hw1 Hk Hw2 S1 S2) as [q0 E1].
  destruct (reads1 false v sv Hv f w3 c2 c3 Hw3 S3 Wf2 ltac:(lia)) as [v2 [E2 Sh2]].
  { apply (stop_punct _ x kx w4 c3 d); auto. }
  exists (VLit LString q0 (T "'" ++ sk ++ T "'")), c1, (mkTok KColon [C ":"] q1), c2, v2, c3, q2.
  split; [apply (shows_lit LString)|]. do 6 (split; [auto|]). split; [exact (litkey_first w1 sk w2 c c2 Hw1 Hk Hnb Hw2 S12 Wf)|].
  intros Hfst. refine (proj2 (litkey_ahead w1 sk w2 c c2 Hw1 Hk Hnb Hw2 S12 Wf _ _)); [|eapply first1; eauto].
  intros Hn ->. specialize (Hb Hfst Hn). cbn [app] in Hb.
  destruct (gap_fits (NIdent (mkAPos 0 0 0 []) []) w3 sv c2 c3 Hw3 Hb S3) as [_ H']. exact H'.
Qed.

Definition pair_shows (v : vnode * vnode) (n : option node * option node) : Prop :=
  exists k x, n = (Some k, Some x) /\ shows (fst v) k /\ shows (snd v) x.

Definition reads_pairs (lit fst : bool) (kvs : list (option node * option node)) (s : text) : Prop := forall f c d,
  spells (s ++ T "}") c d -> wf c -> (clen c < f)%nat ->
  exists vs, Forall2 pair_shows vs kvs /\
    match kvs with
    | [] => exists q, tget c = Ok (mkTok KCClose (T "}") q, d)
    | _ => (exists t c1, tget c = Ok (t, c1) /\ tok_eqb (tk t) KCClose = false) /\ (fst = true -> ahead c) /\
           forall n empty start, (clen c < n)%nat -> dict_loop (parse_expr1 f) n lit empty start c = Ok (inl vs, d)
    end.

Lemma pairs_nil lit fst w : gap w -> reads_pairs lit fst [] w.
Proof.
  intros Hw f c d Sp Wf Hf. exists []. split; [constructor|]. exact (punct_get (C "}") KCClose w c d eq_refl Hw Sp).
Qed.

Lemma pairs_last lit fst k v s : reads_pair lit fst k v s -> reads_pairs lit fst [(Some k, Some v)] s.
Proof.
  intros Hp f c d Sp Wf Hf.
  destruct (Hp (C "}") KCClose f c d (or_intror (or_introl eq_refl)) Sp Wf Hf) as [v1 [c1 [t [c2 [v2 [c3 [q [Sh1 [Sh2 [E1 [Ht [Hk [E2 [Ht2 [H0 Ha]]]]]]]]]]]]]]].
  exists [(v1, v2)]. split; [constructor; [exists k, v; auto|constructor]|]. split; auto. split; auto.
  intros n empty start Hn. destruct n as [|n]; [lia|]. cbn [dict_loop]. rewrite E1. cbn [bind]. rewrite Ht. cbn [bind]. rewrite Hk.
  rewrite E2. cbn [bind]. rewrite Ht2. reflexivity.
Qed.

Lemma pairs_cons lit fst k v s kvs sx : reads_pair lit fst k v s -> reads_pairs lit false kvs sx ->
  reads_pairs lit fst ((Some k, Some v) :: kvs) (s ++ T "," ++ sx).
Proof.
  intros Hp Hr f c d Sp Wf Hf.
  assert (Sp' : spells ((s ++ T ",") ++ sx ++ T "}") c d) by (rewrite <- !app_assoc in *; exact Sp). clear Sp. rename Sp' into Sp.
  apply spells_split in Sp. destruct Sp as [k2 [S1 Sp]]. pose proof (spells_wf _ _ _ S1 Wf) as Wf1.
  assert (L : (clen k2 < clen c)%nat) by (eapply spells_lt; eauto; destruct s; discriminate).
  destruct (Hp (C ",") KComma f c k2 (or_introl eq_refl) S1 Wf Hf) as [v1 [c1 [t [c2 [v2 [c3 [q [Sh1 [Sh2 [E1 [Ht [Hk [E2 [Ht2 [H0 Ha]]]]]]]]]]]]]]].
  destruct (Hr f k2 d Sp Wf1 ltac:(lia)) as [vs [Hvs Hrest]].
  exists ((v1, v2) :: vs). split; [constructor; [exists k, v; auto|auto]|]. split; auto. split; auto.
  intros n empty start Hn. destruct n as [|n]; [lia|]. cbn [dict_loop]. rewrite E1. cbn [bind]. rewrite Ht. cbn [bind]. rewrite Hk.
  rewrite E2. cbn [bind]. rewrite Ht2. cbn [bind tk]. destruct kvs as [|x kvs].
  - inversion Hvs; subst vs. destruct Hrest as [q2 Ht3]. rewrite Ht3. reflexivity.
  - destruct Hrest as [[t3 [c5 [Ht3 Hne]]] [_ Hrest]]. rewrite Ht3. cbn [bind]. rewrite Hne. rewrite Hrest by lia. reflexivity.
Qed.

(** An opening brace, plain or of a literal dictionary. *)
Lemma brace_get (lit : bool) ws c c1 : gap ws -> spells (ws ++ (if lit then T "#{" else T "{")) c c1 -> wf c ->
  exists q u, tget c = Ok (mkTok (if lit then KLitCOpen else KCOpen) u q, c1).
Proof.
  intros Hw Sp Wf. destruct lit.
  - apply spells_split in Sp. destruct Sp as [d [S1 Sp]]. pose proof (spells_wf _ _ _ S1 Wf) as Wfd. unfold tget.
    pose proof Sp as Sp0. apply spells_head in Sp. destruct Sp as [p [t [-> Sp]]]. apply spells_head in Sp. destruct Sp as [p1 [t1 [-> Sp]]].
    cbn [spells] in Sp. subst t1. rewrite (skip_gap ws c _ Hw S1) by reflexivity. do 2 eexists. reflexivity.
  - destruct (punct_get (C "{") KCOpen ws c c1 eq_refl Hw Sp) as [q Ht]. eauto.
Qed.

Lemma brace_expr9 f (lit : bool) q u c c1 : tget c = Ok (mkTok (if lit then KLitCOpen else KCOpen) u q, c1) ->
  at_ f 9 c = parse_brace (parse_expr1 f) lit q c c1.
Proof. intros Ht. change (at_ f 9 c) with (parse_expr9 (parse_expr1 f) c). unfold parse_expr9. rewrite Ht. destruct lit; reflexivity. Qed.

Lemma reads_dict e lit p kvs sx : reads_pairs lit true kvs sx ->
  reads e 9 (NDict p kvs) ((if lit then T "#{" else T "{") ++ sx ++ T "}").
Proof.
  intros Hr. split; [reflexivity|]. intros f ws c k Hw Sp Wf Hf Hs. rewrite app_assoc in Sp. apply spells_split in Sp. destruct Sp as [c1 [S1 Sp]].
  destruct (brace_get lit ws c c1 Hw S1 Wf) as [q [u Ht]].
  pose proof (spells_wf _ _ _ S1 Wf) as Wf1. assert (L : (clen c1 < clen c)%nat) by (eapply spells_lt; eauto; destruct ws, lit; discriminate).
  destruct (Hr f c1 k Sp Wf1 ltac:(lia)) as [vs [Hvs Hrest]].
  exists (VDict q vs), (S (clen k)). split; [lia|]. split; [|apply shows_dict; exact Hvs].
  rewrite (brace_expr9 _ _ _ _ _ _ Ht). change (loop_at f 9 (S (clen k)) (VDict q vs) k) with (@Ok (vnode * cursor) (VDict q vs, k)). destruct kvs as [|x kvs].
  - inversion Hvs; subst vs. destruct Hrest as [q2 Ht2]. destruct Hs as [_ [_ [t3 [d3 [Ht3 _]]]]].
    unfold parse_brace, parse_dict, tpeek. rewrite Ht2. cbn [bind tk]. rewrite Ht3. cbn [bind].
    destruct (tok_eqb (tk t3) KArrow || tok_eqb (tk t3) KComma); reflexivity.
  - destruct Hrest as [[t1 [c2 [Ht1 Hne]]] [Ha Hrest]]. rewrite (ahead_dict _ _ _ _ _ (Ha eq_refl)).
    unfold parse_dict. rewrite Ht1. cbn [bind]. rewrite Hne. rewrite Hrest by lia. reflexivity.
Qed.

(** * Lambdas *)

(** A parameter name is one token. *)
Lemma arg_token w s c d k : isargname s = true -> ~ In s [T "is"; T "isnot"] -> gap w -> spells w c d -> spells s d k -> wf d ->
  ch_in isnamec (peek k) = false -> exists q, tget c = Ok (mkTok KIdent s q, k).
Proof.
  intros Ha Hno Hw S1 Sp Wf Hk. destruct s as [|r s]; [discriminate|]. cbn [isargname] in Ha. apply andb_true_iff in Ha. destruct Ha as [Hr Hs].
  change (isnamec1 r = true) in Hr. pose proof Sp as Sp0. apply spells_head in Sp. destruct Sp as [p [t [-> Sp]]].
  assert (Hnw : forall x, iswordc x = true -> isnamec x = true) by (intros x Hx; unfold isnamec; rewrite Hx; reflexivity).
  assert (Hrw : iswordc r = true) by (unfold iswordc, isalnum; unfold isnamec1, iswordc1 in Hr; apply orb_true_iff in Hr; destruct Hr as [->| ->]; rewrite ?orb_true_r; reflexivity).
  assert (Hall : forallb iswordc (r :: s) = true) by (cbn [forallb]; rewrite Hrw; exact Hs).
  unfold tget. rewrite (skip_gap w c _ Hw S1) by (cbn [peek ch_of_cell ch_in]; apply (namec1_not r Hr)).
  destruct (word_cases r p t Wf Hr) as [tt [dd [Hg Hc]]]. rewrite Hg.
  destruct Hc as [Hi|[o [m [u [e [_ [Hu [_ [Spu [Hnc _]]]]]]]]]].
  - unfold get2_ident, read_name in Hi.
    rewrite (read_while_exact isnamec (r :: s) (Cons (R r) p t) k Sp0 (forallb_imp _ _ _ Hnw Hall) Hk) in Hi.
    injection Hi as <- <-. eexists. reflexivity.
  - exfalso. assert (Hkw : ch_in iswordc (peek k) = false) by (destruct (peek k); auto; cbn [ch_in] in *; destruct (iswordc r0) eqn:E; auto; rewrite (Hnw _ E) in Hk; discriminate).
    pose proof (read_while_exact iswordc (r :: s) (Cons (R r) p t) k Sp0 Hall Hkw) as E1.
    assert (Hu' : forallb iswordc u = true) by (cbn [In] in Hu; destruct Hu as [<-|[<-|[]]]; reflexivity).
    rewrite (read_while_exact iswordc u (Cons (R r) p t) e Spu Hu' Hnc) in E1. injection E1 as -> _. auto.
Qed.

Lemma dots_token w c d k : gap w -> spells w c d -> spells (T "...") d k -> wf d -> exists q, tget c = Ok (mkTok KDotDotDot (T "...") q, k).
Proof.
  intros Hw S1 Sp Wf. apply spells_head in Sp. destruct Sp as [p [t [-> Sp]]]. apply spells_head in Sp. destruct Sp as [p1 [t1 [-> Sp]]].
  apply spells_head in Sp. destruct Sp as [p2 [t2 [-> Sp]]]. cbn [spells] in Sp. subst t2.
  unfold tget. rewrite (skip_gap w c _ Hw S1) by reflexivity. eexists. reflexivity.
Qed.

Definition reads_params (ps : list node) (s : text) : Prop := forall named c d,
  NoDup (map param_name ps) -> (forall x, In x (map param_name ps) -> ~ In x named) ->
  spells (s ++ T "->") c d -> wf c ->
  exists t c1 vs, tget c = Ok (t, c1) /\ (clen c1 < clen c)%nat /\ Forall2 same_name vs ps /\
    (tk t = KArrow \/ ~ In (tk t) [KSQuote; KDQuote] /\ exists t2 c2, tget c1 = Ok (t2, c2) /\ In (tk t2) [KArrow; KComma]) /\
    forall n, (clen c1 < n)%nat -> lambda_loop n named t c1 = Ok (Some (vs, d)).

Lemma params_nil w : gap w -> reads_params [] w.
Proof.
  intros Hw named c d _ _ Sp Wf. destruct (arrow_tget w c d Hw Sp Wf) as [[q Ht] _].
  exists (mkTok KArrow (T "->") q), d, []. split; auto. split; [eapply spells_lt; eauto; destruct w; discriminate|].
  split; [constructor|]. split; [auto|]. intros n Hn. destruct n as [|n]; [lia|]. reflexivity.
Qed.

Lemma params_rest p w1 w2 : gap w1 -> gap w2 -> reads_params [NIdent p (T "...")] (w1 ++ T "..." ++ w2).
Proof.
  intros Hw1 Hw2 named c d _ _ Sp Wf.
  assert (Sp' : spells (w1 ++ T "..." ++ (w2 ++ T "->")) c d) by (rewrite <- !app_assoc in *; exact Sp). clear Sp. rename Sp' into Sp.
  apply spells_split in Sp. destruct Sp as [c0 [S1 Sp]]. apply spells_split in Sp. destruct Sp as [c1 [S2 Sp]].
  pose proof (spells_wf _ _ _ S1 Wf) as Wf0. pose proof (spells_wf _ _ _ S2 Wf0) as Wf1.
  destruct (dots_token w1 c c0 c1 Hw1 S1 S2 Wf0) as [q Ht]. destruct (arrow_tget w2 c1 d Hw2 Sp Wf1) as [[q2 Ht2] _].
  pose proof (spells_le _ _ _ S1). assert (clen c1 < clen c0)%nat by (eapply spells_lt; eauto; discriminate).
  exists (mkTok KDotDotDot (T "...") q), c1, [VIdent q (T "...")]. split; auto. split; [lia|].
  split; [constructor; [exists q, p, (T "..."); auto|constructor]|].
  split; [right; split; [cbn; intuition discriminate|]; eexists _, d; split; [exact Ht2|cbn; auto]|].
  intros n Hn. destruct n as [|n]; [lia|]. cbn [lambda_loop tk]. rewrite Ht2. reflexivity.
Qed.

Lemma mem_not x l : ~ In x l -> mem_text x l = false.
Proof. intros H. destruct (mem_text x l) eqn:E; auto. apply mem_text_In in E. contradiction. Qed.

Lemma params_last p s w1 w2 : isargname s = true -> ~ In s [T "is"; T "isnot"] -> gap w1 -> gap w2 ->
  reads_params [NIdent p s] (w1 ++ s ++ w2).
Proof.
  intros Ha Hno Hw1 Hw2 named c d _ Hd Sp Wf.
  assert (Sp' : spells (w1 ++ s ++ (w2 ++ T "->")) c d) by (rewrite <- !app_assoc in *; exact Sp). clear Sp. rename Sp' into Sp.
  apply spells_split in Sp. destruct Sp as [c0 [S1 Sp]]. apply spells_split in Sp. destruct Sp as [c1 [S2 Sp]].
  pose proof (spells_wf _ _ _ S1 Wf) as Wf0. pose proof (spells_wf _ _ _ S2 Wf0) as Wf1.
  destruct (arrow_tget w2 c1 d Hw2 Sp Wf1) as [[q2 Ht2] _].
  assert (Hk : ch_in isnamec (peek c1) = false).
  { destruct w2 as [|r w2]; [apply spells_head in Sp; destruct Sp as [? [? [-> _]]]; reflexivity|].
    apply spells_head in Sp. destruct Sp as [? [? [-> _]]]. unfold gap in Hw2. cbn [forallb] in Hw2. apply andb_true_iff in Hw2. destruct Hw2 as [Hr _].
    cbn [peek ch_of_cell ch_in]. clear - Hr. unfold iswhite, isnamec, iswordc, isalnum, isalpha, isupper, islower, isdigit, between in *. cbn in *. lia. }
  destruct (arg_token w1 s c c0 c1 Ha Hno Hw1 S1 S2 Wf0 Hk) as [q Ht].
  pose proof (spells_le _ _ _ S1). assert (clen c1 < clen c0)%nat by (eapply spells_lt; eauto; destruct s; discriminate).
  exists (mkTok KIdent s q), c1, [VIdent q s]. split; auto. split; [lia|].
  split; [constructor; [exists q, p, s; auto|constructor]|].
  split; [right; split; [cbn; intuition discriminate|]; eexists _, d; split; [exact Ht2|cbn; auto]|].
  intros n Hn. destruct n as [|n]; [lia|]. cbn [lambda_loop tk tv tp]. rewrite Ha. cbn [negb].
  rewrite mem_not by (apply Hd; cbn; auto). rewrite p_0. cbn [bind]. unfold tpeek. rewrite Ht2. cbn [bind tk].
  destruct (ch_in iswhite (peek c1)); reflexivity.
Qed.

Lemma params_cons p s w1 ps sp : isargname s = true -> ~ In s [T "is"; T "isnot"] -> gap w1 -> reads_params ps sp ->
  reads_params (NIdent p s :: ps) (w1 ++ s ++ T "," ++ sp).
Proof.
  intros Ha Hno Hw1 Hps named c d Hnd Hd Sp Wf. cbn [map param_name] in Hnd. apply NoDup_cons_iff in Hnd. destruct Hnd as [Hn1 Hn2].
  assert (Sp' : spells (w1 ++ s ++ T "," ++ (sp ++ T "->")) c d) by (rewrite <- !app_assoc in *; exact Sp). clear Sp. rename Sp' into Sp.
  apply spells_split in Sp. destruct Sp as [c0 [S1 Sp]]. apply spells_split in Sp. destruct Sp as [c1 [S2 Sp]].
  apply spells_split in Sp. destruct Sp as [c2 [S3 Sp]].
  pose proof (spells_wf _ _ _ S1 Wf) as Wf0. pose proof (spells_wf _ _ _ S2 Wf0) as Wf1. pose proof (spells_wf _ _ _ S3 Wf1) as Wf2.
  destruct (punct_get (C ",") KComma [] c1 c2 eq_refl eq_refl S3) as [q2 Ht2].
  assert (Hp : peek c1 = CR (C ",")) by (apply spells_head in S3; destruct S3 as [? [? [-> _]]]; reflexivity).
  destruct (arg_token w1 s c c0 c1 Ha Hno Hw1 S1 S2 Wf0) as [q Ht]; [rewrite Hp; reflexivity|].
  pose proof (spells_le _ _ _ S1). assert (clen c1 < clen c0)%nat by (eapply spells_lt; eauto; destruct s; discriminate).
  assert (clen c2 < clen c1)%nat by (eapply spells_lt; eauto; discriminate).
  destruct (Hps (s :: named) c2 d Hn2) as [t3 [c3 [vs [Ht3 [L3 [Hvs [_ Hl]]]]]]]; auto.
  { intros x Hx [<-|Hx']; [auto|]. apply (Hd x); cbn [map In]; auto. }
  exists (mkTok KIdent s q), c1, (VIdent q s :: vs). split; auto. split; [lia|].
  split; [constructor; [exists q, p, s; auto|exact Hvs]|].
  split; [right; split; [cbn; intuition discriminate|]; eexists _, c2; split; [exact Ht2|cbn; auto]|].
  intros n Hn. destruct n as [|n]; [lia|]. cbn [lambda_loop tk tv tp]. rewrite Ha. cbn [negb].
  rewrite mem_not by (apply Hd; cbn; auto). rewrite p_0, Hp. cbn [bind].
  change (ch_in iswhite (CR (C ","))) with false. cbv iota. cbn [bind]. rewrite Ht2. cbn [bind tk]. rewrite Ht3. cbn [bind].
  specialize (Hl n ltac:(lia)). destruct (tok_eqb (tk t3) KArrow) eqn:Ea.
  - apply tok_eqb_true in Ea; [|cbn; auto]. destruct n as [|n]; [lia|]. cbn [lambda_loop] in Hl. rewrite Ea in Hl. injection Hl as <- <-. reflexivity.
  - rewrite Hl. reflexivity.
Qed.

Lemma params_read ps s : written_params ps s -> reads_params ps s.
Proof. induction 1; [apply params_nil|apply params_rest|apply params_last|apply params_cons]; auto. Qed.

Lemma reads_lambda e p ps a sp sa w1 w2 : written_params ps sp -> NoDup (map param_name ps) -> reads false 1 a sa -> gap w1 -> gap w2 ->
  reads e 9 (NLambda p ps (Some a)) (T "{" ++ sp ++ T "->" ++ w1 ++ sa ++ w2 ++ T "}").
Proof.
  intros Hp Hnd Ha Hw1 Hw2. split; [reflexivity|]. intros f ws c k Hw Sp Wf Hf Hs.
  assert (Sp' : spells ((ws ++ T "{") ++ (sp ++ T "->") ++ (w1 ++ sa) ++ w2 ++ T "}") c k) by (rewrite <- !app_assoc in *; exact Sp). clear Sp. rename Sp' into Sp.
  apply spells_split in Sp. destruct Sp as [c1 [S1 Sp]]. apply spells_split in Sp. destruct Sp as [c2 [S2 Sp]]. apply spells_split in Sp. destruct Sp as [c3 [S3 Sp]].
  pose proof (spells_wf _ _ _ S1 Wf) as Wf1. pose proof (spells_wf _ _ _ S2 Wf1) as Wf2.
  assert (L : (clen c1 < clen c)%nat) by (eapply spells_lt; eauto; destruct ws; discriminate). pose proof (spells_le _ _ _ S2) as L2.
  destruct (brace_get false ws c c1 Hw S1 Wf) as [q [u Ht]].
  destruct (punct_get (C "}") KCClose w2 c3 k eq_refl Hw2 Sp) as [q2 Ht2].
  destruct (reads1 false a sa Ha f w1 c2 c3 Hw1 S3 Wf2 ltac:(lia)) as [v [E Sh]].
  { apply (stop_punct _ (C "}") KCClose w2 c3 k); [reflexivity|auto|auto|apply follows_any; cbn; auto 12|intros; cbn; lia]. }
  destruct (params_read _ _ Hp [] c1 c2 Hnd ltac:(cbn; auto) S2 Wf1) as [t [c4 [vs [Ht4 [L4 [Hvs [Hk Hl]]]]]]].
  exists (VLambda q vs v), (S (clen k)). split; [lia|]. split; [|apply shows_lambda; auto].
  rewrite (brace_expr9 f false q u c c1 Ht). change (loop_at f 9 (S (clen k)) (VLambda q vs v) k) with (@Ok (vnode * cursor) (VLambda q vs v, k)).
  unfold parse_brace. rewrite Ht4. cbn [bind].
  assert (Hlam : (match tk t with KArrow => Ok true | KSQuote | KDQuote => Ok false
     | _ => let* t2 := tpeek c4 in Ok (tok_eqb (tk t2) KArrow || tok_eqb (tk t2) KComma) end) = Ok true).
  { destruct Hk as [->|[Hnq [t2 [c5 [Ht5 Hi]]]]]; [reflexivity|]. unfold tpeek. rewrite Ht5. cbn [bind].
    assert (Hb : tok_eqb (tk t2) KArrow || tok_eqb (tk t2) KComma = true) by (cbn [In] in Hi; destruct Hi as [<-|[<-|[]]]; reflexivity).
    rewrite Hb. destruct (tk t); try reflexivity; exfalso; apply Hnq; cbn; auto. }
  rewrite Hlam. cbn [bind]. rewrite Hl by lia. cbn [bind]. rewrite E. cbn [bind]. rewrite Ht2. reflexivity.
Qed.

(** * Names with braces *)

Definition reads_parts (b : bool) (ps : list node) (s : text) : Prop := forall f c k,
  spells s c k -> wf c -> (clen c <= f)%nat -> ch_in isnamec (peek k) = false -> ch_is (peek k) (C "{") = false ->
  (b = true -> ch_in isnamec (peek c) = false /\ (ps <> [] -> peek c = CR (C "{"))) /\
  exists vs, Forall2 shows_part vs ps /\ forall n, (clen c < n)%nat -> curly_loop (parse_expr1 f) n c = Ok (vs, k).

Lemma parts_nil b : reads_parts b [] [].
Proof.
  intros f c k Sp Wf Hf H1 H2. cbn [spells] in Sp. subst c. split; [intros; split; [auto|congruence]|].
  exists []. split; [constructor|]. intros n Hn. destruct n as [|n]; [lia|]. apply curly_loop_end; auto.
Qed.

Lemma parts_word p s ps sp : some_of isnamec s -> reads_parts true ps sp -> reads_parts false (NCurlyLit p s :: ps) (s ++ sp).
Proof.
  intros [Hne Hs] Hp f c k Sp Wf Hf H1 H2. split; [discriminate|]. apply spells_split in Sp. destruct Sp as [c1 [S1 Sp]].
  pose proof (spells_wf _ _ _ S1 Wf) as Wf1. assert (L : (clen c1 < clen c)%nat) by (eapply spells_lt; eauto).
  destruct (Hp f c1 k Sp Wf1 ltac:(lia) H1 H2) as [Hb [vs [Hvs Hl]]]. destruct (Hb eq_refl) as [Hb1 _].
  exists (VCurlyPart (getpos c) s :: vs). split; [constructor; [reflexivity|auto]|]. intros n Hn. destruct n as [|n]; [lia|]. cbn [curly_loop].
  assert (Hh : ch_in isnamec (peek c) = true).
  { destruct s as [|r s]; [congruence|]. apply spells_head in S1. destruct S1 as [? [? [-> _]]]. cbn [forallb] in Hs. apply andb_true_iff in Hs. apply Hs. }
  rewrite Hh. unfold read_name. rewrite (read_while_exact isnamec s c c1 S1 Hs Hb1). rewrite Hl by lia. reflexivity.
Qed.

Lemma parts_brace b p a sa w1 w2 ps sp : reads false 1 a sa -> gap w1 -> gap w2 -> reads_parts false ps sp ->
  reads_parts b (NCurlyExpr p (Some a) :: ps) (T "{" ++ w1 ++ sa ++ w2 ++ T "}" ++ sp).
Proof.
  intros Ha Hw1 Hw2 Hp f c k Sp Wf Hf H1 H2.
  assert (Sp' : spells (T "{" ++ (w1 ++ sa) ++ (w2 ++ T "}") ++ sp) c k) by (rewrite <- !app_assoc in *; exact Sp). clear Sp. rename Sp' into Sp.
  apply spells_split in Sp. destruct Sp as [c1 [S1 Sp]]. apply spells_split in Sp. destruct Sp as [c2 [S2 Sp]]. apply spells_split in Sp. destruct Sp as [c3 [S3 Sp]].
  pose proof (spells_wf _ _ _ S1 Wf) as Wf1. pose proof (spells_wf _ _ _ S2 Wf1) as Wf2. pose proof (spells_wf _ _ _ S3 Wf2) as Wf3.
  assert (L : (clen c1 < clen c)%nat) by (eapply spells_lt; eauto; discriminate). pose proof (spells_le _ _ _ S2). pose proof (spells_le _ _ _ S3).
  destruct (reads1 false a sa Ha f w1 c1 c2 Hw1 S2 Wf1 ltac:(lia)) as [v [E Sh]].
  { apply (stop_punct _ (C "}") KCClose w2 c2 c3); [reflexivity|auto|auto|apply follows_any; cbn; auto 12|intros; cbn; lia]. }
  destruct (Hp f c3 k Sp Wf3 ltac:(lia) H1 H2) as [_ [vs [Hvs Hl]]].
  apply spells_head in S1. destruct S1 as [q [t [-> S1]]]. cbn [spells] in S1. subst t.
  split; [intros _; split; reflexivity|]. exists (VCurlyExpr (getpos c1) v :: vs). split; [constructor; auto|].
  intros n Hn. destruct n as [|n]; [lia|]. cbn [curly_loop peek ch_of_cell ch_in ch_is get snd].
  change (isnamec (C "{")) with false. change (C "{" =? C "{") with true. cbv iota. rewrite E. cbn [bind].
  apply spells_split in S3. destruct S3 as [c4 [S3 S4]]. apply spells_head in S4. destruct S4 as [q4 [t4 [-> S4]]]. cbn [spells] in S4. subst t4.
  rewrite (skip_gap w2 c2 _ Hw2 S3) by reflexivity. rewrite p_0. cbn [bind peek ch_of_cell ch_is]. change (C "}" =? C "}") with true. cbn [negb seek_cur bind].
  rewrite Hl by lia. reflexivity.
Qed.

Lemma curly_fits p ps c : fits (NCurlyName p ps) c = true -> ch_in isnamec c = false /\ ch_is c (C "{") = false.
Proof.
  destruct c as [| |r]; auto. cbn [fits sticks ch_in ch_is]. intros H. destruct (isnamec r), (r =? C "{"); auto; discriminate.
Qed.

Lemma curly_name p ps : forall v vs d k e1, parse_curly_parts e1 d = Ok (v :: vs, k) -> (vs = [] -> match v with VCurlyPart _ _ => False | _ => True end) ->
  Forall2 shows_part (v :: vs) ps -> forall c, skip_white c = d -> exists r, parse_identifier e1 c = Ok (r, k) /\ shows r (NCurlyName p ps).
Proof.
  intros v vs d k e1 E Hv Hs c Hc. unfold parse_identifier. rewrite Hc, E. cbn [bind].
  exists (VCurlyName (getpos d) (v :: vs)). split; [|apply shows_curly; auto].
  destruct v; destruct vs; try reflexivity. destruct (Hv eq_refl).
Qed.

Lemma forall2_nonempty {A B} (R : A -> B -> Prop) vs ns : Forall2 R vs ns -> ns <> [] -> vs <> [].
Proof. intros H Hn. destruct H; [auto|discriminate]. Qed.

Lemma reads_curly_word e p q r w ps sp : isnamec1 r = true -> forallb isnamec w = true -> reads_parts true ps sp -> ps <> [] ->
  reads e 9 (NCurlyName p (NCurlyLit q (r :: w) :: ps)) ((r :: w) ++ sp).
Proof.
  intros Hr Hw Hp Hne. split; [reflexivity|]. intros f ws c k Hws Sp Wf Hf [_ [G2 _]]. cbn [rightmost] in G2. apply curly_fits in G2. destruct G2 as [G2 G3].
  apply spells_split in Sp. destruct Sp as [d [S1 Sp]]. apply spells_split in Sp. destruct Sp as [k1 [S2 Sp]].
  pose proof (spells_wf _ _ _ S1 Wf) as Wfd. pose proof (spells_wf _ _ _ S2 Wfd) as Wf1. pose proof (spells_le _ _ _ S1).
  assert (L : (clen k1 < clen d)%nat) by (eapply spells_lt; eauto; discriminate).
  destruct (Hp f k1 k Sp Wf1 ltac:(lia) G2 G3) as [Hb [vs [Hvs Hl]]]. destruct (Hb eq_refl) as [Hb1 Hb2]. specialize (Hb2 Hne).
  assert (Hd : exists p0 t, d = Cons (R r) p0 t) by (apply spells_head in S2; destruct S2 as [? [? [-> _]]]; eauto). destruct Hd as [p0 [t Hd]].
  assert (Hsk : skip_white c = d) by (apply (skip_gap ws); auto; rewrite Hd; apply (namec1_not r Hr)).
  destruct (curly_name p (NCurlyLit q (r :: w) :: ps) (VCurlyPart (getpos d) (r :: w)) vs d k (parse_expr1 f)) with (c := c) as [v [Ev Sh]]; auto.
  - unfold parse_curly_parts. replace (ch_is (peek d) (C "<")) with false
      by (rewrite Hd; symmetry; apply N.eqb_neq; intros ->; discriminate). cbn [andb curly_loop].
    replace (ch_in isnamec (peek d)) with true by (rewrite Hd; symmetry; apply (namec1_namec r Hr)).
    unfold read_name. rewrite (read_while_exact isnamec (r :: w) d k1); auto; [|cbn [forallb]; rewrite (namec1_namec r Hr); auto].
    rewrite Hl by lia. reflexivity.
  - intros ->. exact (forall2_nonempty _ _ _ Hvs Hne eq_refl).
  - constructor; auto. reflexivity.
  - exists v, (S (clen k)). split; [lia|]. split; [|exact Sh].
    destruct (name_word (parse_expr1 f) r w d k1 Hr Hw S2 Wfd Hb1) as [t0 [d' [Hg Hk0]]]; [intros _; rewrite Hb2; reflexivity|].
    change (at_ f 9 c) with (parse_expr9 (parse_expr1 f) c). eapply named_expr9; [|left; exact Hk0|exact Ev].
    unfold tget. rewrite Hsk, Hd, get2_named by auto. rewrite <- Hd. exact Hg.
Qed.

Lemma sid_token s d k : is_sid s -> spells s d k -> wf d ->
  exists t d', get2 d = Ok (t, d') /\ tk t = KCmp OLt MNone /\ equalci (peekn 4 d') (T "SID>") = true.
Proof.
  intros Hs Sp Hw. destruct (sid_head _ Hs) as [b [w [-> [Hl [Hb1 [Hb2 [Hb3 Hq]]]]]]].
  apply spells_head in Sp. destruct Sp as [q [t [-> Sp]]]. pose proof Sp as Sp1. apply spells_head in Sp1.
  destruct Sp1 as [q1 [t1 [Ht Sp1]]]. rewrite get2_lt.
  assert (S1 : spells (T "<") (Cons (R (C "<")) q t) t) by (cbn; auto).
  rewrite (p_spells 1 (T "<") _ t) by auto. cbn [bind].
  assert (Hp : peek t = CR b) by (rewrite Ht; reflexivity). rewrite Hp, Hb1.
  unfold tok_cmp. rewrite (p_spells 1 (T "<") _ t) by auto. cbn [bind]. rewrite Hp, Hb2, Hb3.
  rewrite (seek_spells 1 (T "<") _ t) by auto. cbn [bind].
  do 2 eexists. split; [reflexivity|]. split; auto.
  unfold peekn. rewrite (getn_exact 4 (b :: w) _ k) by (auto; cbn; rewrite ?Hl; auto). exact Hq.
Qed.

Lemma reads_curly_sid e p q s ps sp : is_sid s -> reads_parts false ps sp -> ps <> [] ->
  reads e 9 (NCurlyName p (NCurlyLit q s :: ps)) (s ++ sp).
Proof.
  intros Hs Hp Hne. split; [reflexivity|]. intros f ws c k Hws Sp Wf Hf [_ [G2 _]]. cbn [rightmost] in G2. apply curly_fits in G2. destruct G2 as [G2 G3].
  apply spells_split in Sp. destruct Sp as [d [S1 Sp]]. apply spells_split in Sp. destruct Sp as [k1 [S2 Sp]].
  pose proof (spells_wf _ _ _ S1 Wf) as Wfd. pose proof (spells_wf _ _ _ S2 Wfd) as Wf1. pose proof (spells_le _ _ _ S1). pose proof (spells_le _ _ _ S2).
  destruct (Hp f k1 k Sp Wf1 ltac:(lia) G2 G3) as [_ [vs [Hvs Hl]]].
  destruct (sid_head _ Hs) as [b [w [Es [Hlw _]]]].
  assert (Hd : peek d = CR (C "<")) by (rewrite Es in S2; apply spells_head in S2; destruct S2 as [? [? [-> _]]]; reflexivity).
  assert (Hsk : skip_white c = d) by (apply (skip_gap ws); auto; rewrite Hd; reflexivity).
  assert (H5 : getn 5 d = (s, k1)) by (apply getn_exact; auto; rewrite Es; cbn [length]; rewrite Hlw; reflexivity).
  destruct (curly_name p (NCurlyLit q s :: ps) (VCurlyPart (getpos d) s) vs d k (parse_expr1 f)) with (c := c) as [v [Ev Sh]]; auto.
  - unfold parse_curly_parts, peekn. rewrite Hd, H5. cbn [fst]. change (ch_is (CR (C "<")) (C "<")) with true. cbn [andb].
    unfold is_sid in Hs. rewrite Hs. rewrite Hl by lia. reflexivity.
  - intros ->. exact (forall2_nonempty _ _ _ Hvs Hne eq_refl).
  - constructor; auto. reflexivity.
  - exists v, (S (clen k)). split; [lia|]. split; [|exact Sh].
    destruct (sid_token s d k1 Hs S2 Wfd) as [t0 [d' [Hg Hk0]]].
    change (at_ f 9 c) with (parse_expr9 (parse_expr1 f) c). eapply named_expr9; [|right; exact Hk0|exact Ev].
    unfold tget. rewrite Hsk. exact Hg.
Qed.

Lemma reads_curly_brace e p q a sa w1 w2 ps sp : reads false 1 a sa -> good_head sa -> gap w1 -> gap w2 -> brace_head a sa -> reads_parts false ps sp ->
  reads e 9 (NCurlyName p (NCurlyExpr q (Some a) :: ps)) (T "{" ++ w1 ++ sa ++ w2 ++ T "}" ++ sp).
Proof.
  intros Ha Hh Hw1 Hw2 Hb Hp. split; [reflexivity|]. intros f ws c k Hws Sp Wf Hf [_ [G2 _]]. cbn [rightmost] in G2. apply curly_fits in G2. destruct G2 as [G2 G3].
  pose proof (parts_brace false q a sa w1 w2 ps sp Ha Hw1 Hw2 Hp) as Hall.
  apply spells_split in Sp. destruct Sp as [d [S1 Sp]]. pose proof (spells_wf _ _ _ S1 Wf) as Wfd. pose proof (spells_le _ _ _ S1).
  destruct (Hall f d k Sp Wfd ltac:(lia) G2 G3) as [_ [vs [Hvs Hl]]].
  assert (Sp' : spells (T "{" ++ (w1 ++ sa) ++ (w2 ++ T "}") ++ sp) d k) by (rewrite <- !app_assoc in *; exact Sp). clear Sp. rename Sp' into Sp.
  apply spells_split in Sp. destruct Sp as [c1 [S2 Sp]]. apply spells_split in Sp. destruct Sp as [c2 [S3 Sp]]. apply spells_split in Sp. destruct Sp as [c3 [S4 Sp]].
  pose proof (spells_wf _ _ _ S2 Wfd) as Wf1. pose proof (spells_wf _ _ _ S3 Wf1) as Wf2.
  assert (L : (clen c1 < clen d)%nat) by (eapply spells_lt; eauto; discriminate).
  destruct (reads1 false a sa Ha f w1 c1 c2 Hw1 S3 Wf1 ltac:(lia)) as [v [E Sh]].
  { apply (stop_punct _ (C "}") KCClose w2 c2 c3); [reflexivity|auto|auto|apply follows_any; cbn; auto 12|intros; cbn; lia]. }
  assert (Hpk : peek d = CR (C "{")) by (apply spells_head in S2; destruct S2 as [? [? [-> _]]]; reflexivity).
  assert (Hsk : skip_white c = d) by (apply (skip_gap ws); auto; rewrite Hpk; reflexivity).
  inversion Hvs as [|v1 n1 vs1 ns1 Hv1 Hvs1]; subst vs n1 ns1.
  destruct (curly_name p (NCurlyExpr q (Some a) :: ps) v1 vs1 d k (parse_expr1 f)) with (c := c) as [v' [Ev Sh']]; auto.
  - unfold parse_curly_parts. rewrite Hpk. change (ch_is (CR (C "{")) (C "<")) with false. cbn [andb]. apply Hl. lia.
  - intros _. destruct v1; auto.
  - exists v', (S (clen k)). split; [lia|]. split; [|exact Sh'].
    assert (S12 : spells (ws ++ T "{") c c1) by (eapply spells_app; eauto).
    destruct (brace_get false ws c c1 Hws S12 Wf) as [q0 [u Ht]].
    rewrite (brace_expr9 f false q0 u c c1 Ht). change (loop_at f 9 (S (clen k)) v' k) with (@Ok (vnode * cursor) (v', k)).
    rewrite ahead_dict.
    + destruct (first1 _ _ _ E) as [t0 [c0 [Ht0 Ho]]]. destruct (punct_get (C "}") KCClose w2 c2 c3 eq_refl Hw2 S4) as [q2 Ht2].
      unfold parse_dict. rewrite Ht0. cbn [bind]. rewrite (opens_cc _ Ho). cbn [dict_loop]. rewrite E. cbn [bind]. rewrite Ht2. cbn [bind tk negb].
      rewrite Ev. reflexivity.
    + apply (ahead_expr f c1 v c2 a sa w1 w2 (C "}") c3); cbn; auto.
Qed.

(** Every written expression is read back. *)
Theorem written_reads :
  (forall e l n s, written e l n s -> reads e l n s) /\
  (forall xs s, written_items xs s -> reads_items xs s) /\
  (forall b o s, written_bound b o s -> reads_bound b o s) /\
  (forall l b kvs s, written_pairs l b kvs s -> reads_pairs l b kvs s) /\
  (forall l b k v s, written_pair l b k v s -> reads_pair l b k v s) /\
  (forall b ps s, written_parts b ps s -> reads_parts b ps s).
Proof.
  apply written_mutind; intros.
  - apply reads_up; auto.
  - apply reads_ternary; auto.
  - apply reads_binary with (l := l); auto. eapply written_head; eauto.
  - apply reads_unary; auto. eapply written_head; eauto.
  - apply reads_subscript; auto.
  - apply reads_slice; auto.
  - apply reads_method; auto.
  - apply reads_call; auto.
  - apply reads_dot; auto.
  - apply reads_lit; auto. apply (written_head e 9 (NBasicLit p k s)), wr_lit; auto.
  - apply reads_list; auto.
  - apply reads_paren; auto.
  - apply reads_name; auto. apply (written_head e 9 (NIdent p s)), wr_name; auto.
  - apply reads_dict; auto.
  - apply reads_lambda; auto.
  - apply reads_curly_word; auto.
  - apply reads_curly_sid; auto.
  - apply reads_curly_brace; auto. eapply written_head; eauto.
  - apply items_nil; auto.
  - apply items_last; auto.
  - apply items_cons; auto.
  - apply bound_none; auto.
  - apply bound_some; auto.
  - apply pairs_nil; auto.
  - apply pairs_last; auto.
  - apply pairs_cons; auto.
  - apply pair_expr; auto. eapply written_head; eauto.
  - apply pair_word; auto.
  - apply parts_nil.
  - apply parts_word; auto.
  - apply parts_brace; auto.
Qed.
