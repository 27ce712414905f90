(** The statements of a script appear in source order. *)
From Coq Require Import Lia ZifyBool ZifyNat ZifyN.
From Verif Require Import Base Utf8 CharClass Reader Vnode Token Ast CmdTable Cursor Grammar TokSafe ExprSafe
  ExprParser CmdParser Export ExportSafe Script CmdBase CmdArgs CmdPieces CmdOpen ScriptExport Api ApiExpr ApiFile
  Places PlacesProof LinesProof ReaderFacts Nodes Derived Shape NodeText NodeFacts.

(** * The statements of a parse tree *)

Definition vo (o : option vnode) : list vnode := match o with Some x => [x] | None => [] end.
Definition vparts (v : vnode) : list vnode :=
  match v with
  | VToplevel _ b | VElseif _ _ b _ | VElse _ _ b | VCatch _ _ b _ | VFinally _ _ b => b
  | VFunction _ _ b _ _ _ _ en | VWhile _ _ b _ en | VFor _ _ b _ _ _ _ en => b ++ vo en
  | VIf _ _ b _ eis el en => b ++ eis ++ vo el ++ vo en
  | VTry _ _ b cs fi en => b ++ cs ++ vo fi ++ vo en
  | _ => []
  end.
Definition oov (f : vnode -> list vnode) (o : option vnode) : list vnode :=
  match o with Some x => f x | None => [] end.
Fixpoint vorder (v : vnode) : list vnode :=
  v :: match v with
       | VToplevel _ b | VElseif _ _ b _ | VElse _ _ b | VCatch _ _ b _ | VFinally _ _ b => flat_map vorder b
       | VFunction _ _ b _ _ _ _ en | VWhile _ _ b _ en | VFor _ _ b _ _ _ _ en => flat_map vorder b ++ oov vorder en
       | VIf _ _ b _ eis el en => flat_map vorder b ++ flat_map vorder eis ++ oov vorder el ++ oov vorder en
       | VTry _ _ b cs fi en => flat_map vorder b ++ flat_map vorder cs ++ oov vorder fi ++ oov vorder en
       | _ => []
       end.

Lemma vorder_parts v : vorder v = v :: flat_map vorder (vparts v).
Proof.
  assert (E : forall o, flat_map vorder (vo o) = oov vorder o).
  { intros [x|]; cbn [vo flat_map oov]; auto using app_nil_r. }
  destruct v; cbn [vorder vparts]; rewrite ?flat_map_app, ?E; reflexivity.
Qed.
Lemma order_parts n : exists l, order n = n :: l.
Proof. destruct n; cbn [order]; eauto. Qed.

Lemma parts_ind (P : vnode -> Prop) : (forall v, (forall u, In u (vparts v) -> P u) -> P v) -> forall v, P v.
Proof.
  intros H. fix IH 1. intros v. apply H. intros u Hu.
  destruct v; cbn [vparts] in Hu; try contradiction; rewrite ?in_app_iff in Hu;
    repeat match goal with X : _ \/ _ |- _ => destruct X as [X|X] end.
  all: try (match type of Hu with In _ (vo ?o) => destruct o as [x|]; [destruct Hu as [<-|[]]; apply IH|contradiction] end).
  all: match type of Hu with In _ ?l => revert Hu; induction l as [|x r IHr]; [contradiction|] end;
       intros [<-|Hu]; [apply IH|exact (IHr Hu)].
Qed.

Lemma mapM_two {A B} (f : A -> outcome B) (g : A -> list A) (h : B -> list B) (P : A -> B -> Prop) l :
  forall r, mapM f l = Ok r -> (forall x y, In x l -> f x = Ok y -> Forall2 P (g x) (h y)) ->
  Forall2 P (flat_map g l) (flat_map h r).
Proof.
  induction l as [|x l IH]; intros r H HP; cbn [mapM] in H.
  - inversion H; constructor.
  - unbind H. inversion H; subst. cbn [flat_map]. apply Forall2_app.
    + apply HP; auto. left; auto.
    + apply IH; auto. intros; apply HP; auto. right; auto.
Qed.

Lemma cast_ok file f x y : (let* n := new_ast file x in assert_node f n) = Ok y -> new_ast file x = Ok y.
Proof. intros H. unbind H. unfold assert_node in H. destruct (f a); inversion H; subst; auto. Qed.
Lemma order_from file v : forall n, new_ast file v = Ok n ->
  Forall2 (fun v n => new_ast file v = Ok n) (vorder v) (order n).
Proof.
  induction v as [v IH] using parts_ind. intros n H. rewrite vorder_parts.
  assert (L : forall f l r, (forall u, In u l -> In u (vparts v)) ->
    mapM (fun x => let* y := new_ast file x in assert_node f y) l = Ok r ->
    Forall2 (fun v n => new_ast file v = Ok n) (flat_map vorder l) (flat_map order r)).
  { intros f l r Hl Hr. eapply mapM_two; eauto. intros x y Hx E. cbv beta in E. apply cast_ok in E. auto. }
  assert (S : forall f x y, In x (vparts v) -> (let* n := new_ast file x in assert_node f n) = Ok y ->
    Forall2 (fun v n => new_ast file v = Ok n) (flat_map vorder [x]) (order y)).
  { intros f x y Hx E. cbn [flat_map]. rewrite app_nil_r. apply cast_ok in E. auto. }
  assert (O : forall f o o', (forall x, o = Some x -> In x (vparts v)) ->
    match o with None => Panic PType | Some x => let* y := (let* n := new_ast file x in assert_node f n) in Ok (Some y) end = Ok o' ->
    Forall2 (fun v n => new_ast file v = Ok n) (flat_map vorder (vo o)) (oo order o')).
  { intros f [x|] o' Ho E; [|discriminate]. 
    match type of E with bind ?m _ = _ => destruct m eqn:E0; cbn [bind] in E; try discriminate end.
    inversion E; subst. cbn [vo oo]. eapply S; eauto. }
  assert (M : forall f o o', (forall x, o = Some x -> In x (vparts v)) ->
    optM (fun x => let* n := new_ast file x in assert_node f n) o = Ok o' ->
    Forall2 (fun v n => new_ast file v = Ok n) (flat_map vorder (vo o)) (oo order o')).
  { intros f [x|] o' Ho E; cbn [optM] in E; [|inversion E; constructor].
    match type of E with bind ?m _ = _ => destruct m eqn:E0; cbn [bind] in E; try discriminate end.
    inversion E; subst. cbn [vo oo]. eapply S; eauto. }
  clear IH S.
  pose proof H as H0.
  destruct v; cbn [new_ast] in H;
    try match type of H with (match ?x with _ => _ end) = _ => destruct x eqn:?; try discriminate end;
    unbind H; inversion H; subst; cbn [order vparts flat_map]; constructor; auto; rewrite ?flat_map_app.
  all: repeat apply Forall2_app.
  all: first [eapply L; [|eassumption] | eapply M; [|eassumption] | eapply O; [|eassumption]]; intros u Hu; cbn [vparts]; subst;
    rewrite ?in_app_iff; cbn [vo In]; auto 10.
Qed.

(** * Places of statements *)

Lemma pairs_app {A} (R : A -> A -> Prop) l m : ForallOrdPairs R l -> ForallOrdPairs R m ->
  (forall x y, In x l -> In y m -> R x y) -> ForallOrdPairs R (l ++ m).
Proof.
  induction 1 as [|x l H1 H2 IH]; intros Hm HR; cbn [app]; auto.
  constructor.
  - apply Forall_app. split; auto. apply Forall_forall. intros y Hy. apply HR; auto. left; auto.
  - apply IH; auto. intros; apply HR; auto. right; auto.
Qed.

Lemma table_start : forallb (fun x => match c_name x with r :: _ => negb (r =? C """") | [] => false end)
  (neovim_additional_commands ++ builtin_commands) = true.
Proof. vm_compute. reflexivity. Qed.
Lemma named_start neovim r s x : named neovim (r :: s) x -> r <> C """".
Proof.
  intros H. destruct (named_table _ _ _ H) as [K|[K _]].
  - pose proof table_start as G. rewrite forallb_forall in G. specialize (G _ K).
    assert (NE : r :: s <> []) by discriminate. pose proof (named_names _ _ _ NE H) as M. inversion M; subst.
    + rewrite H1 in G. cbn [app] in G. intros ->. discriminate.
    + intros ->. match goal with X : _ <= _ <= _ |- _ => vm_compute in X; intuition congruence end.
    + discriminate.
  - intros ->. discriminate.
Qed.

Section Order.
Context (neovim : bool) (B : cursor).

Definition bare (v : vnode) : Prop := exists p e s, v = VExcmd p e s /\ ea_cmd e = None.
Definition vcom (v : vnode) : Prop := exists p s, v = VComment p s.
Definition vher (v : vnode) : Prop := exists p e l ls rs q fl m b,
  v = VLet p e (T "=<<") l ls rs (Some (VHeredoc q fl m b)).
Definition Rv (x y : vnode) : Prop := exists s t, vpos x = getpos s /\ vpos y = getpos t /\ sfx s B /\ sfx t B /\
  ((sfx t s /\ (clen t < clen s)%nat) \/ (bare x /\ vcom y /\ s = t) \/
   (vcom x /\ vher y /\ sfx s t /\ (clen s < clen t)%nat)).
Definition rg (a c : cursor) (v : vnode) : Prop := exists s, vpos v = getpos s /\ sfx s a /\ sfx c s /\
  (((clen c < clen s)%nat /\ exists r, peek1 s = Some r /\ (r = C """" -> vcom v)) \/
   (bare v /\ (at_end s \/ peek1 s = Some (C """")) /\ exists s0, sfx s0 a /\ sfx s s0 /\ (clen s < clen s0)%nat)).
Definition sq (a c : cursor) (L : list vnode) : Prop :=
  sfx c a /\ ForallOrdPairs Rv L /\ Forall (rg a c) L.

Lemma rg_wide a c v a' c' : rg a c v -> sfx a a' -> sfx c' c -> rg a' c' v.
Proof.
  intros [s [H1 [H2 [H3 H4]]]] Ha Hc. exists s. split; auto. split; [eauto using sfx_trans|]. split; [eauto using sfx_trans|].
  pose proof (sfx_clen _ _ Hc). destruct H4 as [[H4 H5]|[H4 [H5 [s0 [H6 H7]]]]].
  - left. split; auto. lia.
  - right. split; auto. split; auto. exists s0. split; auto. eauto using sfx_trans.
Qed.
Lemma sq_wide a c L a' c' : sq a c L -> sfx a a' -> sfx c' c -> sq a' c' L.
Proof.
  intros [H1 [H2 H3]] Ha Hc. split; [|split; auto]. eauto using sfx_trans.
  eapply Forall_impl; [|exact H3]. intros v Hv. eapply rg_wide; eauto.
Qed.
Lemma sq_nil a c : sfx c a -> sq a c [].
Proof. intros. split; auto. split; constructor. Qed.
Lemma sq_join a c a1 c1 L M : sfx a B -> sq a c L -> sfx a1 c -> sq a1 c1 M -> sq a c1 (L ++ M).
Proof.
  intros HB [H1 [H2 H3]] Hg [K1 [K2 K3]]. split; [eauto using sfx_trans|]. split.
  - apply pairs_app; auto. intros x y Hx Hy. rewrite Forall_forall in H3, K3. specialize (H3 _ Hx). specialize (K3 _ Hy).
    destruct H3 as [s [E1 [S1 [S2 S3]]]]. destruct K3 as [t [E2 [T1 [T2 T3]]]].
    assert (Tc : sfx t c) by eauto using sfx_trans. assert (Ts : sfx t s) by eauto using sfx_trans.
    exists s, t. split; auto. split; auto. split; [eauto using sfx_trans|]. split; [eauto using sfx_trans|].
    destruct (Nat.eq_dec (clen t) (clen s)) as [E|E].
    2:{ left. split; auto. apply sfx_clen in Ts. lia. }
    assert (t = s) by (apply sfx_same; auto). subst t. right; left.
    pose proof (sfx_clen _ _ S2). pose proof (sfx_clen _ _ Tc). pose proof (sfx_clen _ _ Hg). pose proof (sfx_clen _ _ T1).
    destruct S3 as [[S3 _]|[S3 [S4 _]]]; [lia|]. split; auto.
    destruct T3 as [[_ [r [T3 T4]]]|[_ [_ [s0 [T3 [T4 T5]]]]]].
    + split; auto. apply T4. destruct S4 as [S4|S4]; [unfold at_end in S4|]; congruence.
    + apply sfx_clen in T3. lia.
  - apply Forall_app. split.
    + eapply Forall_impl; [|exact H3]. intros v Hv. eapply rg_wide; eauto. constructor. eauto using sfx_trans.
    + eapply Forall_impl; [|exact K3]. intros v Hv. eapply rg_wide; eauto. eauto using sfx_trans. constructor.
Qed.
(** One command. *)
Lemma head_rg P a b d c e v c' : head neovim P a b d c e -> vpos v = getpos b -> sfx c' c -> rg a c' v.
Proof.
  intros [x [H _]] Hp Hc. pose proof (header_sfx _ _ _ _ _ _ _ H) as [H1 [H2 [H3 H4]]]. exists b.
  split; auto. split; auto. split; [eauto using sfx_trans|]. left. 
  apply sfx_clen in H3. pose proof (sfx_clen _ _ Hc). split; [lia|].
  destruct (h_name _ _ _ _ _ _ _ H) as [s [K1 [_ [K2 [b' [K3 _]]]]]]. destruct s as [|r s]; [congruence|].
  exists r. cbn [spells] in K3. destruct b as [|[|y] p t]; try contradiction. destruct K3 as [-> _]. split; auto.
  intros ->. exfalso. eapply named_start; eauto.
Qed.
Lemma sq_one a c v : sfx c a -> rg a c v -> sq a c [v].
Proof. intros. split; auto. split; [constructor; constructor|constructor; auto]. Qed.
Lemma head_sq P a b d c e v c' : head neovim P a b d c e -> vpos v = getpos b -> sfx c' c -> sq a c' [v].
Proof.
  intros H Hp Hc. apply sq_one; [|eapply head_rg; eauto]. apply head_sfx in H. destruct H. eauto using sfx_trans.
Qed.


Ltac climb := repeat first [assumption | apply sfx_refl | apply sfx_cons, sfx_refl | match goal with
  | H : sfx ?x ?z |- sfx ?x _ => apply (sfx_trans _ z _ H); clear H
  | H : sfx ?t (Cons _ _ ?t) |- _ => clear H
  end].
Ltac ends := repeat match goal with X : sfx _ B |- _ => clear X end; match goal with |- sfx ?x ?y =>
  repeat match goal with
  | X : head _ _ _ _ _ _ _ |- _ => apply head_sfx in X; destruct X as [X _]
  | X : dexpr _ _ _ _ |- _ => apply dexpr_shrinks in X; destruct X as [X _]
  | X : dlval _ _ _ |- _ => apply dlval_shrinks in X; destruct X as [X _]
  | X : dlhs _ _ _ _ _ _ |- _ => apply dlhs_sfx in X
  | X : dlvals _ _ _ |- _ => apply dlvals_sfx in X
  | X : dexprs _ _ _ |- _ => apply dexprs_sfx in X
  | X : ddepth _ _ _ |- _ => apply ddepth_sfx in X
  | X : dpattern _ _ _ |- _ => apply dpattern_sfx in X
  | X : dattrs _ _ _ _ |- _ => apply dattrs_sfx in X
  | X : dfparams _ _ _ _ _ |- _ => apply dfparams_sfx in X
  | X : blank _ _ |- _ => apply blank_sfx in X
  | X : gap _ _ |- _ => apply gap_sfx in X
  | X : spells _ _ _ |- _ => apply spells_sfx in X
  | X : dhwords _ _ _ _ |- _ => apply dhwords_sfx in X
  | X : dtrail _ _ _ |- _ => apply dtrail_sfx in X
  | X : dhlines _ _ _ _ |- _ => apply dhlines_sfx in X
  | X : block _ _ _ _ _ |- _ => apply block_sfx in X
  | X : if_chain _ _ _ _ _ _ _ |- _ => apply (proj1 (proj2 (proj2 (script_sfx _)))) in X
  | X : try_chain _ _ _ _ _ _ _ |- _ => apply (proj2 (proj2 (proj2 (script_sfx _)))) in X
  end; climb
  end.
Ltac inB a c := assert (sfx c B) by (apply (sfx_trans _ a); [ends|assumption]).
(** A block command: its head, its parts, its end. *)
Lemma block_order P Q a b d c e v c1 c2 L a' b' d' c8 e' u c' : head neovim P a b d c e -> head neovim Q a' b' d' c8 e' ->
  vpos v = getpos b -> vpos u = getpos b' -> sfx a B -> sfx c1 c -> sq c1 c2 L -> gap c2 a' -> sfx c' c8 ->
  sq a c' (v :: L ++ [u]).
Proof.
  intros H1 H2 E1 E2 Ha Hc HL Hg Hc'. change (v :: L ++ [u]) with ([v] ++ (L ++ [u])).
  assert (Hc1 : sfx c1 B) by (apply head_sfx in H1; destruct H1; eauto using sfx_trans).
  apply (sq_join a c1 c1 c'); auto. eapply head_sq; eauto. constructor.
  apply (sq_join c1 c2 a' c'); auto. apply gap_sfx; auto. eapply head_sq; eauto.
Qed.
(** A part of a block command. *)
Lemma part_order P a b d c e v c1 c' L : head neovim P a b d c e -> vpos v = getpos b -> sfx a B -> sfx c1 c ->
  sq c1 c' L -> sq a c' (v :: L).
Proof.
  intros H E Ha Hc HL. change (v :: L) with ([v] ++ L). apply (sq_join a c1 c1 c'); auto. eapply head_sq; eauto. constructor.
Qed.
Lemma script_order :
  (forall w a c vs, cmd_nodes neovim w a c vs -> sfx a B -> sq a c (flat_map vorder vs)) /\
  (forall w a c vs, block neovim w a c vs -> sfx a B -> sq a c (flat_map vorder vs)) /\
  (forall w a c body es el, if_chain neovim w a c body es el -> sfx a B -> sq a c (flat_map vorder (body ++ es ++ vo el))) /\
  (forall w a c body es el, try_chain neovim w a c body es el -> sfx a B -> sq a c (flat_map vorder (body ++ es ++ vo el))).
Proof.
  apply script_mutind; intros.
  all: try (cbn [flat_map vorder app]; match goal with X : head _ _ _ _ _ _ _ |- _ => eapply head_sq; [exact X|reflexivity|]; ends; fail end).
  - (* comment *) cbn [flat_map vorder app]. apply sq_one. ends. exists (Cons (R (C """")) p t). split; auto.
    split; [constructor|]. split; [ends|]. left. split. apply spells_sfx, sfx_clen in s0. cbn; lia. 
    exists (C """"). split; auto. intros _. exists p, s. auto.
  - (* modifier *) cbn [flat_map vorder app]. apply sq_one. apply same_line_sfx; auto. exists c. split; auto.
    pose proof (same_line_sfx _ _ s) as K. split; auto. split; [constructor|]. right. split. do 3 eexists; eauto. split; auto.
    exists a. split; [constructor|]. split; auto. destruct (Nat.eq_dec (clen c) (clen a)) as [E|E]; [|apply sfx_clen in K; lia].
    exfalso. assert (c = a) by (apply sfx_same; auto). subst c. destruct e0 as [r [K1 K2]]. destruct o as [o|o]; [unfold at_end in o|]; congruence.


  - (* here-document *)
    assert (K : sq a c' [VLet (getpos b) e (T "=<<") l ls rs (Some (VHeredoc (getpos b) ws m body))]).
    { eapply head_sq; [exact h|reflexivity|]. ends. }
    destruct d3 as [| | |c3 p t s0 q u Y X]; try exact K. cbn [flat_map vorder app] in *.
    set (x := VLet _ _ _ _ _ _ _) in *.
    assert (Hb : sfx c b /\ (clen c < clen b)%nat).
    { destruct h as [z [h _]]. apply header_sfx in h. destruct h as [_ [h2 [h3 h4]]]. apply sfx_clen in h3 as h5. split. eauto using sfx_trans. lia. }
    assert (Hs : sfx (Cons (R (C """")) p t) c) by ends.
    assert (Hc : sfx c' u) by ends.
    assert (Ht : sfx u t) by (apply spells_sfx in X; apply sfx_tail in X; auto).
    assert (Hba : sfx b a). { destruct h as [z [h _]]. apply header_sfx in h. tauto. }
    pose proof (sfx_clen _ _ Hc). pose proof (sfx_clen _ _ Ht). pose proof (sfx_clen _ _ Hs) as Hl. cbn [clen] in Hl.
    destruct Hb as [Hb1 Hb2].
    destruct K as [K1 [_ K3]]. split; auto. split.
    + constructor; [|constructor; constructor]. constructor; [|constructor]. exists (Cons (R (C """")) p t), b.
      split; auto. split; auto. split; [eauto using sfx_trans|]. split; [eauto using sfx_trans|]. right; right.
      split. exists p, s0; auto. split. do 9 eexists; reflexivity. split; [eauto using sfx_trans|]. cbn [clen]. lia.
    + constructor; auto. exists (Cons (R (C """")) p t). split; auto. split; [eauto using sfx_trans|]. split.
      { apply sfx_cons. eauto using sfx_trans. } left. split. cbn [clen]; lia. exists (C """"). split; auto. intros _. exists p, s0; auto.
  - (* function *) cbn [flat_map]. rewrite vorder_parts. cbn [vparts vo]. rewrite app_nil_r, flat_map_app. cbn [flat_map].
    rewrite app_nil_r. cbn [vorder]. inB a c5.
    eapply block_order; [exact h|eassumption|reflexivity|reflexivity|assumption| |apply H; assumption|eassumption|]; ends.
  - (* if *) cbn [flat_map]. rewrite vorder_parts. cbn [vparts vo]. rewrite app_nil_r, !app_assoc, flat_map_app. cbn [flat_map].
    rewrite app_nil_r, <- app_assoc. cbn [vorder]. inB a c1.
    eapply block_order; [exact h|eassumption|reflexivity|reflexivity|assumption| |apply H; assumption|eassumption|]; ends.
  - (* while *) cbn [flat_map]. rewrite vorder_parts. cbn [vparts vo]. rewrite app_nil_r, flat_map_app. cbn [flat_map].
    rewrite app_nil_r. cbn [vorder]. inB a c1.
    eapply block_order; [exact h|eassumption|reflexivity|reflexivity|assumption| |apply H; assumption|eassumption|]; ends.
  - (* for *) cbn [flat_map]. rewrite vorder_parts. cbn [vparts vo]. rewrite app_nil_r, flat_map_app. cbn [flat_map].
    rewrite app_nil_r. cbn [vorder]. inB a c3.
    eapply block_order; [exact h|eassumption|reflexivity|reflexivity|assumption| |apply H; assumption|eassumption|]; ends.
  - (* try *) cbn [flat_map]. rewrite vorder_parts. cbn [vparts vo]. rewrite app_nil_r, !app_assoc, flat_map_app. cbn [flat_map].
    rewrite app_nil_r, <- app_assoc. cbn [vorder]. inB a c.
    eapply block_order; [exact h|eassumption|reflexivity|reflexivity|assumption| |apply H; assumption|eassumption|]; ends.
  - apply sq_nil. constructor.
  - rewrite flat_map_app. inB a a1. eapply sq_join; [assumption|apply H; assumption| |apply H0; assumption]. ends.
  - cbn [vo]. rewrite !app_nil_r. apply H; auto.
  - cbn [vo] in *. rewrite app_nil_r in *. rewrite app_assoc, flat_map_app. cbn [flat_map].
    rewrite app_nil_r, vorder_parts. cbn [vparts]. inB c a. inB c c3. 
    apply (sq_join c c1 a c'); [assumption|apply H; assumption|ends|]. 
    eapply part_order; [exact h|reflexivity|assumption| |apply H0; assumption]. ends.
  - cbn [vo] in *. rewrite app_nil_r in *. rewrite app_assoc, flat_map_app. cbn [flat_map].
    rewrite app_nil_r, vorder_parts. cbn [vparts]. inB c a. inB c c2. 
    apply (sq_join c c1 a c'); [assumption|apply H; assumption|ends|]. 
    eapply part_order; [exact h|reflexivity|assumption| |apply H0; assumption]. ends.
  - cbn [vo]. rewrite !app_nil_r. apply H; auto.
  - cbn [vo] in *. rewrite app_nil_r in *. rewrite app_assoc, flat_map_app. cbn [flat_map].
    rewrite app_nil_r, vorder_parts. cbn [vparts]. inB c a. inB c c3. 
    apply (sq_join c c1 a c'); [assumption|apply H; assumption|ends|]. 
    eapply part_order; [exact h|reflexivity|assumption| |apply H0; assumption]. ends.
  - cbn [vo] in *. rewrite app_nil_r in *. rewrite app_assoc, flat_map_app. cbn [flat_map].
    rewrite app_nil_r, vorder_parts. cbn [vparts]. inB c a. inB c c2. 
    apply (sq_join c c1 a c'); [assumption|apply H; assumption|ends|]. 
    eapply part_order; [exact h|reflexivity|assumption| |apply H0; assumption]. ends.
Qed.
End Order.

(** * Results *)

Lemma bare_node file v n : new_ast file v = Ok n -> bare v -> no_command n.
Proof. intros H [p [e [s [-> E]]]]. inversion H; subst. do 3 eexists. split; eauto. Qed.
Lemma vcom_node file v n : new_ast file v = Ok n -> vcom v -> is_comment n.
Proof. intros H [p [s ->]]. inversion H; subst. do 2 eexists. eauto. Qed.
Lemma vher_node file v n : new_ast file v = Ok n -> vher v -> is_heredoc_let n.
Proof.
  intros H [p [e [l [ls [rs [q [fl [m [b ->]]]]]]]]]. cbn [new_ast] in H. unbind H.
  repeat match goal with X : bind _ _ = Ok _ |- _ => unbind X end.
  repeat match goal with X : Ok _ = Ok _ |- _ => inversion X; subst; clear X end. do 6 eexists. split; [reflexivity|]. eauto 10.
Qed.
Lemma Rv_order file B x y n m : sorted B -> Rv B x y -> new_ast file x = Ok n -> new_ast file y = Ok m -> in_order n m.
Proof.
  intros Hs [s [t [E1 [E2 [S1 [S2 H]]]]]] Hn Hm.
  destruct (new_ast_ea _ _ _ Hn) as [P1 _]. destruct (new_ast_ea _ _ _ Hm) as [P2 _].
  unfold in_order. rewrite P1, P2, E1, E2. destruct H as [[H1 H2]|[[H1 [H2 <-]]|[H1 [H2 [H3 H4]]]]].
  - left. apply (later _ _ _ Hs S1 H1 H2).
  - right; left. split. eapply bare_node; eauto. split; auto. eapply vcom_node; eauto.
  - right; right. split. eapply vcom_node; eauto. split. eapply vher_node; eauto. apply (later _ _ _ Hs S2 H3 H4).
Qed.
Lemma pairs_two {A B} (R : A -> A -> Prop) (S : B -> B -> Prop) (Q : A -> B -> Prop) l m :
  (forall x y x' y', R x y -> Q x x' -> Q y y' -> S x' y') -> Forall2 Q l m -> ForallOrdPairs R l -> ForallOrdPairs S m.
Proof.
  intros H. induction 1 as [|x y l m H1 H2 IH]; intros K; inversion K; subst; constructor; auto.
  clear -H H1 H2 H4. induction H2; inversion H4; subst; constructor; eauto.
Qed.

Lemma file_order src file opt p body : ParseFile src file opt = Returned (NFile p body) ->
  ForallOrdPairs in_order (flat_map order body).
Proof.
  intros H. destruct src as [bs b].
  destruct (ParseFile_cases (mkSource bs b) file opt) as [[v [p' [body' [H1 [H2 H3]]]]]|[[msg [s [_ H3]]]|[k [_ H3]]]];
    rewrite H3 in H; inversion H; subst. clear H H3.
  destruct H1 as [vs [c1 [c' [-> [H1 _]]]]].
  pose proof (proj1 (proj2 (script_order (neovim_of opt) (open_source (mkSource bs b)))) _ _ _ _ H1 (sfx_refl _)) as [_ [K _]].
  pose proof (order_from _ _ _ H2) as F. cbn [vorder order] in F. inversion F; subst.
  destruct (seen_exists bs) as [ts Hts].
  eapply pairs_two; [|eassumption|exact K]. intros x y n m HR Hn Hm. cbv beta in Hn, Hm. eapply Rv_order; eauto.
  rewrite (seen_open _ _ _ Hts). apply reader_sorted.
Qed.

(** Every command and comment is in that list. *)
Definition listed (n : node) : Prop := nea n <> None \/ is_comment n \/ exists p b, n = NFile p b.
Lemma order_self n : In n (order n). Proof. destruct n; left; reflexivity. Qed.
Lemma order_field k n : typed k -> In n (fields k) -> listed n -> In n (order k).
Proof.
  intros Ht Hn Hl.
  assert (NE : forall n, is_expr n = true -> ~ listed n).
  { intros x Hx [Hl'|[[q [s ->]]|[q [s ->]]]]; try discriminate. destruct x; try discriminate Hx; apply Hl'; reflexivity. }
  assert (NX : forall l, exprs l -> ~ In n l).
  { intros l Hx Hi. unfold exprs in Hx. rewrite Forall_forall in Hx. apply (NE n); auto. }
  assert (NO : forall o, opt_expr o -> ~ In n (on o)).
  { intros o [->|[x [-> Hx]]] Hi; cbn in Hi; [contradiction|]. destruct Hi as [->|[]]. apply (NE n); auto. }
  assert (NP : forall o, expr o -> ~ In n (on o)) by (intros; apply NO; right; auto).
  assert (NI : forall l, idents l -> ~ In n l).
  { intros l Hx. apply NX. unfold exprs. eapply Forall_impl; [|exact Hx]. intros ? [? [? ->]]. reflexivity. }
  assert (FM : forall l, In n l -> In n (flat_map order l)).
  { intros l Hi. apply in_flat_map. exists n. split; auto. apply order_self. }
  assert (OO : forall o, In n (on o) -> In n (oo order o)).
  { intros [x|] Hi; cbn in *; [|contradiction]. destruct Hi as [->|[]]. apply order_self. }
  destruct k; cbn [fields] in Hn; cbn [typed] in Ht; cbn [order]; try contradiction; right; rewrite ?in_app_iff in *;
    repeat match goal with X : _ /\ _ |- _ => destruct X | X : _ \/ _ |- _ => destruct X end; auto 10;
    try solve [exfalso; match goal with
      | X : In n (on ?o) |- _ => first [apply (NO o); solve [auto] | apply (NP o); solve [auto]]
      | X : In n ?l |- _ => first [apply (NX l); solve [auto] | apply (NI l); solve [auto]]
      end].
  - destruct Ht as [g [q [args ->]]]. destruct Hn as [<-|[]]. exfalso. eapply NE; eauto. reflexivity.
  - match goal with X : exists _ _, right = _ |- _ => destruct X as [q [s ->]] end.
    match goal with X : In n (on (Some _)) |- _ => destruct X as [<-|[]] end. exfalso. eapply NE; eauto. reflexivity.
  - exfalso. apply in_flat_map in Hn. destruct Hn as [kv [K1 K2]]. rewrite Forall_forall in Ht. destruct (Ht _ K1).
    apply in_app_iff in K2. destruct K2 as [K2|K2]; revert K2; apply NP; auto.
  - exfalso. rewrite Forall_forall in Ht. destruct (Ht _ Hn) as [[q [s ->]]|[q [x ->]]]; destruct Hl as [Hl|[[q' [s' E]]|[q' [s' E]]]];
      try discriminate E; apply Hl; reflexivity.
Qed.
(** The list of a node of the list is part of it. *)
Lemma order_trans : forall k m n, In m (order k) -> In n (order m) -> In n (order k).
Proof.
  fix IH 1. intros k m n Hm Hn.
  assert (O : forall o, (forall x, o = Some x -> In m (order x) -> In n (order x)) -> In m (oo order o) -> In n (oo order o)).
  { intros [x|] H Hi; cbn in *; auto. }
  destruct k; cbn [order] in Hm |- *; destruct Hm as [<-|Hm]; try (exact Hn); right; try contradiction;
    rewrite ?in_app_iff in *; repeat match goal with X : _ \/ _ |- _ => destruct X as [X|X] end.
  all: try (match type of Hm with In _ (oo order ?o) => 
    assert (In n (oo order o)); [destruct o as [x|]; [exact (IH x m n Hm Hn)|contradiction]|tauto] end).
  all: match type of Hm with In _ (flat_map order ?l) => assert (In n (flat_map order l)); [|tauto];
    clear O; induction l as [|x l IHl]; cbn [flat_map] in *; [contradiction|]; apply in_app_iff in Hm; apply in_app_iff;
    destruct Hm as [Hm|Hm]; [left; exact (IH x m n Hm Hn)|right; exact (IHl Hm)] end.
Qed.
Lemma order_listed m : listed m \/ order m = [m].
Proof.
  destruct m; try (left; left; discriminate); try (right; reflexivity).
  - left; right; right; eauto.
Qed.
Lemma within_order root : (forall k, within root k -> typed k) ->
  forall n, within root n -> listed n -> In n (order root).
Proof.
  intros Ht n H. induction H as [|m n H IH Hn]; intros Hl.
  - apply order_self.
  - pose proof (order_field _ _ (Ht _ H) Hn Hl) as K. destruct (order_listed m) as [L|L].
    + eapply order_trans; [apply IH; auto|exact K].
    + rewrite L in K. destruct K as [<-|[]]. auto.
Qed.
Lemma file_listed bs fails file opt p body n : ParseFile (mkSource bs fails) file opt = Returned (NFile p body) ->
  within (NFile p body) n -> nea n <> None \/ is_comment n -> In n (flat_map order body).
Proof.
  intros H Hn Hl.
  assert (K : In n (order (NFile p body))).
  { apply within_order; auto. 2:{ unfold listed; tauto. } intros k Hk. eapply node_typed; eauto. left; eauto. }
  destruct K as [<-|K]; auto. destruct Hl as [Hl|[q [s E]]]; [|discriminate]. contradiction Hl; reflexivity.
Qed.
