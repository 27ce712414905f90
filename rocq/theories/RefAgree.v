(** The compiler of the public AST and the compiler of the internal tree write the same. *)
From Coq Require Import Lia ZifyBool ZifyNat ZifyN.
From Verif Require Import Base Utf8 CharClass Reader Vnode Token Ast CmdTable Cursor Grammar TokSafe ExprSafe
  ExprParser CmdParser Export ExportSafe Script CmdBase CmdArgs CmdPieces CmdOpen ScriptExport Api ApiExpr ApiFile
  Places PlacesProof LinesProof ReaderFacts Nodes Derived Shape NodeText NodeFacts Blocks RefCompiler Compiler
  Sexpr WalkProof CompileProof ExprText JoinProof CmdLoop.

(** * No line feed in the text *)

Lemma decode_lf l : forall k, (length l <= k)%nat -> ~ In 10 l -> ~ In 10 (decode l).
Proof.
  intros k. revert l. induction k as [|k IH]; intros l Hk H.
  - destruct l; [exact H|cbn in Hk; lia].
  - destruct l as [|b0 t0]; [exact H|].
    assert (H0 : ~ In 10 (decode t0)) by (apply IH; [cbn in Hk; lia|intros K; apply H; right; exact K]).
    assert (E0 : ~ In 10 (rune_error :: decode t0)) by (intros [K|K]; [discriminate|auto]).
    cbn [decode]. destruct (b0 <? 128) eqn:E1; [intros [K|K]; auto; apply H; left; auto|].
    destruct (in_range 194 223 b0) eqn:E2; [|destruct (in_range 224 239 b0) eqn:E3; [|destruct (in_range 240 244 b0) eqn:E4; auto]].
    + destruct t0 as [|b1 t1]; auto. destruct (is_cont b1) eqn:F; auto.
      intros [K|K]; [unfold is_cont, in_range in *; lia|]. revert K. apply IH; [cbn in Hk; lia|intros K; apply H; right; right; auto].
    + destruct t0 as [|b1 [|b2 t2]]; auto. destruct (ok2_of3 b0 b1 && is_cont b2) eqn:F; auto.
      intros [K|K]; [|revert K; apply IH; [cbn in Hk; lia|intros K; apply H; do 3 right; auto]].
      unfold ok2_of3, is_cont, in_range in *. destruct (b0 =? 224) eqn:G1; [lia|]. destruct (b0 =? 237) eqn:G2; lia.
    + destruct t0 as [|b1 [|b2 [|b3 t3]]]; auto. destruct (ok2_of4 b0 b1 && is_cont b2 && is_cont b3) eqn:F; auto.
      intros [K|K]; [|revert K; apply IH; [cbn in Hk; lia|intros K; apply H; do 4 right; auto]].
      unfold ok2_of4, is_cont, in_range in *. destruct (b0 =? 240) eqn:G1; [lia|]. destruct (b0 =? 244) eqn:G2; lia.
Qed.
Lemma split_lf bs ls : split_lines bs ls -> Forall (fun l => ~ In 10 l) ls.
Proof. induction 1; constructor; auto. Qed.
Lemma seen_lf bs ts : seen_lines bs ts -> Forall (fun l => ~ In 10 l) ts.
Proof.
  intros [ls [ls1 [ls2 [H1 [H2 [H3 ->]]]]]]. apply split_lf in H1.
  assert (K : Forall (fun l => ~ In 10 l) ls1).
  { clear H3. revert H1. induction H2; intros K; inversion K; subst; constructor; auto. }
  clear H1 H2. apply Forall_forall. intros t Ht. apply in_map_iff in Ht. destruct Ht as [l [<- Hl]].
  eapply decode_lf; [apply le_n|]. induction H3 as [|x y ls1 ls2 W _ IH]; [contradiction|]. inversion K as [|? ? K1 K2]; subst. destruct Hl as [->|Hl]; auto.
  inversion W; subst; auto. intros X. apply K1. apply in_or_app; auto.
Qed.
Fixpoint no_lf (c : cursor) : Prop :=
  match c with Eof _ => True | Cons (R r) _ t => r <> 10 /\ no_lf t | Cons EOL _ t => no_lf t end.
Lemma put_first_lf t : forall i ln col off k, ~ In 10 t -> (forall j, no_lf (k j)) -> no_lf (put_first t i ln col off k).
Proof.
  induction t as [|r t IH]; intros; cbn [put_first no_lf]; auto. split.
  - intros ->. apply H. left; auto.
  - apply IH; auto. intros K. apply H. right; auto.
Qed.
Lemma put_cont_lf t : forall i ln col k, ~ In 10 t -> (forall j, no_lf (k j)) -> no_lf (put_cont t i ln col k).
Proof.
  induction t as [|r t IH]; intros; cbn [put_cont no_lf]; auto. split.
  - intros ->. apply H. left; auto.
  - apply IH; auto. intros K. apply H. right; auto.
Qed.
Lemma skip_backslash_in x l : forall col, In x (fst (skip_backslash l col)) -> In x l.
Proof. induction l as [|r l IH]; intros col; cbn [skip_backslash]; auto. destruct (r =? 92); cbn; eauto. Qed.
Lemma build_lf ts : Forall (fun l => ~ In 10 l) ts -> forall i ln col off, no_lf (build_more ts i ln col off).
Proof.
  induction 1 as [|l ts H _ IH]; intros; cbn [build_more]; [cbn; auto|]. destruct (re_continuation l).
  - destruct (skip_backslash l 0) as [t c] eqn:E. apply put_cont_lf; auto. intros K. apply H.
    apply (skip_backslash_in _ _ 0). rewrite E. exact K.
  - cbn [no_lf]. apply put_first_lf; auto.
Qed.
Lemma reader_lf ts : Forall (fun l => ~ In 10 l) ts -> no_lf (new_reader ts).
Proof. destruct 1; cbn [new_reader]; [exact I|]. apply put_first_lf; auto. intros. apply build_lf; auto. Qed.
Lemma source_lf src : no_lf (open_source src).
Proof.
  destruct src as [bs b]. destruct (seen_exists bs) as [ts H]. rewrite (seen_open _ _ b H). apply reader_lf.
  eapply seen_lf; eauto.
Qed.
Lemma sfx_lf d c : sfx d c -> no_lf c -> no_lf d.
Proof. induction 1; auto. intros K. apply IHsfx. destruct x; cbn [no_lf] in K; tauto. Qed.
Lemma spells_lf s : forall d c, no_lf d -> spells s d c -> ~ In 10 s.
Proof.
  induction s as [|r s IH]; intros d c Hd H; [intros []|]. cbn [spells] in H. destruct d as [|[|x] p d]; try contradiction.
  destruct H as [-> H]. destruct Hd as [H1 H2]. intros [K|K]; [auto|]. exact (IH _ _ H2 H K).
Qed.

(** * Texts that do not end with a line feed *)

Definition oe (s : text) : Prop := forall b, s <> b ++ [10].
Lemma oe_nil : oe []. Proof. intros [|x b] H; discriminate. Qed.
Lemma oe_last s c : c <> 10 -> oe (s ++ [c]).
Proof. intros H b E. apply app_inj_tail in E. destruct E. congruence. Qed.
Lemma oe_app a b : oe a -> oe b -> oe (a ++ b).
Proof.
  intros Ha Hb. destruct b as [|x b] using rev_ind; [rewrite app_nil_r; auto|]. rewrite app_assoc. apply oe_last.
  intros ->. exact (Hb b eq_refl).
Qed.
Lemma oe_in s : ~ In 10 s -> oe s.
Proof. intros H b ->. apply H. apply in_or_app. right. left. auto. Qed.
Lemma oe_concat l : Forall oe l -> oe (concat l).
Proof. induction 1; cbn [concat]; [apply oe_nil|apply oe_app; auto]. Qed.
(** Such a text in front of a line feed. *)
Definition fine (s : text) : Prop := exists b x, s = b ++ [x] /\ x <> 10.
Lemma fine_oe a s : a <> [] -> oe a -> oe s -> fine (a ++ s).
Proof.
  intros Hn Ha Hs. pose proof (oe_app _ _ Ha Hs) as K. destruct (exists_last (l := a ++ s)) as [b [x E]].
  - intros E. apply app_eq_nil in E. tauto.
  - exists b, x. split; auto. intros ->. exact (K _ E).
Qed.

Section Agree.
Context (neovim : bool) (B : cursor) (file : list N) (HB : no_lf B).
Notation derived := (derived neovim B).

Lemma spelled_lf p s : spelled B p s -> ~ In 10 s.
Proof. intros [d [c [H1 [_ H2]]]]. exact (spells_lf s d c (sfx_lf _ _ H1 HB) H2). Qed.

Definition agrees (v : vnode) : Prop := forall lp fn n, derived lp fn v -> new_ast file v = Ok n -> is_expr n = true ->
  rc_expr v = Ok (compile_expr n) /\ oe (compile_expr n).

Lemma ex_agree v o lp fn : agrees v -> derived lp fn v -> (let* y := new_ast file v in Ok (to_expr y)) = Ok o -> expr o ->
  exists m, o = Some m /\ rc_expr v = Ok (compile_expr m) /\ oe (compile_expr m).
Proof.
  intros HA HD H [m [-> Hm]]. exists m. split; auto. destruct (new_ast file v) eqn:E; cbn [bind] in H; try discriminate.
  unfold to_expr in H. destruct (is_expr a) eqn:F; inversion H; subst. exact (HA lp fn m HD E F).
Qed.
Lemma oex_agree x o lp fn : Forall agrees (vo x) -> Forall (derived lp fn) (ov x) ->
  (match x with None => Ok None | Some v => let* y := new_ast file v in Ok (to_expr y) end) = Ok o -> 
  (x <> None -> o <> None) ->
  match x, o with
  | None, None => True
  | Some v, Some m => rc_expr v = Ok (compile_expr m) /\ oe (compile_expr m) /\ is_expr m = true
  | _, _ => False
  end.
Proof.
  destruct x as [v|]; intros HA HD H K.
  - cbn [vo ov] in *. apply Forall_cons_iff in HA. apply Forall_cons_iff in HD. destruct HA as [A1 _], HD as [D1 _].
    destruct o as [m|]; [|apply K; congruence].
    destruct (new_ast file v) eqn:E; cbn [bind] in H; try discriminate.
    unfold to_expr in H. destruct (is_expr a) eqn:F; inversion H; subst.
    destruct (A1 lp fn m D1 E F). auto.
  - inversion H; subst. exact I.
Qed.
Definition alist (l : list vnode) (r : list node) : Prop :=
  mapM rc_expr l = Ok (map compile_expr r) /\ Forall oe (map compile_expr r) /\
  Forall2 (fun v n => rc_expr v = Ok (compile_expr n)) l r.
Lemma forall2_agree lp fn l r : Forall2 (fun v n => new_ast file v = Ok n /\ is_expr n = true) l r ->
  Forall agrees l -> Forall (derived lp fn) l -> alist l r.
Proof.
  unfold alist. induction 1 as [|v n l r [H1 H2] _ IH]; intros HA HD; cbn [mapM map]; auto.
  apply Forall_cons_iff in HA. apply Forall_cons_iff in HD. destruct HA as [A1 A2], HD as [D1 D2].
  destruct (A1 lp fn n) as [E O]; auto. rewrite E. cbn [bind].
  destruct (IH A2 D2) as [-> [? ?]]. cbn [bind]. split; [reflexivity|]. split; constructor; auto.
Qed.
Lemma exs_agree lp fn l r : mapM (fun x => let* y := new_ast file x in expr_elem y) l = Ok r ->
  Forall agrees l -> Forall (derived lp fn) l -> alist l r.
Proof. intros H. apply forall2_agree. apply exs_forall2. exact H. Qed.
Lemma cast_agree f lp fn l r : (forall n, f n = true -> is_expr n = true) ->
  mapM (fun x => let* y := new_ast file x in assert_node f y) l = Ok r ->
  Forall agrees l -> Forall (derived lp fn) l -> alist l r.
Proof.
  intros Hf H. apply forall2_agree. apply cast_forall2 in H. induction H as [|v n l r [H1 H2] _ IH]; constructor; auto.
Qed.

Ltac fa := repeat match goal with
  | H : Forall _ (_ ++ _) |- _ => apply Forall_app in H; destruct H
  | H : Forall _ (_ :: _) |- _ => apply Forall_cons_iff in H; destruct H
  end.
Lemma is_ident_expr n : is_ident n = true -> is_expr n = true. Proof. destruct n; auto; discriminate. Qed.
Lemma is_curly_expr n : is_curlypart n = true -> is_expr n = true. Proof. destruct n; auto; discriminate. Qed.
Lemma bin_agree o : rc_bin o = if text_eqb (token_string (bin_token o)) (T ".") then T "concat" else token_string (bin_token o).
Proof. destruct o as [| |[] []| | | | | |]; reflexivity. Qed.
Lemma un_agree o : rc_un o = token_string (un_token o).
Proof. destruct o; reflexivity. Qed.
Lemma opt_not_none o o' : opt_expr o' -> (forall v : vnode, o = Some v -> expr o') -> o <> None -> o' <> None.
Proof. destruct o as [v|]; [|congruence]. intros _ K _. destruct (K v eq_refl) as [m [-> _]]. discriminate. Qed.
Lemma exported_ex v o : exported file v -> (let* y := new_ast file v in Ok (to_expr y)) = Ok o -> o <> None.
Proof.
  intros [m [E F]] H. rewrite E in H. cbn [bind] in H. unfold to_expr in H. rewrite F in H. inversion H. discriminate.
Qed.
Lemma oexported_ex x o : oexported file x ->
  (match x with None => Ok None | Some v => let* y := new_ast file v in Ok (to_expr y) end) = Ok o -> x <> None -> o <> None.
Proof. destruct x as [v|]; [|congruence]. intros K H _. eapply exported_ex; eauto. Qed.

Ltac close := rewrite ?app_assoc; first [apply oe_last; discriminate | apply oe_nil | apply oe_in; cbn [In]; intuition discriminate].
Lemma is_nil_mapc (l : list node) : is_nil (map compile_expr l) = is_nil l. Proof. destruct l; reflexivity. Qed.

Lemma words_agree l r : Forall (fun v => v_lit v = true) l -> mapM (fun x => let* y := new_ast file x in expr_elem y) l = Ok r ->
  mapM (fun x => let* s := value_string x in Ok (escape_string s)) l =
  Ok (map (fun f => [34] ++ escape (compile_expr f) [10; 9; 13] ++ [34]) r).
Proof.
  intros HL H. apply exs_forall2 in H. induction H as [|v n l r [H1 H2] _ IH]; [reflexivity|].
  inversion HL; subst. cbn [mapM map]. rewrite IH by auto. destruct v; try discriminate. destruct k; try discriminate.
  cbn in H1. inversion H1; subst. cbn [value_string bind compile_expr]. f_equal. f_equal.
  unfold escape_string. cbn [app]. f_equal. f_equal. unfold escape. apply flat_map_ext. intros c. unfold mem_N.
  destruct (c =? 10); [reflexivity|]. destruct (c =? 9); [reflexivity|]. destruct (c =? 13); reflexivity.
Qed.
Lemma word_plain s : some_of iswordc s -> flat_map (fun c => if c =? 10 then T "\n" else if c =? 9 then T "\t"
                           else if c =? 13 then T "\r" else [c]) s = s.
Proof.
  intros [_ H]. rewrite forallb_forall in H. induction s as [|c s IH]; [reflexivity|]. cbn [flat_map].
  rewrite IH by (intros x Hx; apply H; right; auto).
  assert (K : iswordc c = true) by (apply H; left; auto).
  destruct (c =? 10) eqn:E1; [apply N.eqb_eq in E1; subst; discriminate|].
  destruct (c =? 9) eqn:E2; [apply N.eqb_eq in E2; subst; discriminate|].
  destruct (c =? 13) eqn:E3; [apply N.eqb_eq in E3; subst; discriminate|]. reflexivity.
Qed.
Lemma dhwords_plain c ws m c' : dhwords c ws m c' -> some_of iswordc m /\
  Forall (fun v => exists p s, v = VLit LString p s /\ some_of iswordc s) ws.
Proof. induction 1; split; auto; try tauto. constructor; [eauto|tauto]. Qed.
Lemma flags_agree l r : Forall (fun v => exists p s, v = VLit LString p s /\ some_of iswordc s) l ->
  mapM (fun x => let* y := new_ast file x in expr_elem y) l = Ok r ->
  mapM (fun x => let* s := value_string x in Ok (escape_string s)) l =
  Ok (map (fun f => [34] ++ compile_expr f ++ [34]) r).
Proof.
  intros HL H. apply exs_forall2 in H. induction H as [|v n l r [H1 H2] _ IH]; [reflexivity|].
  apply Forall_cons_iff in HL. destruct HL as [[p [s [-> Hs]]] HL]. cbn [mapM map]. rewrite IH by auto.
  cbn in H1. inversion H1; subst. cbn [value_string bind compile_expr]. unfold escape_string. rewrite (word_plain s Hs). reflexivity.
Qed.

Lemma expr_agrees : forall v, agrees v.
Proof.
  apply vnode_nest. intros v IH lp fn n HD HN HE.
  pose proof (derived_fields neovim B _ _ _ HD) as HF. pose proof (derived_shape file neovim B _ _ _ HD) as HS.
  pose proof (shape_typed file _ _ HS HN) as Ty. pose proof (derived_marked neovim B _ _ _ HD) as HM.
  assert (HW : forall p ws m b, v = VHeredoc p ws m b -> some_of iswordc m /\
     Forall (fun v => exists p s, v = VLit LString p s /\ some_of iswordc s) ws /\ Forall (fun v => v_lit v = true) b).
  { intros p ws m b ->. destruct (derived_heredoc _ _ _ _ _ _ _ _ HD) as (d & c & c1 & cms & c2 & c' & _ & _ & W & _ & L).
    destruct (dhwords_plain _ _ _ _ W). split; auto. split; auto. eapply dhlines_lit; eauto. }
  assert (HH : forall p ws m b p' fl m' bd, v = VHeredoc p ws m b -> n = NHeredoc p' fl m' bd -> rc_expr v = Ok (compile_expr n)).
  { intros p ws m b p' fl m' bd Ev En. destruct (HW _ _ _ _ Ev) as [W1 [W2 W3]]. subst n. destruct (heredoc_from _ _ _ _ _ _ HN) as [q [ws' [b' [Ev' [M1 M2]]]]].
    rewrite Ev in Ev'. inversion Ev'; subst. cbn [rc_expr compile_expr]. unfold rc_words.
    rewrite (flags_agree _ _ W2 M1), (words_agree _ _ W3 M2). unfold escape_string. rewrite (word_plain _ W1). cbn [bind].
    apply exs_forall2 in M1. apply exs_forall2 in M2. rewrite (Forall2_nil _ _ _ M1), (Forall2_nil _ _ _ M2).
    destruct (is_nil fl), (is_nil bd); cbn [bind]; repeat (cbn [app]; rewrite <- ?app_assoc); reflexivity. }
  clear HW. destruct v; cbn [new_ast] in HN;
    try match type of HN with (match ?x with _ => _ end) = _ => destruct x eqn:?; try discriminate end;
    unbind HN; inversion HN; subst n; try discriminate HE; clear HN HE;
    cbn [vsub vfields v_loop v_func typed vmarked vshape] in *; fa;
    repeat match goal with X : _ /\ _ |- _ => destruct X end;
    repeat match goal with
    | E : (let* y := new_ast file ?v in Ok (to_expr y)) = Ok ?o, A : agrees ?v, D : Derived.derived _ _ _ _ ?v, X : expr ?o |- _ =>
      let m := fresh "m" in let E1 := fresh "R" in let O := fresh "O" in
      destruct (ex_agree _ _ _ _ A D E X) as [m [-> [E1 O]]]; clear E X
    | E : mapM (fun x => let* y := new_ast file x in expr_elem y) ?l = Ok ?r, A : Forall agrees ?l, D : Forall (Derived.derived _ _ _ _) ?l |- _ =>
      let E1 := fresh "R" in let O := fresh "O" in
      destruct (exs_agree _ _ _ _ E A D) as [E1 [O _]]; clear E
    | E : mapM (fun x => let* y := new_ast file x in assert_node is_ident y) ?l = Ok ?r, A : Forall agrees ?l, D : Forall (Derived.derived _ _ _ _) ?l |- _ =>
      let E1 := fresh "R" in let O := fresh "O" in
      destruct (cast_agree _ _ _ _ _ is_ident_expr E A D) as [E1 [O _]]; clear E
    | E : mapM (fun x => let* y := new_ast file x in assert_node is_curlypart y) ?l = Ok ?r, A : Forall agrees ?l, D : Forall (Derived.derived _ _ _ _) ?l |- _ =>
      let E1 := fresh "R" in let O := fresh "O" in
      destruct (cast_agree _ _ _ _ _ is_curly_expr E A D) as [E1 [O _]]; clear E
    end.
  all: cbn [rc_expr compile_expr].
  all: repeat match goal with R : rc_expr _ = Ok _ |- _ => rewrite R; clear R; cbn [bind] | R : mapM rc_expr _ = Ok _ |- _ => rewrite R; clear R; cbn [bind] end.
  all: try (split; [reflexivity|close]).
  - (* VBin *) rewrite bin_agree. split; [reflexivity|close].
  - (* VUn *) rewrite un_agree. split; [reflexivity|close].
  - (* VSlice *)
    match goal with E1 : _ = Ok a0, E2 : _ = Ok a1, X1 : oexported _ r0, X2 : oexported _ r1, A1 : Forall agrees (vo r0), A2 : Forall agrees (vo r1),
        D1 : Forall _ (ov r0), D2 : Forall _ (ov r1) |- _ =>
      pose proof (oex_agree _ _ _ _ A1 D1 E1 (oexported_ex _ _ X1 E1)) as G1; pose proof (oex_agree _ _ _ _ A2 D2 E2 (oexported_ex _ _ X2 E2)) as G2 end.
    assert (K1 : match r0 with Some x => rc_expr x | None => Ok (T "nil") end = Ok match a0 with Some y => compile_expr y | None => T "nil" end).
    { destruct r0, a0; try contradiction; [apply G1|reflexivity]. }
    assert (K2 : match r1 with Some x => rc_expr x | None => Ok (T "nil") end = Ok match a1 with Some y => compile_expr y | None => T "nil" end).
    { destruct r1, a1; try contradiction; [apply G2|reflexivity]. }
    unfold text in *. rewrite K1. cbn [bind]. rewrite K2. cbn [bind]. split; [reflexivity|close].
  - (* VMethod *) split.
    + rewrite is_nil_mapc. destruct a1; cbn [is_nil bind map join]; rewrite <- ?app_assoc; reflexivity.
    + change [41; 41] with ([41] ++ [41]). close.
  - (* VCall *) rewrite is_nil_mapc. destruct (is_nil a0); (split; [reflexivity|close]).
  - (* VDot *)
    match goal with E : _ = Ok a0, A : agrees v2, D : Derived.derived _ _ _ _ v2 |- _ => apply cast_from in E; destruct E as [E F];
      destruct (A _ _ _ D E (is_ident_expr _ F)) as [R _] end.
    rewrite R. cbn [bind]. split; [reflexivity|close].
  - (* VLit *) split; [reflexivity|].
    destruct HM as [HM|[_ [r [s [d [x [q [u [c [-> _]]]]]]]]]]; [apply oe_in; eapply spelled_lf; eauto|]. apply (oe_last ([39] ++ r :: s)); discriminate.
  - (* VList *) rewrite is_nil_mapc. destruct (is_nil a); (split; [reflexivity|close]).
  - (* VDict *)
    assert (G : mapM (fun kv => match kv with (k, v) =>
                         let* k' := rc_expr k in let* v' := rc_expr v in
                         Ok (T "(" ++ k' ++ [32] ++ v' ++ T ")") end) value =
                Ok (map (fun e => match e with (k, v) => T "(" ++ match k with None => [] | Some x => compile_expr x end ++ [32] ++
                  match v with None => [] | Some x => compile_expr x end ++ T ")" end) a)).
    { match goal with E : mapM _ value = Ok a |- _ => rename E into EM end.
      match goal with X1 : Forall agrees (map fst value), X2 : Forall agrees (map snd value), X3 : Forall _ (flat_map _ value) |- _ =>
        rename X1 into A1, X2 into A2, X3 into D end.
      clear - EM A1 A2 D Ty. revert a EM A1 A2 D Ty. induction value as [|[k v] l IHl]; intros a EM A1 A2 D Ty.
      - cbn in EM. inversion EM; subst. reflexivity.
      - cbn [mapM] in EM. unbind EM. inversion EM; subst. cbn [map fst snd flat_map app] in *. fa. cbn [fst snd] in *.
        match goal with X : _ /\ _ |- _ => destruct X end. unbind E. inversion E; subst. cbn [fst snd] in *.
        match goal with
        | X1 : _ = Ok ?o1, X2 : _ = Ok ?o2, Y1 : expr ?o1, Y2 : expr ?o2, Z1 : agrees k, Z2 : agrees v, W1 : Derived.derived _ _ _ _ k,
            W2 : Derived.derived _ _ _ _ v |- _ => 
          destruct (ex_agree _ _ _ _ Z1 W1 X1 Y1) as [m1 [-> [R1 _]]]; destruct (ex_agree _ _ _ _ Z2 W2 X2 Y2) as [m2 [-> [R2 _]]] end.
        cbn [mapM map]. rewrite R1. cbn [bind]. rewrite R2. cbn [bind]. erewrite IHl by eauto. reflexivity. }
    rewrite G. cbn [bind]. unfold text in *. rewrite is_nil_map. destruct (is_nil a); (split; [reflexivity|close]).
  - (* VIdent *) split; [reflexivity|]. apply oe_in; eapply spelled_lf; eauto.
  - (* VCurlyName *) split; [reflexivity|]. rewrite join_concat. apply oe_concat; auto.
  - (* VCurlyPart *) split; [reflexivity|]. apply oe_in; eapply spelled_lf; eauto.
  - (* VHeredoc *) split; [eapply HH; reflexivity|]. close.
  - (* VParen *) auto.
Qed.

(** * Statements *)

Lemma command_name lp fn v e nm : derived lp fn v -> vea v = Some e -> vnames v = [nm] -> cmd_name (new_exarg file e) = Ok nm.
Proof.
  intros HD He Hv. destruct (derived_command _ _ _ _ _ _ HD He) as [[p [s [-> _]]]|[x [s [Hx [_ [_ [Hn Hp]]]]]]]; [discriminate|].
  unfold cmd_name, new_exarg. cbn [ae_cmd]. rewrite Hx. f_equal.
  assert (K : exists n, vnames v = [n] /\ c_parser x = parser_of n) by (destruct v; try discriminate Hv; exact Hp).
  destruct K as [n [K1 K2]]. rewrite Hv in K1. inversion K1; subst. eapply named_parser; eauto. eapply vnames_known; eauto.
Qed.
Lemma escape_same s : escape s [92; 34] = escape_bq s.
Proof.
  unfold escape, escape_bq. apply flat_map_ext. intros c. unfold mem_N. rewrite orb_false_r. change (C "\") with 92.
  destruct (c =? 92) eqn:E1; [apply N.eqb_eq in E1; subst; reflexivity|].
  destruct (c =? 34) eqn:E2; [apply N.eqb_eq in E2; subst; reflexivity|]. reflexivity.
Qed.
Lemma nth_texts (da : list node) j : nth j (map compile_expr da) [] = compile_oexpr (nth_error da j).
Proof. revert j; induction da as [|x da IH]; intros [|j]; cbn; auto. Qed.
Lemma params_join rl da nr : forall i, rc_params i nr (length da) rl (map compile_expr da) =
  concat (map (fun t => [32] ++ t) (param_texts i nr (length da) rl da)).
Proof.
  induction rl as [|r rl IH]; intros i; cbn [rc_params param_texts map concat]; auto. rewrite IH, nth_texts.
  destruct (i + length da <? nr)%nat; rewrite <- ?app_assoc; reflexivity.
Qed.
Lemma join_front l : l <> [] -> [32] ++ join [32] l = concat (map (fun t => [32] ++ t) l).
Proof.
  intros H. rewrite join_spaced. induction l as [|x l IH]; [congruence|]. destruct l as [|y l].
  - cbn. rewrite app_nil_r. reflexivity.
  - rewrite spaced_cons by discriminate. cbn [map concat]. cbn [map concat] in IH. rewrite <- IH by discriminate.
    rewrite <- !app_assoc. reflexivity.
Qed.
Lemma idents_texts ps : idents ps -> map compile_expr ps = map ident_name ps.
Proof. intros H. apply map_ext_in. intros n Hn. unfold idents in H. rewrite Forall_forall in H. destruct (H n Hn) as [p [s ->]]. reflexivity. Qed.
Lemma lastn_map {A B'} (f : A -> B') l : lastn_opt (map f l) = option_map f (lastn_opt l).
Proof. induction l as [|x [|y l] IH]; cbn; auto. Qed.
Lemma removelast_map {A B'} (f : A -> B') l : removelast (map f l) = map f (removelast l).
Proof.
  induction l as [|x l IH]; cbn [map removelast]; auto. destruct l; cbn [map] in *; auto. rewrite IH. reflexivity.
Qed.
Lemma signature_agree nm ps da : idents ps -> rc_signature nm (map compile_expr ps) (map compile_expr da) =
  nm ++ if is_nil ps then [] else [32] ++ join [32]
    (param_texts 0 (length (cut_dots ps)) (length da) (map ident_name (cut_dots ps)) da ++ if ends_dots ps then [T ". ..."] else []).
Proof.
  intros Hi. rewrite (idents_texts ps Hi). unfold rc_signature. rewrite lastn_map. unfold cut_dots, ends_dots.
  destruct (lastn_opt ps) as [q|] eqn:E; cbn [option_map].
  - assert (N : ps <> []) by (intros ->; discriminate E). destruct ps as [|p0 ps']; [congruence|]. set (ps := p0 :: ps') in *.
    change (is_nil ps) with false. change (token_string TDOTDOTDOT) with (T "..."). f_equal.
    destruct (text_eqb (ident_name q) (T "...")); cbn iota.
    + rewrite removelast_map, map_length, map_length, params_join, join_front by (destruct (param_texts 0 (length (removelast ps)) (length da) (map ident_name (removelast ps)) da); discriminate).
      rewrite map_app, concat_app. reflexivity.
    + rewrite app_nil_r. rewrite map_length, map_length, params_join. rewrite app_nil_r. symmetry. apply join_front. discriminate.
  - destruct ps; [rewrite app_nil_r; reflexivity|]. exfalso. clear - E. revert n E. induction ps as [|y ps IH]; intros n E; [discriminate|]. apply (IH y E).
Qed.
Lemma oex_none (o : option vnode) : (o <> None -> False) -> o = None.
Proof. destruct o; auto. intros H. exfalso. apply H. discriminate. Qed.

Lemma lhs_agree lp fn l ls rs l' ls' rs' : vleft file l ls rs ->
  Forall agrees (vo l) -> Forall agrees ls -> Forall agrees (vo rs) ->
  Forall (derived lp fn) (ov l) -> Forall (derived lp fn) ls -> Forall (derived lp fn) (ov rs) ->
  (match l with None => Ok None | Some v => let* y := new_ast file v in Ok (to_expr y) end) = Ok l' ->
  mapM (fun x => let* y := new_ast file x in expr_elem y) ls = Ok ls' ->
  (match rs with None => Ok None | Some v => let* y := new_ast file v in Ok (to_expr y) end) = Ok rs' ->
  rc_lhs l ls rs = Ok (compile_lhs l' ls' rs').
Proof.
  intros [V1 [V2 _]] A1 A2 A3 D1 D2 D3 E1 E2 E3.
  pose proof (oex_agree _ _ _ _ A1 D1 E1 (oexported_ex _ _ V1 E1)) as G1.
  pose proof (oex_agree _ _ _ _ A3 D3 E3 (oexported_ex _ _ V2 E3)) as G3.
  destruct (exs_agree _ _ _ _ E2 A2 D2) as [G2 _].
  unfold rc_lhs, compile_lhs. destruct l, l'; try contradiction; [apply G1|]. rewrite G2. cbn [bind].
  destruct rs, rs'; try contradiction.
  - destruct G3 as [-> _]. cbn [bind]. rewrite <- ?app_assoc. reflexivity.
  - cbn [bind]. reflexivity.
Qed.

Section Norm.
Context (norm : text -> text) (norm_app : forall a b, norm (a ++ b) = norm a ++ norm b).
Notation unit := [32; 32].
Definition indent (k : nat) : text := concat (repeat unit k).
Definition txt (lines : list text) : text := concat (map (fun l => l ++ [10]) (rev lines)).
Definition eqv (lines : list text) (buf : text) : Prop := norm buf = norm (txt lines).
Definition cl (buf : text) : Prop := exists b x, buf = b ++ [x; 10] /\ x <> 10.
Definition rdy (lines : list text) (buf : text) : Prop := eqv lines buf /\ cl buf /\ lines <> [].

Lemma indent_S k : indent (S k) = indent k ++ unit.
Proof. unfold indent. induction k as [|k IH]; [reflexivity|]. cbn [repeat concat] in *. rewrite IH at 1. rewrite <- app_assoc. reflexivity. Qed.
Lemma txt_cons l lines : txt (l :: lines) = txt lines ++ l ++ [10].
Proof. unfold txt. cbn [rev]. rewrite map_app, concat_app. cbn. rewrite app_nil_r. reflexivity. Qed.
Lemma put_line k s lines buf : eqv lines buf -> fine s -> rdy (rc_line (indent k) s lines) (fprintln unit k s buf).
Proof.
  intros H [b [x [-> Hx]]]. unfold rdy, eqv, rc_line, fprintln, fprint. split; [|split; [|discriminate]].
  - rewrite txt_cons. fold (indent k). unfold eqv in H. rewrite !norm_app, H. rewrite <- ?app_assoc. reflexivity.
  - exists (buf ++ concat (repeat unit k) ++ b), x. split; auto. rewrite <- !app_assoc. reflexivity.
Qed.
Lemma trim_rdy b x : x <> 10 -> trim_line_break (b ++ [x; 10]) = b ++ [x].
Proof.
  intros Hx. unfold trim_line_break. rewrite rev_app_distr. cbn [rev app trim_nl]. change (10 =? 10) with true. cbn iota.
  destruct (x =? 10) eqn:E; [apply N.eqb_eq in E; congruence|]. cbn [rev]. rewrite rev_involutive. reflexivity.
Qed.
Lemma close_rdy lines buf : rdy lines buf -> exists lines', rc_close lines = Ok lines' /\ rdy lines' (close_paren buf).
Proof.
  intros [H [[b [x [-> Hx]]] N]]. destruct lines as [|l t]; [congruence|]. eexists. split; [reflexivity|].
  unfold rdy, eqv, close_paren in *. rewrite trim_rdy by auto. split; [|split; [|discriminate]].
  - rewrite txt_cons in *. change [x; 10] with ([x] ++ [10]) in H. change [41; 10] with ([41] ++ [10]).
    rewrite !norm_app in *. rewrite !app_assoc in H. apply app_inv_tail in H. rewrite !app_assoc. rewrite H. rewrite <- !app_assoc. reflexivity.
  - exists (b ++ [x]), 41. split; [rewrite <- app_assoc; reflexivity|discriminate].
Qed.

(** Functions in blocks are written with more blanks. *)
Definition inner (n : node) (k : nat) : Prop :=
  norm unit = [] \/ ((k = O \/ is_func n = false) /\ forall d f, In d (fields n) -> within d f -> is_func f = false).
Lemma inner_field n m k j : inner n k -> In m (fields n) -> inner m j.
Proof.
  intros [H|[_ H]] Hm; [left; auto|]. right. split.
  - right. apply (H m m Hm). constructor.
  - intros d f Hd W. apply (H m f Hm). eapply within_step; eauto.
Qed.
Lemma norm_nil : norm [] = [].
Proof. pose proof (norm_app [] []) as H. cbn in H. destruct (norm []) as [|x l]; auto. exfalso. apply (f_equal (@length N)) in H. rewrite app_length in H. cbn in H. lia. Qed.
Lemma inner_norm n k : inner n k -> is_func n = true -> norm (indent k) = [].
Proof.
  intros [H|[[->|H] _]] F; [|exact norm_nil|congruence].
  induction k as [|k IH]; [exact norm_nil|]. rewrite indent_S, norm_app, IH, H. reflexivity.
Qed.

Definition gives (f : vnode -> list text -> outcome (list text)) (g : node -> text -> outcome cres) (v : vnode) (n : node) : Prop :=
  forall lines buf, eqv lines buf -> exists lines' buf' n',
    f v lines = Ok lines' /\ g n buf = Ok (buf', false, n') /\ rdy lines' buf'.
Definition body_gives (f : vnode -> list text -> outcome (list text)) (g : node -> text -> outcome cres) (l : list vnode) (r : list node) : Prop :=
  forall lines buf, eqv lines buf -> exists lines' buf' r',
    rc_each f l lines = Ok lines' /\ compile_list g r buf = Ok (buf', false, r') /\ eqv lines' buf' /\ (rdy lines buf -> rdy lines' buf').
Lemma list_gives f g l r : Forall2 (gives f g) l r -> body_gives f g l r.
Proof.
  induction 1 as [|v n l r H _ IH]; intros lines buf HE; cbn [rc_each compile_list]; [eauto 8|].
  destruct (H _ _ HE) as [l1 [b1 [n1 [-> [-> R1]]]]]. cbn [bind]. destruct (IH _ _ (proj1 R1)) as [l2 [b2 [r2 [-> [-> [E2 R2]]]]]].
  cbn [bind]. eauto 10.
Qed.
Lemma parts_give f g l r : Forall2 (fun v n => forall lines buf, rdy lines buf -> exists lines' buf' n',
    f v lines = Ok lines' /\ g n buf = Ok (buf', false, n') /\ rdy lines' buf') l r ->
  forall lines buf, rdy lines buf -> exists lines' buf' r',
    rc_each f l lines = Ok lines' /\ compile_parts g r buf = Ok (buf', r') /\ rdy lines' buf'.
Proof.
  induction 1 as [|v n l r H _ IH]; intros lines buf HE; cbn [rc_each compile_parts]; [eauto 8|].
  destruct (H _ _ HE) as [l1 [b1 [n1 [-> [-> R1]]]]]. cbn [bind]. destruct (IH _ _ R1) as [l2 [b2 [r2 [-> [-> R2]]]]].
  cbn [bind]. eauto 10.
Qed.

Definition stmt_agrees (v : vnode) : Prop := forall lp fn n, derived lp fn v -> new_ast file v = Ok n ->
  (forall k, (forall m, In m (block_of n) -> inner m k) -> body_gives (rc_stmt (indent k)) (comp unit k) (v_block v) (block_of n)) /\
  (v_part v = false -> is_stmt n = true -> forall k, inner n k -> gives (rc_stmt (indent k)) (comp unit k) v n).

Lemma v_block_sub v u : In u (v_block v) -> In u (vsub v) /\ In u (vfields v).
Proof. destruct v; cbn [v_block vsub vfields]; try contradiction; rewrite ?in_app_iff; auto. Qed.

Lemma derived_depth lp fn v : derived lp fn v ->
  match v with VLockvar _ _ z _ | VUnlockvar _ _ z _ => (0 <= z)%Z | _ => True end.
Proof.
  destruct 1; try exact Logic.I.
  - pose proof (dexpr_low _ _ _ _ H). apply dexpr_level in H. destruct v; try exact Logic.I; cbn in H; lia.
  - apply dlval_level in H. destruct v; try exact Logic.I; cbn in H; lia.
  - destruct H; try (destruct H0 as [<-|[]]; try exact Logic.I; match goal with X : ddepth _ _ _ |- _ => destruct X; lia end).
    apply in_app_or in H0; destruct H0 as [H0|[<-|[]]]; try exact Logic.I.
    match goal with X : dtrail _ _ _ |- _ => destruct X; try contradiction end. destruct H0 as [<-|[]]. exact Logic.I.
  - repeat destruct H1 as [H1|H1]; inversion H1; subst; exact Logic.I.
Qed.

Lemma to_expr_ok v r : (let* y := new_ast file v in Ok (to_expr y)) = Ok (Some r) -> is_expr r = true.
Proof.
  intros H. destruct (new_ast file v) as [y| | |]; cbn [bind] in H; try discriminate. unfold to_expr in H.
  destruct (is_expr y) eqn:E; inversion H; subst. exact E.
Qed.
Lemma all_agree l : Forall agrees l.
Proof. apply Forall_forall. intros x _. apply expr_agrees. Qed.
Lemma fine_last s c : c <> 10 -> fine (s ++ [c]).
Proof. exists s, c. auto. Qed.
Lemma fine_tail s t : fine t -> fine (s ++ t).
Proof. intros [b [x [-> H]]]. exists (s ++ b), x. rewrite app_assoc. auto. Qed.
Lemma fine_by s : last s 10 <> 10 -> fine s.
Proof.
  intros H. destruct s as [|y s]; [cbn in H; congruence|]. destruct (@exists_last _ (y :: s)) as [b [x E]]; [discriminate|].
  rewrite E in *. exists b, x. split; auto. rewrite last_last in H. exact H.
Qed.
Ltac fin := repeat apply fine_tail; apply fine_by; discriminate.

Lemma part_from lp fn u m : derived lp fn u -> new_ast file u = Ok m ->
  match m with
  | NElseIf _ e _ c => exists q ve vb vc cc, u = VElseif q ve vb vc /\ cmd_name e = Ok (T "elseif") /\ c = Some cc /\
      rc_expr vc = Ok (compile_expr cc) /\ oe (compile_expr cc)
  | NElse _ e _ => exists q ve vb, u = VElse q ve vb /\ cmd_name e = Ok (T "else")
  | NCatch _ e _ pat => exists q ve vb, u = VCatch q ve vb pat /\ cmd_name e = Ok (T "catch")
  | NFinally _ e _ => exists q ve vb, u = VFinally q ve vb /\ cmd_name e = Ok (T "finally")
  | _ => True
  end.
Proof.
  intros HD HN. pose proof (derived_fields neovim B _ _ _ HD) as HF. pose proof (derived_shape file neovim B _ _ _ HD) as HS.
  pose proof (fun e nm => command_name lp fn u e nm HD) as HC.
  destruct u; cbn [new_ast] in HN;
    try match type of HN with (match ?x with _ => _ end) = _ => destruct x eqn:?; try discriminate end;
    unbind HN; inversion HN; subst m; try exact Logic.I; clear HN; specialize (HC _ _ eq_refl eq_refl).
  - cbn [vfields vshape v_loop v_func] in *. fa. destruct a0 as [r|]; [|exfalso; eapply exported_ex; eauto].
    match goal with X : (let* y := new_ast file ?x in Ok (to_expr y)) = Ok (Some r), D : Derived.derived _ _ _ _ ?x |- _ =>
      destruct (ex_agree x (Some r) _ _ (expr_agrees x) D X) as [m0 [Em [Rx Ox]]] end.
    { exists r. split; auto. eapply to_expr_ok; eassumption. }
    inversion Em; subst. do 5 eexists. split; [reflexivity|]. auto.
  - do 3 eexists. split; [reflexivity|]. auto.
  - do 3 eexists. split; [reflexivity|]. auto.
  - do 3 eexists. split; [reflexivity|]. auto.
Qed.

Ltac pick := rewrite ?in_app_iff; cbn [In]; rewrite ?in_app_iff; cbn [In]; rewrite ?in_app_iff; tauto.
Lemma stmts_agree : forall v, stmt_agrees v.
Proof.
  apply vnode_nest. intros v IH lp fn n HD HN.
  pose proof (derived_fields neovim B _ _ _ HD) as HF. pose proof (derived_shape file neovim B _ _ _ HD) as HS.
  pose proof (shape_typed file _ _ HS HN) as Ty.
  pose proof (new_block file _ _ HN) as NB. pose proof (derived_whole _ _ _ _ _ HD) as WH.
  assert (HBody : forall k, (forall m, In m (block_of n) -> inner m k) -> body_gives (rc_stmt (indent k)) (comp unit k) (v_block v) (block_of n)).
  { intros k HI. apply list_gives.
    assert (SU : forall u, In u (v_block v) -> In u (vsub v) /\ In u (vfields v)) by apply v_block_sub.
    revert NB WH HI SU. generalize (v_block v) (block_of n). intros l r NB. induction NB as [|u m l r [N1 N2] _ IHl]; intros WH HI SU; constructor.
    - destruct (SU u (or_introl eq_refl)) as [S1 S2]. rewrite Forall_forall in IH, HF. inversion WH; subst.
      apply (proj2 (IH u S1 _ _ m (HF u S2) N1)); auto. apply HI. left; auto.
    - apply IHl; [inversion WH; auto|intros; apply HI; right; auto|intros; apply SU; right; auto]. }
  split; [exact HBody|]. intros Hp Hst k HI lines buf HE.
  assert (HBd : body_gives (rc_stmt (indent (S k))) (comp unit (S k)) (v_block v) (block_of n)).
  { apply HBody. intros m Hm. eapply inner_field; [exact HI|]. apply block_field; auto. }
  pose proof (fun e nm => command_name lp fn v e nm HD) as HC.
  destruct v; try discriminate Hp; cbn [new_ast] in HN;
    try match type of HN with (match ?x with _ => _ end) = _ => destruct x eqn:?; try discriminate end;
    unbind HN; inversion HN; subst n; try discriminate Hst; clear HN Hst Hp.
  all: cbn [vfields v_loop v_func typed vshape v_block block_of] in *; fa;
    repeat match goal with X : _ /\ _ |- _ => destruct X end;
    repeat match goal with
    | E : (let* y := new_ast file ?v in Ok (to_expr y)) = Ok ?o, D : Derived.derived _ _ _ _ ?v, X : expr ?o |- _ =>
      let m := fresh "m" in let E1 := fresh "R" in let O := fresh "O" in
      destruct (ex_agree _ _ _ _ (expr_agrees v) D E X) as [m [-> [E1 O]]]; clear E X
    | E : mapM (fun x => let* y := new_ast file x in expr_elem y) ?l = Ok ?r, D : Forall (Derived.derived _ _ _ _) ?l |- _ =>
      let E1 := fresh "R" in let O := fresh "O" in
      lazymatch goal with K : mapM rc_expr l = Ok _ |- _ => fail | _ => idtac end;
      destruct (exs_agree _ _ _ _ E (all_agree l) D) as [E1 [O _]]
    | E : mapM (fun x => let* y := new_ast file x in assert_node is_ident y) ?l = Ok ?r, D : Forall (Derived.derived _ _ _ _) ?l |- _ =>
      let E1 := fresh "R" in let O := fresh "O" in
      destruct (cast_agree _ _ _ _ _ is_ident_expr E (all_agree l) D) as [E1 [O _]]; clear E
    end.
  all: try (pose proof (HC _ _ eq_refl eq_refl) as CN); clear HC; cbn [rc_stmt comp]; unfold rc_one, rc_named, line_named, rc_lock; cbv zeta;
    rewrite <- ?indent_S.
  all: repeat match goal with R : rc_expr _ = Ok _ |- _ => rewrite R; clear R; cbn [bind] | R : mapM rc_expr _ = Ok _ |- _ => rewrite R; cbn [bind]; clear R
              | CN : cmd_name _ = Ok _ |- _ => rewrite CN; clear CN; cbn [bind] end.
  all: try (do 3 eexists; split; [reflexivity|]; split; [reflexivity|]; apply put_line; [exact HE|fin]; fail).
  - apply derived_comment in HD. destruct HD as [d [c [D1 [_ [D2 _]]]]]. do 3 eexists; split; [reflexivity|]; split; [reflexivity|]. apply put_line; [exact HE|].
    apply fine_oe; [discriminate|apply oe_in; cbn [In]; intuition discriminate|]. apply oe_in. intros K.
    eapply spells_lf; [apply (sfx_lf _ _ D1 HB)|exact D2|]. cbn [app In]. auto.
  - rewrite escape_same. do 3 eexists; split; [reflexivity|]; split; [reflexivity|]. apply put_line; [exact HE|fin].
  - pose proof (inner_norm _ _ HI eq_refl) as NI. rewrite signature_agree by auto.
    match goal with |- context [rc_line (indent k) ?h lines] => set (hd := h) end.
    match goal with |- context [compile_list _ _ ?b] => set (bf := b) end.
    assert (R0 : rdy (rc_line (indent k) hd lines) bf).
    { unfold rdy. split; [|split; [|discriminate]].
      - unfold eqv, rc_line. rewrite txt_cons. unfold bf, hd, fprintln, fprint. unfold eqv in HE. change (concat (repeat unit k)) with (indent k).
        destruct (is_nil a1); cbn [compile_oexpr]; rewrite !norm_app, HE, NI, ?norm_nil; repeat (cbn [app]; rewrite <- ?app_assoc, ?app_nil_r); reflexivity.
      - unfold cl, bf, fprintln, fprint. match goal with |- exists b x, ?u ++ _ = _ /\ _ => exists (u ++ concat (repeat unit k)), 41; generalize u; intros u0 end. split; [|discriminate]. rewrite <- !app_assoc. reflexivity. }
    destruct (HBd _ _ (proj1 R0)) as [l1 [b1 [r1 [-> [-> [_ X]]]]]]. cbn [bind]. destruct (close_rdy _ _ (X R0)) as [l2 [-> R2]].
    do 3 eexists; split; [reflexivity|]; split; [reflexivity|]; auto.
  - pose proof (oex_agree left a _ _ (all_agree _) HF ltac:(eassumption) (oexported_ex _ _ HS ltac:(eassumption))) as G. destruct left, a; try contradiction.
    + destruct G as [-> [G _]]. cbn [bind]. do 3 eexists; split; [reflexivity|]; split; [reflexivity|]. apply put_line; [exact HE|fin].
    + do 3 eexists; split; [reflexivity|]; split; [reflexivity|]. apply put_line; [exact HE|fin].
  - destruct (new_ast file v) as [m0| | |] eqn:Ev; cbn [bind] in *; try discriminate.
    match goal with X : assert_node _ m0 = Ok _ |- _ => unfold assert_node in X; destruct (is_call m0) eqn:Fc; inversion X; subst end.
    assert (Fe : is_expr a = true) by (destruct a; try discriminate; reflexivity).
    destruct (expr_agrees v _ _ a ltac:(eassumption) Ev Fe) as [-> O]. cbn [bind compile_oexpr].
    do 3 eexists; split; [reflexivity|]; split; [reflexivity|]. apply put_line; [exact HE|fin].
  - match goal with X : vleft _ _ _ _, Y : exists z, right = Some z /\ _ |- _ => pose proof X as V1; destruct Y as [x [-> [V2 _]]] end.
    rewrite (lhs_agree _ _ _ _ _ _ _ _ V1 (all_agree _) (all_agree _) (all_agree _) ltac:(eassumption) ltac:(eassumption) ltac:(eassumption) ltac:(eassumption) ltac:(eassumption) ltac:(eassumption)).
    cbn [ov] in *; fa. destruct a2 as [r|]; [|exfalso; eapply exported_ex; eauto].
    match goal with X : (let* y := new_ast file x in Ok (to_expr y)) = Ok (Some r), D : Derived.derived _ _ _ _ x |- _ =>
      destruct (ex_agree x (Some r) _ _ (expr_agrees x) D X) as [m [Em [Rx _]]] end.
    { exists r. split; auto. eapply to_expr_ok; eassumption. }
    inversion Em; subst. cbn [rc_some bind]. rewrite Rx. cbn [bind compile_oexpr].
    do 3 eexists; split; [reflexivity|]; split; [reflexivity|]. apply put_line; [exact HE|fin].
  - match goal with X : vleft _ _ _ _, Y : exists z, right = Some z /\ _ |- _ => pose proof X as V1; destruct Y as [x [-> [V2 _]]] end.
    rewrite (lhs_agree _ _ _ _ _ _ _ _ V1 (all_agree _) (all_agree _) (all_agree _) ltac:(eassumption) ltac:(eassumption) ltac:(eassumption) ltac:(eassumption) ltac:(eassumption) ltac:(eassumption)).
    cbn [ov] in *; fa. destruct a2 as [r|]; [|exfalso; eapply exported_ex; eauto].
    match goal with X : (let* y := new_ast file x in Ok (to_expr y)) = Ok (Some r), D : Derived.derived _ _ _ _ x |- _ =>
      destruct (ex_agree x (Some r) _ _ (expr_agrees x) D X) as [m [Em [Rx _]]] end.
    { exists r. split; auto. eapply to_expr_ok; eassumption. }
    inversion Em; subst. cbn [rc_some bind]. rewrite Rx. cbn [bind compile_oexpr].
    do 3 eexists; split; [reflexivity|]; split; [reflexivity|]. apply put_line; [exact HE|fin].
  - pose proof (derived_depth _ _ _ HD) as Hz. cbn iota in Hz.
    replace (if (0 <? depth)%Z then itoa depth ++ [32] else []) with (if (depth =? 0)%Z then [] else itoa depth ++ [32])
      by (destruct (depth =? 0)%Z eqn:E1, (0 <? depth)%Z eqn:E2; auto; lia).
    rewrite <- app_assoc. do 3 eexists; split; [reflexivity|]; split; [reflexivity|]. apply put_line; [exact HE|fin].
  - pose proof (derived_depth _ _ _ HD) as Hz. cbn iota in Hz.
    replace (if (0 <? depth)%Z then itoa depth ++ [32] else []) with (if (depth =? 0)%Z then [] else itoa depth ++ [32])
      by (destruct (depth =? 0)%Z eqn:E1, (0 <? depth)%Z eqn:E2; auto; lia).
    rewrite <- app_assoc. do 3 eexists; split; [reflexivity|]; split; [reflexivity|]. apply put_line; [exact HE|fin].
  - set (vif := VIf p ea body v elseif else_ endif) in *. 
    match type of HI with inner ?n _ => set (nif := n) in * end.
    assert (SUB : forall u m0, In u (vsub vif) -> In m0 (fields nif) -> derived (lp || false) (fn || false) u -> new_ast file u = Ok m0 ->
      body_gives (rc_stmt (indent (S k))) (comp unit (S k)) (v_block u) (block_of m0)).
    { intros u m0 U1 U2 U3 U4. rewrite Forall_forall in IH. apply (proj1 (IH u U1 _ _ m0 U3 U4)). intros m' Hm'.
      eapply inner_field; [eapply (inner_field _ _ k k); [exact HI|exact U2]|]. apply block_field; auto. }
    assert (R0 : rdy (rc_line (indent k) (T "(if " ++ compile_expr m) lines) (fprintln unit k (T "(if " ++ compile_expr m) buf)).
    { apply put_line; auto. apply fine_oe; auto; [discriminate|]. close. }
    destruct (HBd _ _ (proj1 R0)) as [l1 [b1 [r1 [X1 [X2 [_ X3]]]]]]. specialize (X3 R0).
    unfold text in *. rewrite X1. cbn [bind compile_oexpr app]. cbn [app] in X2. rewrite X2. cbn [bind].
    match goal with |- context [rc_each ?F elseif l1] => match goal with |- context [compile_parts ?G a b1] =>
      assert (PP : exists lines' buf' r', rc_each F elseif l1 = Ok lines' /\ compile_parts G a b1 = Ok (buf', r') /\ rdy lines' buf') end end.
    { apply parts_give; [|exact X3].
      assert (U : forall u m0, In u elseif -> In m0 a -> In u (vsub vif) /\ In m0 (fields nif))
        by (intros u m0 U1 U2; unfold vif, nif; cbn [vsub fields]; split; pick).
      apply cast_forall2 in E. clearbody vif nif. clear E1 X1 X2 H6. rewrite Forall_forall in H1. revert U H1. induction E as [|u m0 l r [N1 N2] _ IHe]; intros U H1; constructor.
      - clear lines buf HE R0 b1 l1 r1 X3. intros lines buf HR. destruct (U u m0 (or_introl eq_refl) (or_introl eq_refl)) as [U1 U2].
        assert (Du : derived (lp || false) (fn || false) u) by (apply H1; left; auto).
        pose proof (SUB u m0 U1 U2 Du N1) as SB. pose proof (part_from _ _ _ _ Du N1) as PF. destruct m0; try discriminate N2.
        destruct PF as [q [ve [vb [vc [cc [-> [Cc [-> [Rc Oc]]]]]]]]]. rewrite Rc, Cc. cbn [bind compile_oexpr app]. cbn [v_block block_of] in SB.
        assert (R1 : rdy (rc_line (indent k) (T " elseif " ++ compile_expr cc) lines) (fprintln unit k (T " elseif " ++ compile_expr cc) buf)).
        { apply put_line; [apply HR|]. apply fine_oe; auto; [discriminate|]. close. }
        destruct (SB _ _ (proj1 R1)) as [l2 [b2 [r2 [Y1 [Y2 [_ Y3]]]]]]. cbn [app] in Y1, Y2. unfold text in *. rewrite Y1, Y2. cbn [bind].
        do 3 eexists; split; [reflexivity|]; split; [reflexivity|]; auto.
      - apply IHe; [intros; apply U; right; auto|intros; apply H1; right; auto]. }
    destruct PP as [l2 [b2 [r2 [PP1 [PP2 R2]]]]]. unfold text in *. rewrite PP1, PP2. cbn [bind]. clear PP1 PP2.
    assert (QQ : exists l3 b3 el, match else_ with
        | Some (VElse _ _ b) => rc_each (rc_stmt (indent (S k))) b (rc_line (indent k) (T " else") l2)
        | None => Ok l2
        | _ => Panic PNil
        end = Ok l3 /\ match a0 with
        | Some (NElse p0 e b) =>
            let* cn := cmd_name e
            in let* ' (buf'0, b') := (let* ' (buf'0, _, l') := compile_list (comp unit (S k)) b (fprintln unit k (32 :: cn) b2) in Ok (buf'0, l')) in
            Ok (buf'0, Some (NElse p0 e b'))
        | None => Ok (b2, None)
        | _ => Panic PType
        end = Ok (b3, el) /\ rdy l3 b3).
    { destruct else_ as [u|]; cbn [optM] in E0; [|inversion E0; subst; eauto 8].
      destruct (new_ast file u) as [m0| | |] eqn:Eu; cbn [bind] in E0; try discriminate.
      unfold assert_node in E0. destruct (is_else m0) eqn:Fm; cbn [bind] in E0; inversion E0; subst a0.
      assert (Du : derived (lp || false) (fn || false) u) by (cbn [ov] in H2; inversion H2; auto).
      pose proof (SUB u m0 ltac:(unfold vif; cbn [vsub JoinProof.vo]; pick) ltac:(unfold nif; cbn [fields on]; pick) Du Eu) as SB.
      pose proof (part_from _ _ _ _ Du Eu) as PF. destruct m0; try discriminate Fm.
      destruct PF as [q [ve [vb [-> Cc]]]]. rewrite Cc. cbn [bind v_block block_of] in *.
      assert (R3 : rdy (rc_line (indent k) (T " else") l2) (fprintln unit k (T " else") b2)).
      { apply put_line; [apply R2|fin]. }
      destruct (SB _ _ (proj1 R3)) as [l4 [b4 [r4 [Y1 [Y2 [_ Y3]]]]]]. unfold text in *. rewrite Y1, Y2. cbn [bind].
      do 3 eexists; split; [reflexivity|]; split; [reflexivity|]; auto. }
    destruct QQ as [l3 [b3 [el [Q1 [Q2 R3]]]]]. unfold text in *. rewrite Q1, Q2. cbn [bind].
    destruct (close_rdy _ _ R3) as [l4 [-> R4]]. do 3 eexists; split; [reflexivity|]; split; [reflexivity|]; auto.
  - assert (R0 : rdy (rc_line (indent k) (T "(while " ++ compile_expr m) lines) (fprintln unit k (T "(while " ++ compile_expr m) buf)).
    { apply put_line; auto. apply fine_oe; auto; [discriminate|]. close. }
    destruct (HBd _ _ (proj1 R0)) as [l1 [b1 [r1 [X1 [X2 [_ X3]]]]]]. specialize (X3 R0).
    unfold text in *. rewrite X1. cbn [bind compile_oexpr app]. cbn [app] in X2. rewrite X2. cbn [bind].
    destruct (close_rdy _ _ X3) as [l4 [-> R4]]. do 3 eexists; split; [reflexivity|]; split; [reflexivity|]; auto.
  - match goal with X : vleft _ _ _ _ |- _ => pose proof X as V1 end.
    rewrite (lhs_agree _ _ _ _ _ _ _ _ V1 (all_agree _) (all_agree _) (all_agree _) ltac:(eassumption) ltac:(eassumption) ltac:(eassumption) ltac:(eassumption) ltac:(eassumption) ltac:(eassumption)).
    cbn [bind]. set (lh := compile_lhs a0 a1 a2).
    assert (RH : rdy (rc_line (indent k) (T "(for " ++ lh ++ [32] ++ compile_expr m) lines) (fprintln unit k (T "(for " ++ lh ++ [32] ++ compile_expr m) buf)).
    { apply put_line; auto. apply fine_tail, fine_tail. apply fine_oe; auto; [discriminate|]. close. }
    destruct (HBd _ _ (proj1 RH)) as [l1 [b1 [r1 [X1 [X2 [_ X3]]]]]]. specialize (X3 RH).
    unfold text in *. rewrite X1. cbn [bind compile_oexpr app]. cbn [app] in X2. rewrite X2. cbn [bind].
    destruct (close_rdy _ _ X3) as [l4 [-> R4]]. do 3 eexists; split; [reflexivity|]; split; [reflexivity|]; auto.
  - set (vtr := VTry p ea body catch finally endtry) in *. 
    match type of HI with inner ?n _ => set (ntr := n) in * end.
    assert (SUB : forall u m0, In u (vsub vtr) -> In m0 (fields ntr) -> derived (lp || false) (fn || false) u -> new_ast file u = Ok m0 ->
      body_gives (rc_stmt (indent (S k))) (comp unit (S k)) (v_block u) (block_of m0)).
    { intros u m0 U1 U2 U3 U4. rewrite Forall_forall in IH. apply (proj1 (IH u U1 _ _ m0 U3 U4)). intros m' Hm'.
      eapply inner_field; [eapply (inner_field _ _ k k); [exact HI|exact U2]|]. apply block_field; auto. }
    assert (R0 : rdy (rc_line (indent k) (T "(try") lines) (fprintln unit k (T "(try") buf)).
    { apply put_line; [auto|fin]. }
    destruct (HBd _ _ (proj1 R0)) as [l1 [b1 [r1 [X1 [X2 [_ X3]]]]]]. specialize (X3 R0).
    unfold text in *. rewrite X1. cbn [bind compile_oexpr app]. cbn [app] in X2. rewrite X2. cbn [bind].
    match goal with |- context [rc_each ?F catch l1] => match goal with |- context [compile_parts ?G a b1] =>
      assert (PP : exists lines' buf' r', rc_each F catch l1 = Ok lines' /\ compile_parts G a b1 = Ok (buf', r') /\ rdy lines' buf') end end.
    { apply parts_give; [|exact X3].
      assert (U : forall u m0, In u catch -> In m0 a -> In u (vsub vtr) /\ In m0 (fields ntr))
        by (intros u m0 U1 U2; unfold vtr, ntr; cbn [vsub fields]; split; pick).
      apply cast_forall2 in E. clearbody vtr ntr. clear E1 X1 X2 H4. rewrite Forall_forall in H0. revert U H0. induction E as [|u m0 l r [N1 N2] _ IHe]; intros U H0; constructor.
      - clear lines buf HE R0 b1 l1 r1 X3. intros lines buf HR. destruct (U u m0 (or_introl eq_refl) (or_introl eq_refl)) as [U1 U2].
        assert (Du : derived (lp || false) (fn || false) u) by (apply H0; left; auto).
        pose proof (SUB u m0 U1 U2 Du N1) as SB. pose proof (part_from _ _ _ _ Du N1) as PF. destruct m0; try discriminate N2.
        destruct PF as [q [ve [vb [-> Cc]]]]. rewrite Cc. cbn [bind compile_oexpr app]. cbn [v_block block_of] in SB.
        assert (R1 : rdy (rc_line (indent k) (if is_nil pattern then T " catch" else T " catch /" ++ pattern ++ T "/") lines)
                         (fprintln unit k (T " catch" ++ if is_nil pattern then [] else T " /" ++ pattern ++ T "/") buf)).
        { destruct (is_nil pattern); apply put_line; try apply HR; [apply fine_by; discriminate|fin]. }
        destruct (SB _ _ (proj1 R1)) as [l2 [b2 [r2 [Y1 [Y2 [_ Y3]]]]]]. cbn [app] in Y1, Y2. unfold text in *. rewrite Y1, Y2. cbn [bind].
        do 3 eexists; split; [reflexivity|]; split; [reflexivity|]; auto.
      - apply IHe; [intros; apply U; right; auto|intros; apply H0; right; auto]. }
    destruct PP as [l2 [b2 [r2 [PP1 [PP2 R2]]]]]. unfold text in *. rewrite PP1, PP2. cbn [bind]. clear PP1 PP2.
    assert (QQ : exists l3 b3 el, match finally with
        | Some (VFinally _ _ b) => rc_each (rc_stmt (indent (S k))) b (rc_line (indent k) (T " finally") l2)
        | None => Ok l2
        | _ => Panic PNil
        end = Ok l3 /\ match a0 with
        | Some (NFinally p0 e b) =>
            let* cn := cmd_name e
            in let* ' (buf'0, b') := (let* ' (buf'0, _, l') := compile_list (comp unit (S k)) b (fprintln unit k (32 :: cn) b2) in Ok (buf'0, l')) in
            Ok (buf'0, Some (NFinally p0 e b'))
        | None => Ok (b2, None)
        | _ => Panic PType
        end = Ok (b3, el) /\ rdy l3 b3).
    { destruct finally as [u|]; cbn [optM] in E0; [|inversion E0; subst; eauto 8].
      destruct (new_ast file u) as [m0| | |] eqn:Eu; cbn [bind] in E0; try discriminate.
      unfold assert_node in E0. destruct (is_finally m0) eqn:Fm; cbn [bind] in E0; inversion E0; subst a0.
      assert (Du : derived (lp || false) (fn || false) u) by (cbn [ov] in H1; inversion H1; auto).
      pose proof (SUB u m0 ltac:(unfold vtr; cbn [vsub JoinProof.vo]; pick) ltac:(unfold ntr; cbn [fields on]; pick) Du Eu) as SB.
      pose proof (part_from _ _ _ _ Du Eu) as PF. destruct m0; try discriminate Fm.
      destruct PF as [q [ve [vb [-> Cc]]]]. rewrite Cc. cbn [bind v_block block_of] in *.
      assert (R3 : rdy (rc_line (indent k) (T " finally") l2) (fprintln unit k (T " finally") b2)).
      { apply put_line; [apply R2|fin]. }
      destruct (SB _ _ (proj1 R3)) as [l4 [b4 [r4 [Y1 [Y2 [_ Y3]]]]]]. unfold text in *. rewrite Y1, Y2. cbn [bind].
      do 3 eexists; split; [reflexivity|]; split; [reflexivity|]; auto. }
    destruct QQ as [l3 [b3 [el [Q1 [Q2 R3]]]]]. unfold text in *. rewrite Q1, Q2. cbn [bind].
    destruct (close_rdy _ _ R3) as [l4 [-> R4]]. do 3 eexists; split; [reflexivity|]; split; [reflexivity|]; auto.
  - rewrite escape_same. do 3 eexists; split; [reflexivity|]; split; [reflexivity|]. apply put_line; [exact HE|fin].
Qed.
End Norm.
End Agree.

(** The lines of the reference compiler as a text. *)
Definition unlines (lines : list text) : text := concat (map (fun l => l ++ [10]) lines).

Section File.
Context (norm : text -> text) (norm_app : forall a b, norm (a ++ b) = norm a ++ norm b).
Lemma file_agree neovim src file v root : script neovim (open_source src) v -> new_ast file v = Ok root ->
  (forall m, In m (block_of root) -> inner norm m 0) ->
  exists lines out root', rc_compile v = Ok lines /\ Compile root = Ok (mkCompiled out false root') /\ norm out = norm (unlines lines).
Proof.
  intros HV HN HI. destruct HV as [b [c1 [c' [-> [HB _]]]]].
  assert (HD : derived neovim (open_source src) false false (VToplevel (getpos (open_source src)) b)) by (eapply de_file; eauto; constructor).
  destruct (stmts_agree neovim (open_source src) file (source_lf src) norm norm_app _ _ _ _ HD HN) as [G _].
  specialize (G O HI [] []). cbn [v_block] in G. cbn [new_ast] in HN. unfold rc_compile. cbn [rc_stmt].
  destruct (mapM _ b) as [r| | |]; cbn [bind] in HN; try discriminate. inversion HN; subst root. cbn [block_of] in G.
  destruct G as [lines [out [r' [E1 [E2 [E3 _]]]]]]; [reflexivity|]. change (indent 0) with (@nil N) in E1.
  exists (rev lines), out. eexists. rewrite E1. cbn [bind]. split; [reflexivity|].
  unfold Compile, compile_with. cbn [comp]. unfold text in *. rewrite E2. cbn [bind]. split; [reflexivity|]. exact E3.
Qed.
End File.

Lemma source_agree src file opt root : ParseFile src file opt = Returned root ->
  exists v lines out root', vim_parse (neovim_of opt) (open_source src) = Ok v /\ rc_compile v = Ok lines /\
    Compile root = Ok (mkCompiled out false root') /\
    filter (fun x => negb (x =? 32)) out = filter (fun x => negb (x =? 32)) (unlines lines) /\
    ((forall c d f, In c (fields root) -> In d (fields c) -> within d f -> is_func f = false) -> out = unlines lines).
Proof.
  intros H. pose proof (vim_parse_safe (neovim_of opt) _ (open_source_wf src)) as S.
  unfold ParseFile, parse_to_ast in H. fold (neovim_of opt) in H.
  destruct (vim_parse (neovim_of opt) (open_source src)) as [v|e|k|] eqn:E; cbn [csafe bind recovered] in *; try discriminate.
  destruct (new_ast file v) as [n|?|?|] eqn:N; cbn [recovered] in H; try discriminate. inversion H; subst n. exists v.
  destruct (file_agree (filter (fun x => negb (x =? 32))) (fun a b => filter_app _ a b) _ src file v root S N) as [ls [out [r' [E1 [E2 E3]]]]].
  { intros m _. left. reflexivity. }
  exists ls, out, r'. split; [reflexivity|]. split; [exact E1|]. split; [exact E2|]. split; [exact E3|]. intros K.
  destruct (file_agree (fun x => x) (fun a b => eq_refl) _ src file v root S N) as [ls1 [out1 [r1 [F1 [F2 F3]]]]].
  { intros m Hm. right. split; [left; reflexivity|]. intros d f Hd W. apply (K m d f); auto. apply block_field; auto. }
  rewrite E1 in F1. rewrite E2 in F2. injection F1 as F1. injection F2 as F2 _. rewrite F1, F2. exact F3.
Qed.
