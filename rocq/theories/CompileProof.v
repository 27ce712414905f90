(** Compile on the trees of accepted inputs: total, and when it leaves the tree alone. *)
From Coq Require Import Lia ZifyBool ZifyNat ZifyN.
From Verif Require Import Base Utf8 CharClass Reader Cursor Vnode Token Ast Export RefCompiler Compiler Api Places Nodes Sexpr WalkProof
  ApiExpr ApiFile NodeFacts Blocks LinesProof ReaderFacts NodeText.

(** What compiling needs: fields of their types, blocks without closing commands, and a
    command in every command node. *)
Definition sound1 (n : node) : Prop :=
  typed n /\ Forall (fun m => is_stmt m = true /\ is_part m = false) (block_of n) /\
  forall e, nea n = Some e -> ae_cmd e = None -> exists p s, n = NExcmd p s e.
Definition sound (n : node) : Prop := forall m, within n m -> sound1 m.
Lemma sound_field n m : sound n -> In m (fields n) -> sound m.
Proof. intros H HI k W. apply H. eapply within_step; eauto. Qed.
Lemma accepted_sound bs fails file root : accepted bs fails file root -> sound root.
Proof.
  intros HA n Hn. split; [exact (node_typed bs fails file root HA n Hn)|].
  split; [exact (node_block bs fails file root HA n Hn)|].
  intros e He Hc. destruct (source_exists bs) as [cells HC].
  pose proof (node_names bs fails file root HA cells HC n e Hn He) as K. rewrite Hc in K. exact K.
Qed.
Lemma sound_cmd n e : sound1 n -> nea n = Some e -> match n with NExcmd _ _ _ => False | _ => True end ->
  exists c, cmd_name e = Ok c.
Proof.
  intros [_ [_ H]] He Hn. unfold cmd_name. destruct (ae_cmd e) as [c|] eqn:E; eauto.
  destruct (H e He E) as [p [s ->]]. contradiction.
Qed.

(** No function with a trailing "...". *)
Definition no_dots1 (n : node) : Prop :=
  match n with NFunction _ _ _ _ ps _ _ _ => ends_dots ps = false | _ => True end.
Definition no_dots (n : node) : Prop := forall m, within n m -> no_dots1 m.
Lemma no_dots_field n m : no_dots n -> In m (fields n) -> no_dots m.
Proof. intros H HI k W. apply H. eapply within_step; eauto. Qed.

Section Total.
Context (unit : text).

Definition goes (f : node -> text -> outcome cres) (n : node) : Prop :=
  forall buf, exists buf' n', f n buf = Ok (buf', false, n') /\ (no_dots n -> n' = n).

Lemma list_goes f l : (forall x, In x l -> goes f x) -> forall buf, exists buf' l',
  compile_list f l buf = Ok (buf', false, l') /\ ((forall x, In x l -> no_dots x) -> l' = l).
Proof.
  induction l as [|x l IH]; intros H buf; cbn [compile_list]; eauto.
  destruct (H x (or_introl eq_refl) buf) as [b1 [x' [E1 N1]]]. rewrite E1. cbn [bind].
  destruct (IH (fun y Hy => H y (or_intror Hy)) b1) as [b2 [l' [E2 N2]]]. rewrite E2. cbn [bind].
  exists b2, (x' :: l'). split; auto. intros K. rewrite N1 by (apply K; left; auto). f_equal. apply N2.
  intros; apply K; right; auto.
Qed.
Lemma parts_go f l : (forall x, In x l -> goes f x) -> forall buf, exists buf' l',
  compile_parts f l buf = Ok (buf', l') /\ ((forall x, In x l -> no_dots x) -> l' = l).
Proof.
  induction l as [|x l IH]; intros H buf; cbn [compile_parts]; eauto.
  destruct (H x (or_introl eq_refl) buf) as [b1 [x' [E1 N1]]]. rewrite E1. cbn [bind].
  destruct (IH (fun y Hy => H y (or_intror Hy)) b1) as [b2 [l' [E2 N2]]]. rewrite E2. cbn [bind].
  exists b2, (x' :: l'). split; auto. intros K. rewrite N1 by (apply K; left; auto). f_equal. apply N2.
  intros; apply K; right; auto.
Qed.

Lemma block_field n m : In m (block_of n) -> In m (fields n).
Proof. destruct n; cbn [block_of fields]; try contradiction; rewrite ?in_app_iff; auto. Qed.

Definition body_goes (n : node) : Prop := forall ind buf, exists buf' l',
  compile_list (comp unit ind) (block_of n) buf = Ok (buf', false, l') /\ (no_dots n -> l' = block_of n).

Lemma comp_goes n : sound n -> body_goes n /\ (is_part n = false -> forall ind, goes (comp unit ind) n).
Proof.
  induction n as [n IH] using fields_ind. intros HS.
  pose proof (HS n (wi_root n)) as H1. pose proof H1 as [Ty [Bl Cm]].
  assert (HB : body_goes n).
  { intros ind buf. destruct (list_goes (comp unit ind) (block_of n)) with (buf := buf) as [b' [l' [E N]]].
    - intros x Hx. pose proof (block_field _ _ Hx) as Hf. apply (IH x Hf (sound_field _ _ HS Hf)).
      rewrite Forall_forall in Bl. apply (Bl x Hx).
    - exists b', l'. split; auto. intros K. apply N. intros x Hx. eapply no_dots_field; eauto. apply block_field; auto. }
  split; [exact HB|]. intros Hp ind buf. clear Bl Cm.
  assert (HD : no_dots n -> no_dots1 n) by (intros K; apply K; constructor).
  assert (HF : no_dots n -> forall x, In x (fields n) -> no_dots x) by (intros K x Hx; eapply no_dots_field; eauto).
  assert (CN : forall e, nea n = Some e -> match n with NExcmd _ _ _ => False | _ => True end -> exists c, cmd_name e = Ok c).
  { intros e He Hn. eapply sound_cmd; eauto. }
  assert (SF : forall m, In m (fields n) -> sound m /\ body_goes m).
  { intros m Hm. pose proof (sound_field _ _ HS Hm) as K. split; auto. apply IH; auto. }
  unfold body_goes in HB.
  destruct n; try discriminate Hp; cbn [comp nea fields block_of typed] in *;
    try (destruct (CN _ eq_refl Logic.I) as [cn Hcn]);
    try (unfold line_named; rewrite ?Hcn; cbn [bind]); 
    try (eexists; eexists; split; [reflexivity|auto; fail]);
    try (match goal with |- context [compile_list (comp unit ?i) _ ?b] =>
           destruct (HB i b) as [b1 [l1 [-> N1]]]; cbn [bind] end).
  - eexists; eexists; split; [reflexivity|]. intros K; rewrite N1; auto.
  - eexists; eexists; split; [reflexivity|]. intros K; rewrite N1; auto.
    specialize (HD K). cbn [no_dots1] in HD. unfold cut_dots. rewrite HD. reflexivity.
  - destruct result; cbn [bind]; eexists; eexists; split; try reflexivity; auto.
  - destruct Ty as [_ [_ [Te [Tl _]]]].
    destruct (parts_go (fun (x : node) (buf0 : text) =>
             match x with
             | NElseIf p0 e b c =>
                 let* cn0 := cmd_name e
                 in let* ' (buf'0, b'0)
                    := (let* ' (buf'0, _, l')
                        := compile_list (comp unit (S ind)) b
                             (fprintln unit ind
                                ([32] ++ cn0 ++ [32] ++ compile_oexpr c) buf0)
                        in Ok (buf'0, l'))
                    in Ok (buf'0, false, NElseIf p0 e b'0 c)
             | _ => Panic PType
             end) elseif) with (buf := b1) as [b2 [l2 [E2 N2]]].
    { intros x Hx bufx. rewrite Forall_forall in Te. specialize (Te x Hx). destruct Te as [p1 [e1 [bd [c1 Te]]]]. subst x.
      assert (Hf : In (NElseIf p1 e1 bd c1) (body ++ on condition ++ elseif ++ on else_ ++ on endif)) by (rewrite !in_app_iff; auto).
      destruct (SF _ Hf) as [S1 B1].
      destruct (sound_cmd _ e1 (S1 _ (wi_root _)) eq_refl Logic.I) as [cn1 ->]. cbn [bind].
      destruct (B1 (S ind) (fprintln unit ind ([32] ++ cn1 ++ [32] ++ compile_oexpr c1) bufx)) as [b' [l' [E N]]].
      cbn [block_of] in E. rewrite E. cbn [bind]. eexists; eexists; split; [reflexivity|]. intros K. rewrite N; auto. }
    unfold text in E2 |- *. rewrite E2. cbn [bind].
    assert (G : exists b3 el', 
       match else_ with
       | Some (NElse p0 e b) =>
           let* cn0 := cmd_name e
           in let* ' (buf'0, b'0)
              := (let* ' (buf'0, _, l') := compile_list (comp unit (S ind)) b (fprintln unit ind ([32] ++ cn0) b2) in Ok (buf'0, l'))
              in Ok (buf'0, Some (NElse p0 e b'0))
       | None => Ok (b2, None)
       | _ => Panic PType
       end = Ok (b3, el') /\ ((forall x, In x (on else_) -> no_dots x) -> el' = else_)).
    { destruct Tl as [->|[p1 [e1 [bd ->]]]]; [eauto|].
      assert (Hf : In (NElse p1 e1 bd) (body ++ on condition ++ elseif ++ on (Some (NElse p1 e1 bd)) ++ on endif)) by (rewrite !in_app_iff; cbn; auto 12).
      destruct (SF _ Hf) as [S1 B1].
      destruct (sound_cmd _ e1 (S1 _ (wi_root _)) eq_refl Logic.I) as [cn1 ->]. cbn [bind].
      destruct (B1 (S ind) (fprintln unit ind ([32] ++ cn1) b2)) as [b' [l' [E N]]].
      cbn [block_of] in E. rewrite E. cbn [bind]. eexists; eexists; split; [reflexivity|]. intros K. rewrite N; auto. apply K; cbn; auto. }
    destruct G as [b3 [el' [E3 N3]]]. unfold text in E3 |- *. rewrite E3. cbn [bind]. eexists; eexists; split; [reflexivity|].
    intros K. rewrite N1, N2, N3; auto; intros; apply HF; auto; rewrite !in_app_iff; auto 12.
  - eexists; eexists; split; [reflexivity|]. intros K; rewrite N1; auto.
  - eexists; eexists; split; [reflexivity|]. intros K; rewrite N1; auto.
  - destruct Ty as [_ [Te [Tl _]]].
    destruct (parts_go (fun x buf =>
        match x with
        | NCatch p e b pat =>
          let* cn := cmd_name e in
          let* '(buf', b') := (let* '(buf', _, l') := compile_list (comp unit (S ind)) b
             (fprintln unit ind (T " " ++ cn ++ if is_nil pat then [] else T " /" ++ pat ++ T "/") buf) in Ok (buf', l')) in
          Ok (buf', false, NCatch p e b' pat)
        | _ => Panic PType
        end) catch) with (buf := b1) as [b2 [l2 [E2 N2]]].
    { intros x Hx bufx. rewrite Forall_forall in Te. specialize (Te x Hx). destruct Te as [p1 [e1 [bd [pat Te]]]]. subst x.
      assert (Hf : In (NCatch p1 e1 bd pat) (body ++ catch ++ on finally ++ on endtry)) by (rewrite !in_app_iff; auto).
      destruct (SF _ Hf) as [S1 B1].
      destruct (sound_cmd _ e1 (S1 _ (wi_root _)) eq_refl Logic.I) as [cn1 ->]. cbn [bind].
      match goal with |- context [compile_list _ bd ?b] => destruct (B1 (S ind) b) as [b' [l' [E N]]] end.
      cbn [block_of] in E. rewrite E. cbn [bind]. eexists; eexists; split; [reflexivity|]. intros K. rewrite N; auto. }
    unfold text in E2 |- *. rewrite E2. cbn [bind].
    assert (G : exists b3 el', 
       match finally with
       | Some (NFinally p0 e b) =>
           let* cn0 := cmd_name e
           in let* ' (buf'0, b'0)
              := (let* ' (buf'0, _, l') := compile_list (comp unit (S ind)) b (fprintln unit ind ([32] ++ cn0) b2) in Ok (buf'0, l'))
              in Ok (buf'0, Some (NFinally p0 e b'0))
       | None => Ok (b2, None)
       | _ => Panic PType
       end = Ok (b3, el') /\ ((forall x, In x (on finally) -> no_dots x) -> el' = finally)).
    { destruct Tl as [->|[p1 [e1 [bd ->]]]]; [eauto|].
      assert (Hf : In (NFinally p1 e1 bd) (body ++ catch ++ on (Some (NFinally p1 e1 bd)) ++ on endtry)) by (rewrite !in_app_iff; cbn; auto 12).
      destruct (SF _ Hf) as [S1 B1].
      destruct (sound_cmd _ e1 (S1 _ (wi_root _)) eq_refl Logic.I) as [cn1 ->]. cbn [bind].
      destruct (B1 (S ind) (fprintln unit ind ([32] ++ cn1) b2)) as [b' [l' [E N]]].
      cbn [block_of] in E. rewrite E. cbn [bind]. eexists; eexists; split; [reflexivity|]. intros K. rewrite N; auto. apply K; cbn; auto. }
    destruct G as [b3 [el' [E3 N3]]]. unfold text in E3 |- *. rewrite E3. cbn [bind]. eexists; eexists; split; [reflexivity|].
    intros K. rewrite N1, N2, N3; auto; intros; apply HF; auto; rewrite !in_app_iff; auto 12.
Qed.

Lemma compile_goes bs fails file root : accepted bs fails file root ->
  exists out n', compile_with unit root = Ok (mkCompiled out false n') /\ (no_dots root -> n' = root).
Proof.
  intros HA. pose proof (accepted_sound _ _ _ _ HA) as HS.
  assert (Hp : is_part root = false).
  { destruct HA as [[opt H]|[_ H]].
    - destruct (ParseFile_errors (mkSource bs fails) file opt) as [[p [b E]]|[[x1 [x2 [x3 [x4 E]]]]|[x1 [_ [_ [_ E]]]]]];
        rewrite E in H; inversion H; subst; reflexivity.
    - destruct (ParseExpr_cases (mkSource bs fails)) as [[v [c' [n [_ [_ [Hq E]]]]]]|[msg [s [_ E]]]];
        rewrite E in H; inversion H; subst. destruct root; try discriminate; reflexivity. }
  destruct (proj2 (comp_goes root HS) Hp O []) as [buf' [n' [E N]]].
  exists buf', n'. split; auto. unfold compile_with. rewrite E. reflexivity.
Qed.
End Total.

Lemma no_variadic_dots n : sound n -> no_variadic n -> no_dots n.
Proof.
  intros HS H m Hm. specialize (H m Hm). destruct (HS m Hm) as [Ty _]. destruct m; cbn [no_dots1 typed variadic] in *; auto.
  destruct Ty as [_ [_ [Hi _]]]. unfold ends_dots. destruct (lastn_opt params) as [q|] eqn:E; auto.
  destruct (text_eqb (Compiler.ident_name q) (token_string TDOTDOTDOT)) eqn:F; auto. exfalso. apply H.
  assert (G : exists ps', params = ps' ++ [q]).
  { clear - E. induction params as [|x l IH]; [discriminate|]. cbn [lastn_opt] in E. destruct l as [|y l].
    - inversion E; subst. exists []. reflexivity.
    - destruct (IH E) as [ps' ->]. exists (x :: ps'). reflexivity. }
  destruct G as [ps' ->]. unfold idents in Hi. rewrite Forall_forall in Hi. destruct (Hi q) as [p' [s ->]]; [rewrite in_app_iff; cbn; auto|].
  apply Cursor.text_eqb_eq in F. cbn in F. subst s. eauto.
Qed.

