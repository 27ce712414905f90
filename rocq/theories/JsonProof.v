(** Proofs about the output of the tool under -json. *)
From Coq Require Import Lia ZifyBool ZifyNat ZifyN.
From Verif Require Import Base Utf8 CharClass Vnode Token Ast ExprParser Places Nodes Join Json JsonSpec JsonRead WalkProof.

(** * Decimal numbers *)

Definition dval (s : text) (n : N) : N := fold_left (fun n d => 10 * n + (d - C "0")) s n.
Lemma dec_loop_val : forall f n acc, n < 2 ^ N.of_nat f -> dval (dec_loop f n acc) 0 = dval acc n.
Proof.
  induction f as [|f IH]; intros n acc H.
  - cbn in H. assert (n = 0) by lia. subst. reflexivity.
  - cbn [dec_loop]. pose proof (N.div_mod' n 10) as Hd. pose proof (N.mod_lt n 10 ltac:(lia)) as Hm.
    destruct (N.eqb_spec (n / 10) 0) as [E|E].
    + unfold dval. cbn [fold_left]. f_equal. lia.
    + rewrite IH.
      * unfold dval. cbn [fold_left]. f_equal. lia.
      * rewrite Nat2N.inj_succ, N.pow_succ_r' in H. lia.
Qed.
Lemma dec_val n : dval (dec n) 0 = n.
Proof.
  unfold dec. rewrite dec_loop_val; [reflexivity|]. rewrite Nat2N.inj_succ, N2Nat.id. destruct n as [|p]; [reflexivity|].
  apply N.log2_spec. lia.
Qed.
Lemma dec_loop_shape : forall f n acc, n < 2 ^ N.of_nat f -> digits acc ->
  (n = 0 /\ f <> O /\ dec_loop f n acc = C "0" :: acc) \/
  (f = O /\ dec_loop f n acc = acc) \/
  exists d ds, dec_loop f n acc = d :: ds /\ C "1" <= d <= C "9" /\ digits ds.
Proof.
  induction f as [|f IH]; intros n acc H Ha; [auto|]. cbn [dec_loop].
  pose proof (N.div_mod' n 10) as Hd. pose proof (N.mod_lt n 10 ltac:(lia)) as Hm.
  destruct (N.eqb_spec (n / 10) 0) as [E|E].
  - destruct (N.eqb_spec n 0) as [->|En]; [left; repeat split; discriminate|].
    right; right. do 2 eexists. split; [reflexivity|]. split; [lia|auto].
  - rewrite Nat2N.inj_succ, N.pow_succ_r' in H.
    destruct (IH (n / 10) (C "0" + n mod 10 :: acc)) as [[E1 _]|[[-> _]|K]].
    + lia.
    + constructor; [lia|auto].
    + congruence.
    + cbn in H. lia.
    + auto.
Qed.
Lemma dec_shape n : dec n = T "0" \/ exists d ds, dec n = d :: ds /\ C "1" <= d <= C "9" /\ digits ds.
Proof.
  unfold dec. destruct (dec_loop_shape (S (N.to_nat (N.log2 n))) n []) as [[_ [_ E]]|[[E _]|K]]; auto.
  - rewrite Nat2N.inj_succ, N2Nat.id. destruct n as [|p]; [reflexivity|]. apply N.log2_spec. lia.
  - constructor.
  - discriminate.
Qed.
Lemma dec_head n : exists d ds, dec n = d :: ds /\ C "0" <= d <= C "9".
Proof. destruct (dec_shape n) as [->|[d [ds [-> [H _]]]]]; do 2 eexists; (split; [reflexivity|]); lia. Qed.
Lemma itoa_number z : number (itoa z).
Proof.
  destruct z as [|p|p]; cbn [itoa].
  - exists [], (T "0"), [], []. repeat split; auto.
  - exists [], (dec (Npos p)), [], []. rewrite !app_nil_r. repeat split; auto. apply dec_shape.
  - exists (T "-"), (dec (Npos p)), [], []. rewrite !app_nil_r. repeat split; auto. apply dec_shape.
Qed.
Lemma dec_inj a b : dec a = dec b -> a = b.
Proof. intros H. apply (f_equal (fun s => dval s 0)) in H. rewrite !dec_val in H. exact H. Qed.
Lemma itoa_inj a b : itoa a = itoa b -> a = b.
Proof.
  assert (K : forall n p, dec n = T "-" ++ dec p -> False).
  { intros n p H. destruct (dec_head n) as [d [ds [E Hd]]]. rewrite E in H. cbn [app] in H. injection H. lia. }
  change (itoa 0) with (dec 0). destruct a as [|p|p], b as [|q|q]; cbn [itoa]; intros H; auto.
  - change (T "0") with (dec 0) in H. apply dec_inj in H. discriminate.
  - change (T "0") with (dec 0) in H. destruct (K _ _ H).
  - change (T "0") with (dec 0) in H. apply dec_inj in H. discriminate.
  - apply dec_inj in H. congruence.
  - destruct (K _ _ H).
  - change (T "0") with (dec 0) in H. destruct (K _ _ (eq_sym H)).
  - destruct (K _ _ (eq_sym H)).
  - cbn [app] in H. injection H as H. apply dec_inj in H. congruence.
Qed.

(** * The value that is written *)

Fixpoint jval (v : gv) : jv :=
  match v with
  | GNull => JNull
  | GBool b => JBool b
  | GInt z => JNum (itoa z)
  | GStr s => JStr (map (fun o => match o with Some c => c | None => rune_error end) s)
  | GArr l => JArr (map jval l)
  | GObj l => JObj (map (fun kv => match kv with (k, x) => (k, jval x) end) l)
  end.

(** Nested induction over Go values. *)
Lemma gv_nest (P : gv -> Prop) :
  P GNull -> (forall b, P (GBool b)) -> (forall z, P (GInt z)) -> (forall s, P (GStr s)) ->
  (forall l, Forall P l -> P (GArr l)) -> (forall l, Forall (fun kv => P (snd kv)) l -> P (GObj l)) -> forall v, P v.
Proof.
  intros H1 H2 H3 H4 H5 H6. fix IH 1. intros [|b|z|s|l|l].
  - exact H1.
  - apply H2.
  - apply H3.
  - apply H4.
  - apply H5. induction l as [|x l IHl]; constructor; [apply IH|exact IHl].
  - apply H6. induction l as [|[k x] l IHl]; constructor; [apply IH|exact IHl].
Qed.

Lemma hexc_digit n : n < 16 -> hexdigit (hexc n) = Some n.
Proof.
  intros H. unfold hexc, hexdigit. destruct (n <? 10) eqn:E.
  - replace ((C "0" <=? C "0" + n) && (C "0" + n <=? C "9")) with true by lia. f_equal. lia.
  - replace ((C "0" <=? C "a" + (n - 10)) && (C "a" + (n - 10) <=? C "9")) with false by lia.
    replace ((C "a" <=? C "a" + (n - 10)) && (C "a" + (n - 10) <=? C "f")) with true by lia. f_equal. lia.
Qed.
Lemma esc1_spelled sh o s t : spelled s t -> spelled (match o with Some c => c | None => rune_error end :: s) (esc1 sh o ++ t).
Proof.
  intros H. destruct o as [c|]; [|exact (sp_unicode (C "f") (C "f") (C "f") (C "d") 65533 s t eq_refl ltac:(lia) H)].
  unfold esc1.
  destruct ((c =? C """") || (c =? C "\")) eqn:E1.
  { cbn [app]. apply sp_short; auto. unfold short_escapes. cbn [In]. destruct (N.eqb_spec c (C """")); [subst; auto|].
    destruct (N.eqb_spec c (C "\")); [subst; auto|discriminate]. }
  destruct (N.eqb_spec c 10); [subst; apply (sp_short (C "n")); auto; cbn; auto 10|].
  destruct (N.eqb_spec c 13); [subst; apply (sp_short (C "r")); auto; cbn; auto 10|].
  destruct (N.eqb_spec c 9); [subst; apply (sp_short (C "t")); auto; cbn; auto 10|].
  destruct ((c =? 8) && sh) eqn:E2.
  { assert (c = 8) by lia. subst. apply (sp_short (C "b")); auto; cbn; auto 10. }
  destruct ((c =? 12) && sh) eqn:E3.
  { assert (c = 12) by lia. subst. apply (sp_short (C "f")); auto; cbn; auto 10. }
  destruct ((c <? 32) || (c =? C "<") || (c =? C ">") || (c =? C "&")) eqn:E4.
  { assert (Hc : c < 128) by lia.
    apply (sp_unicode (C "0") (C "0") (hexc (c / 16)) (hexc (c mod 16)) c s t); auto; [|lia].
    unfold hex4. pose proof (N.div_mod' c 16). pose proof (N.mod_lt c 16 ltac:(lia)). rewrite !hexc_digit by lia.
    change (hexdigit (C "0")) with (Some 0). cbn match. f_equal. lia. }
  destruct (N.eqb_spec c 8232); [subst; exact (sp_unicode (C "2") (C "0") (C "2") (C "8") 8232 s t eq_refl ltac:(lia) H)|].
  destruct (N.eqb_spec c 8233); [subst; exact (sp_unicode (C "2") (C "0") (C "2") (C "9") 8233 s t eq_refl ltac:(lia) H)|].
  cbn [app]. apply sp_plain; auto; lia.
Qed.
Lemma quoted_spelled sh s : exists t, quoted sh s = T """" ++ t ++ T """" /\
  spelled (map (fun o => match o with Some c => c | None => rune_error end) s) t.
Proof.
  exists (flat_map (esc1 sh) s). split; [reflexivity|]. induction s as [|o s IH]; [constructor|].
  cbn [map flat_map]. apply esc1_spelled; auto.
Qed.
Lemma map_some k : map (fun o => match o with Some c => c | None => rune_error end) (map Some k) = k.
Proof. rewrite map_map. apply map_id. Qed.
Lemma newline_ws d : ws (newline d).
Proof. constructor; [cbn; auto|]. apply Forall_forall. intros c Hc. apply repeat_spec in Hc. subst. cbn; auto. Qed.

Lemma render_value sh v : forall d, value (jval v) (render sh d v).
Proof.
  assert (W0 : ws []) by constructor. assert (W1 : ws (T " ")) by (repeat constructor).
  induction v as [|b|z|s|l IH|l IH] using gv_nest; intros d; cbn [jval render].
  - constructor.
  - destruct b; constructor.
  - constructor. apply itoa_number.
  - destruct (quoted_spelled sh s) as [t [-> H]]. constructor. exact H.
  - destruct l as [|x l]; [exact (va_noelem [] W0)|]. change (map jval (x :: l)) with (jval x :: map jval l).
    rewrite (app_assoc (commas _)). apply va_arr. revert x IH. induction l as [|y l IHl]; intros x IH; inversion IH as [|? ? Hx IH']; subst.
    + cbn [map commas]. rewrite <- app_assoc. apply el_one; auto using newline_ws.
    + specialize (IHl y IH'). cbn [map commas] in *. rewrite <- !app_assoc in *.
      apply (el_more _ _ _ []); auto using newline_ws.
  - destruct l as [|[k x] l]; [exact (va_nomember [] W0)|]. cbn [map].
    rewrite (app_assoc (commas _)). apply va_obj. revert k x IH. induction l as [|[k' y] l IHl]; intros k x IH; inversion IH as [|? ? Hx IH']; subst.
    + cbn [map commas]. destruct (quoted_spelled sh (map Some k)) as [t [-> H]]. rewrite map_some in H. rewrite <- !app_assoc.
      apply (me_one _ k t [] (T " ")); auto using newline_ws.
    + specialize (IHl k' y IH'). cbn [map commas] in *. destruct (quoted_spelled sh (map Some k)) as [t [-> H]]. rewrite map_some in H.
      rewrite <- !app_assoc in *. apply (me_more _ k t [] (T " ") _ _ []); auto using newline_ws.
Qed.
Lemma encode_text r v t : encode_value r v = Some t -> json_text (jval v) t.
Proof.
  unfold encode_value. destruct (match r_depth r with None => true | Some m => (nesting v <=? m)%nat end); [|discriminate].
  intros H. injection H as <-. exists [], (render (r_short r) 0 v), [10]. split; [reflexivity|]. split; [constructor|].
  split; [apply render_value|]. constructor; [cbn; auto|constructor].
Qed.

(** * The tree that is written *)

(** A position with its file name as the encoder shows it: U+FFFD for each invalid byte. *)
Definition shown (p : apos) : apos := mkAPos (ap_offset p) (ap_line p) (ap_column p) (decode (ap_filename p)).
Lemma name_runes_decode l : forall k, (length l <= k)%nat ->
  map (fun o => match o with Some c => c | None => rune_error end) (name_runes l) = decode l.
Proof.
  intros k; revert l; induction k as [|k IH]; intros l H; [destruct l; [reflexivity|cbn in H; lia]|].
  destruct l as [|b0 t0]; [reflexivity|]. cbn [length] in H. cbn [name_runes decode].
  destruct (b0 <? 128); [cbn [map]; rewrite IH by lia; reflexivity|].
  destruct (in_range 194 223 b0).
  { destruct t0 as [|b1 t1]; [reflexivity|]. cbn [length] in H.
    destruct (is_cont b1); cbn [map]; rewrite IH by (cbn [length]; lia); reflexivity. }
  destruct (in_range 224 239 b0).
  { destruct t0 as [|b1 [|b2 t2]]; [reflexivity| |]; cbn [length] in H.
    - cbn [map]. rewrite IH by (cbn [length]; lia). reflexivity.
    - destruct (ok2_of3 b0 b1 && is_cont b2); cbn [map]; rewrite IH by (cbn [length]; lia); reflexivity. }
  destruct (in_range 240 244 b0).
  { destruct t0 as [|b1 [|b2 [|b3 t3]]]; [reflexivity| | |]; cbn [length] in H;
      try (cbn [map]; rewrite IH by (cbn [length]; lia); reflexivity).
    destruct (ok2_of4 b0 b1 && is_cont b2 && is_cont b3); cbn [map]; rewrite IH by (cbn [length]; lia); reflexivity. }
  cbn [map]. rewrite IH by lia. reflexivity.
Qed.

Definition vals (v : jv) : list jv := match v with JObj l => map snd l | _ => [] end.
Definition keys (v : jv) : list text := match v with JObj l => map fst l | _ => [] end.

Lemma jtext_inj a b : jval (gtext a) = jval (gtext b) -> a = b.
Proof. unfold gtext. cbn [jval]. rewrite !map_some. congruence. Qed.
Lemma jint_inj a b : jval (GInt a) = jval (GInt b) -> a = b.
Proof. cbn [jval]. intros H. apply itoa_inj. congruence. Qed.
Lemma jnum_inj a b : jval (gnum a) = jval (gnum b) -> a = b.
Proof. intros H. apply jint_inj in H. lia. Qed.
Lemma jbool_inj a b : jval (GBool a) = jval (GBool b) -> a = b.
Proof. cbn [jval]. congruence. Qed.
Lemma jtoken_inj a b : jval (gtoken a) = jval (gtoken b) -> a = b.
Proof. intros H. apply jnum_inj in H. destruct a, b; reflexivity || discriminate H. Qed.
Lemma jpos_inj a b : jval (gpos a) = jval (gpos b) -> shown a = shown b.
Proof.
  intros H. apply (f_equal vals) in H. unfold gpos in H. cbn [jval map vals snd] in H.
  injection H as H1 H2 H3 H4. apply itoa_inj in H1. apply itoa_inj in H2. apply itoa_inj in H3.
  rewrite !(name_runes_decode _ _ (le_n _)) in H4. unfold shown. rewrite H4. f_equal; lia.
Qed.
Lemma jopt_inj {A B} (f : A -> gv) (m : A -> B) (a b : option A) :
  (forall x, exists l, f x = GObj l) -> (forall x y, a = Some x -> b = Some y -> jval (f x) = jval (f y) -> m x = m y) ->
  jval (gopt f a) = jval (gopt f b) -> option_map m a = option_map m b.
Proof.
  intros Hf H E. destruct a as [x|], b as [y|]; cbn [gopt option_map] in *; auto.
  - f_equal. auto.
  - destruct (Hf x) as [l Hl]. rewrite Hl in E. discriminate.
  - destruct (Hf y) as [l Hl]. rewrite Hl in E. discriminate.
Qed.
Lemma jlist_inj {A B} (f : A -> gv) (m : A -> B) (a : list A) : forall b : list A,
  (forall x y, In x a -> jval (f x) = jval (f y) -> m x = m y) ->
  map jval (map f a) = map jval (map f b) -> map m a = map m b.
Proof.
  induction a as [|x a IH]; intros [|y b] H E; try discriminate; auto. cbn [map] in *. injection E as E1 E2.
  rewrite (H x y (or_introl eq_refl) E1). f_equal. apply IH; auto. intros; apply H; auto. right; auto.
Qed.
Lemma jmade_inj {A B} (f : A -> gv) (m : A -> B) (a b : list A) :
  (forall x y, In x a -> jval (f x) = jval (f y) -> m x = m y) ->
  jval (gmade (map f a)) = jval (gmade (map f b)) -> map m a = map m b.
Proof. intros H E. cbn [jval gmade] in E. injection E as E. eapply jlist_inj; eauto. Qed.
Lemma jnil_inj {A B} (f : A -> gv) (m : A -> B) (a b : list A) :
  (forall x y, In x a -> jval (f x) = jval (f y) -> m x = m y) ->
  jval (gnil (map f a)) = jval (gnil (map f b)) -> map m a = map m b.
Proof.
  intros H E. destruct a as [|x a], b as [|y b]; try discriminate E; auto.
  change (jval (gmade (map f (x :: a))) = jval (gmade (map f (y :: b)))) in E. eapply jmade_inj; eauto.
Qed.
Lemma jcmd_inj a b : jval (gcmd a) = jval (gcmd b) -> a = b.
Proof.
  intros H. apply (f_equal vals) in H. unfold gcmd in H. cbn [jval map vals snd] in H.
  destruct a as [n1 m1 f1 p1], b as [n2 m2 f2 p2]. cbn [c_name c_minlen c_flags c_parser] in H. unfold gtext in H. cbn [jval] in H. rewrite !map_some in H.
  injection H as -> H2 -> ->. apply itoa_inj in H2. f_equal. lia.
Qed.
Lemma jattr_inj a b : jval (gattr a) = jval (gattr b) -> a = b.
Proof. intros H. destruct a as [r1 a1 d1 k1], b as [r2 a2 d2 k2]. unfold gattr in H. cbn in H. injection H as -> -> -> ->. reflexivity. Qed.
Lemma jmodifier_inj a b : jval (gmodifier a) = jval (gmodifier b) -> a = b.
Proof.
  intros H. destruct a as [n1 b1 c1], b as [n2 b2 c2]. unfold gmodifier in H. cbn [m_name m_bang m_count] in H.
  destruct b1 as [b1|], c1 as [c1|], b2 as [b2|], c2 as [c2|]; cbn [app jval map gtext gnum] in H; rewrite ?map_some in H;
    try discriminate H; injection H; intros;
    repeat match goal with X : itoa _ = itoa _ |- _ => apply itoa_inj in X end; subst; repeat f_equal; lia.
Qed.
Lemma cons_inj {A} (x y : A) l l' : x :: l = y :: l' -> x = y /\ l = l'.
Proof. intros H. injection H. auto. Qed.
Ltac each_val H := apply (f_equal vals) in H; cbn [jval map vals snd] in H;
  repeat (let E := fresh "E" in apply cons_inj in H; destruct H as [E H]); clear H.
Ltac by_parts := repeat match goal with X : JNull = JNull |- _ => clear X | X : _ = _ |- _ => rewrite X; clear X end; reflexivity.
Lemma jexarg_inj a b : jval (gexarg a) = jval (gexarg b) -> map_exarg shown a = map_exarg shown b.
Proof.
  intros H. unfold gexarg in H. each_val H. unfold map_exarg.
  assert (OP : forall o o', jval (gopt gpos o) = jval (gopt gpos o') -> option_map shown o = option_map shown o').
  { intros o o'. apply jopt_inj; [intros x; eexists; reflexivity|]. intros x y _ _. apply jpos_inj. }
  assert (OC : forall o o', jval (gopt gcmd o) = jval (gopt gcmd o') -> o = o').
  { intros o o' K. apply (jopt_inj gcmd (fun x => x)) in K; [destruct o, o'; cbn in K; congruence|intros x; eexists; reflexivity|].
    intros x y _ _. apply jcmd_inj. }
  repeat match goal with
  | X : JNum _ = JNum _ |- _ => first [apply jnum_inj in X | clear X]
  | X : JBool _ = JBool _ |- _ => injection X as X
  | X : jval (gtext _) = _ |- _ => apply jtext_inj in X
  | X : jval (gnum _) = _ |- _ => apply jnum_inj in X
  | X : jval (gopt gpos _) = _ |- _ => apply OP in X
  | X : jval (gopt gcmd _) = _ |- _ => apply OC in X
  | X : jval (gmade (map gtext _)) = _ |- _ => apply (jmade_inj gtext (fun x => x)) in X; [rewrite !map_id in X|intros; apply jtext_inj; auto]
  | X : jval (gmade (map gmodifier _)) = _ |- _ => apply (jmade_inj gmodifier (fun x => x)) in X; [rewrite !map_id in X|intros; apply jmodifier_inj; auto]
  end.
  by_parts.
Qed.

(** The keys of an object tell which type of node it stands for. *)
Definition kind (n : node) : N :=
  match n with
  | NFile _ _ => 0 | NComment _ _ => 1 | NExcmd _ _ _ => 2 | NFunction _ _ _ _ _ _ _ _ => 3 | NEndFunction _ _ => 4
  | NDelFunction _ _ _ => 5 | NReturn _ _ _ => 6 | NExCall _ _ _ => 7 | NLet _ _ _ _ _ _ _ => 8 | NUnLet _ _ _ => 9
  | NLockVar _ _ _ _ => 10 | NUnLockVar _ _ _ _ => 11 | NIf _ _ _ _ _ _ _ => 12 | NElseIf _ _ _ _ => 13 | NElse _ _ _ => 14
  | NEndIf _ _ => 15 | NWhile _ _ _ _ _ => 16 | NEndWhile _ _ => 17 | NFor _ _ _ _ _ _ _ _ => 18 | NEndFor _ _ => 19
  | NContinue _ _ => 20 | NBreak _ _ => 21 | NTry _ _ _ _ _ _ => 22 | NCatch _ _ _ _ => 23 | NFinally _ _ _ => 24
  | NEndTry _ _ => 25 | NThrow _ _ _ => 26 | NEval _ _ _ => 27 | NEchoCmd _ _ _ _ => 28 | NEchohl _ _ _ => 29
  | NExecute _ _ _ => 30 | NTernary _ _ _ _ => 31 | NBinary _ _ _ _ => 32 | NUnary _ _ _ => 33 | NSubscript _ _ _ => 34
  | NSlice _ _ _ _ => 35 | NMethod _ _ _ _ => 36 | NCall _ _ _ => 37 | NDot _ _ _ => 38 | NBasicLit _ _ _ => 39
  | NList _ _ => 40 | NDict _ _ => 41 | NCurlyName _ _ => 42 | NCurlyLit _ _ => 43 | NCurlyExpr _ _ => 44 | NIdent _ _ => 45
  | NLambda _ _ _ => 46 | NParen _ _ => 47 | NHeredoc _ _ _ _ => 48
  end.
Definition a_pos := mkAPos 0 0 0 [].
Definition an_ea := mkAEa false [] 0 false 0 0 0 [] [] [] None None None None [] [].
Definition an_attr := mkAttr false false false false.
Definition kinds : list node :=
  let p := a_pos in let e := an_ea in
  [ NFile p []; NComment p []; NExcmd p [] e; NFunction p e [] None [] [] an_attr None; NEndFunction p e; NDelFunction p e None;
    NReturn p e None; NExCall p e None; NLet p e [] None [] None None; NUnLet p e []; NLockVar p e 0 []; NUnLockVar p e 0 [];
    NIf p e [] None [] None None; NElseIf p e [] None; NElse p e []; NEndIf p e; NWhile p e [] None None; NEndWhile p e;
    NFor p e [] None [] None None None; NEndFor p e; NContinue p e; NBreak p e; NTry p e [] [] None None; NCatch p e [] [];
    NFinally p e []; NEndTry p e; NThrow p e None; NEval p e None; NEchoCmd p [] e []; NEchohl p e []; NExecute p e [];
    NTernary p None None None; NBinary None p TEOF None; NUnary p TEOF None; NSubscript p None None; NSlice None p None None;
    NMethod None None p []; NCall None p []; NDot None p None; NBasicLit p TEOF []; NList p []; NDict p []; NCurlyName p [];
    NCurlyLit p []; NCurlyExpr p None; NIdent p []; NLambda p [] None; NParen p None; NHeredoc p [] [] [] ].
Fixpoint texts_eqb (a b : list text) : bool :=
  match a, b with
  | [], [] => true
  | x :: a, y :: b => text_eqb x y && texts_eqb a b
  | _, _ => false
  end.
Definition kind_of (v : jv) : option N :=
  match find (fun n => texts_eqb (keys (jval (gnode n))) (keys v)) kinds with Some n => Some (kind n) | None => None end.
Lemma kind_written n : kind_of (jval (gnode n)) = Some (kind n).
Proof.
  assert (E : forall m, In m kinds -> keys (jval (gnode n)) = keys (jval (gnode m)) -> kind m = kind n ->
    kind_of (jval (gnode m)) = Some (kind m) -> kind_of (jval (gnode n)) = Some (kind n)).
  { intros m _ H1 H2 H3. rewrite <- H2, <- H3. unfold kind_of. rewrite H1. reflexivity. }
  assert (A : Forall (fun m => kind_of (jval (gnode m)) = Some (kind m)) kinds).
  { apply Forall_forall. assert (B : forallb (fun m => match kind_of (jval (gnode m)) with Some k => k =? kind m | None => false end) kinds = true) by (vm_compute; reflexivity).
    rewrite forallb_forall in B. intros m Hm. specialize (B m Hm). cbv beta in B. destruct (kind_of (jval (gnode m))) as [k|]; [|discriminate]. f_equal. lia. }
  rewrite Forall_forall in A.
  assert (I : exists m, nth_error kinds (N.to_nat (kind n)) = Some m /\ kind m = kind n /\ keys (jval (gnode n)) = keys (jval (gnode m))).
  { destruct n; cbn [kind]; (eexists; split; [reflexivity|split; reflexivity]). }
  destruct I as [m [I1 [I2 I3]]]. apply nth_error_In in I1. eapply E; eauto.
Qed.

Lemma gnode_obj n : exists l, gnode n = GObj l.
Proof. destruct n; cbn [gnode]; eexists; reflexivity. Qed.

(** The text determines the tree, up to the invalid bytes of file names. *)
Lemma written_tree n : forall n', jval (gnode n) = jval (gnode n') -> map_node shown n = map_node shown n'.
Proof.
  induction n as [n IH] using fields_ind. intros n' H.
  assert (K : kind n = kind n'). { pose proof (kind_written n) as K1. rewrite H, kind_written in K1. congruence. }
  assert (OP : forall o o', (forall m, In m (on o) -> In m (fields n)) ->
    jval (gopt gnode o) = jval (gopt gnode o') -> option_map (map_node shown) o = option_map (map_node shown) o').
  { intros o o' Ho. apply jopt_inj; [apply gnode_obj|]. intros x y E _. apply IH. apply Ho. rewrite E. cbn; auto. }
  assert (NL : forall l l', (forall m, In m l -> In m (fields n)) ->
    jval (gnil (map gnode l)) = jval (gnil (map gnode l')) -> map (map_node shown) l = map (map_node shown) l').
  { intros l l' Hl. apply jnil_inj. intros x y Hx. apply IH. auto. }
  assert (ML : forall l l', (forall m, In m l -> In m (fields n)) ->
    jval (gmade (map gnode l)) = jval (gmade (map gnode l')) -> map (map_node shown) l = map (map_node shown) l').
  { intros l l' Hl. apply jmade_inj. intros x y Hx. apply IH. auto. }
  destruct n, n'; try discriminate K; clear K; cbn [fields] in OP, NL, ML; cbn [gnode] in H.
  all: cbn [map_node].
  all: try match goal with |- NDict _ _ = _ => idtac | |- _ =>
    each_val H;
    repeat match goal with
    | X : JNum _ = JNum _ |- _ => apply jint_inj in X
    | X : jval (GInt _) = _ |- _ => apply jint_inj in X
    | X : JNull = JNull |- _ => clear X
    | X : jval GNull = _ |- _ => clear X
    | X : jval (gtext _) = _ |- _ => apply jtext_inj in X
    | X : jval (gtoken _) = _ |- _ => apply jtoken_inj in X
    | X : jval (gattr _) = _ |- _ => apply jattr_inj in X
    | X : jval (gpos _) = _ |- _ => apply jpos_inj in X
    | X : jval (gexarg _) = _ |- _ => apply jexarg_inj in X
    | X : jval (gopt gnode _) = _ |- _ => apply OP in X; [|solve [intros; rewrite ?in_app_iff; tauto]]
    | X : jval (gnil (map gnode _)) = _ |- _ => apply NL in X; [|solve [intros; rewrite ?in_app_iff; tauto]]
    | X : jval (gmade (map gnode _)) = _ |- _ => apply ML in X; [|solve [intros; rewrite ?in_app_iff; tauto]]
    end; by_parts end.
  each_val H. apply jpos_inj in E. rewrite E. f_equal. clear E.
  eapply jmade_inj; [|exact E0]. intros [k v] [k' v'] Hx X. each_val X.
  f_equal; (apply OP; [|assumption]); intros m Hm; apply in_flat_map; eexists; (split; [exact Hx|]); cbn [fst snd];
    apply in_or_app; auto.
Qed.

(** * Changing positions *)

Lemma map_node_comp f g n : map_node f (map_node g n) = map_node (fun p => f (g p)) n.
Proof.
  induction n as [n IH] using fields_ind.
  assert (EX : forall e, map_exarg f (map_exarg g e) = map_exarg (fun p => f (g p)) e).
  { intros e. unfold map_exarg. cbn [ae_forceit ae_do_ecmd_cmd ae_append ae_usefilter ae_amount ae_force_bin ae_read_edit ae_force_ff
      ae_force_enc ae_bad_char ae_linepos ae_cmdpos ae_argpos ae_cmd ae_modifiers ae_range].
    destruct (ae_linepos e), (ae_cmdpos e), (ae_argpos e); reflexivity. }
  assert (OP : forall o, (forall m, In m (on o) -> In m (fields n)) ->
    option_map (map_node f) (option_map (map_node g) o) = option_map (map_node (fun p => f (g p))) o).
  { intros [x|] H; cbn [option_map]; [|reflexivity]. rewrite IH; [reflexivity|]. apply H. cbn; auto. }
  assert (LS : forall l, (forall m, In m l -> In m (fields n)) ->
    map (map_node f) (map (map_node g) l) = map (map_node (fun p => f (g p))) l).
  { intros l H. rewrite map_map. apply map_ext_in. intros m Hm. apply IH. auto. }
  destruct n; cbn [fields] in OP, LS; cbn [map_node];
    try (rewrite ?EX; repeat (rewrite OP by (intros; rewrite ?in_app_iff; tauto)); repeat (rewrite LS by (intros; rewrite ?in_app_iff; tauto)); reflexivity).
  rewrite map_map. f_equal. apply map_ext_in. intros [k v] Hx.
  rewrite !OP; [reflexivity| |]; intros m Hm; apply in_flat_map; eexists; (split; [exact Hx|]); cbn [fst snd]; apply in_or_app; auto.
Qed.
Lemma within_below n m k : In m (fields n) -> within m k -> within n k.
Proof. intros Hm. induction 1 as [|a b _ IH H]; [eapply wi_field; [constructor|exact Hm]|eapply wi_field; eauto]. Qed.
Lemma map_node_ext f g n : (forall m p, within n m -> In p (positions m) -> f p = g p) -> map_node f n = map_node g n.
Proof.
  induction n as [n IH] using fields_ind. intros H.
  assert (IH' : forall m, In m (fields n) -> map_node f m = map_node g m).
  { intros m Hm. apply IH; auto. intros m' p Hm'. apply H. eapply within_below; eauto. }
  assert (P0 : f (npos n) = g (npos n)). { apply (H n); [constructor|]. left. reflexivity. }
  assert (EX : forall e, nea n = Some e -> map_exarg f e = map_exarg g e).
  { intros e He. assert (K : forall p, In p (op (ae_linepos e) ++ op (ae_cmdpos e) ++ op (ae_argpos e)) -> f p = g p).
    { intros p Hp. apply (H n); [constructor|]. right. rewrite He. exact Hp. }
    unfold map_exarg. assert (OE : forall o, (forall p, In p (op o) -> f p = g p) -> option_map f o = option_map g o).
    { intros [x|] Ho; cbn [option_map]; [|reflexivity]. rewrite Ho; [reflexivity|]. cbn; auto. }
    rewrite !(OE (ae_linepos e)), !(OE (ae_cmdpos e)), !(OE (ae_argpos e)); [reflexivity|..]; intros p Hp; apply K; rewrite !in_app_iff; auto. }
  assert (OP : forall o, (forall m, In m (on o) -> In m (fields n)) -> option_map (map_node f) o = option_map (map_node g) o).
  { intros [x|] Ho; cbn [option_map]; [|reflexivity]. rewrite IH'; [reflexivity|]. apply Ho. cbn; auto. }
  assert (LS : forall l, (forall m, In m l -> In m (fields n)) -> map (map_node f) l = map (map_node g) l).
  { intros l Hl. apply map_ext_in. auto. }
  destruct n; cbn [fields] in OP, LS; cbn [npos] in P0; cbn [nea] in EX; cbn [map_node]; rewrite P0;
    try (try rewrite (EX _ eq_refl); repeat match goal with
      | |- context [option_map (map_node f) ?o] => rewrite (OP o) by (intros; rewrite ?in_app_iff; tauto)
      | |- context [map (map_node f) ?o] => rewrite (LS o) by (intros; rewrite ?in_app_iff; tauto)
      end; reflexivity).
  f_equal. apply map_ext_in. intros [k v] Hx.
  rewrite (OP k), (OP v); [reflexivity| |]; intros m Hm; apply in_flat_map; eexists; (split; [exact Hx|]); cbn [fst snd]; apply in_or_app; auto.
Qed.
Lemma map_node_id n : map_node (fun p => p) n = n.
Proof.
  induction n as [n IH] using fields_ind.
  assert (EX : forall e, map_exarg (fun p => p) e = e).
  { intros []. unfold map_exarg. cbn. destruct ae_linepos, ae_cmdpos, ae_argpos; reflexivity. }
  assert (OP : forall o, (forall m, In m (on o) -> In m (fields n)) -> option_map (map_node (fun p => p)) o = o).
  { intros [x|] H; cbn [option_map]; [|reflexivity]. rewrite IH; [reflexivity|]. apply H. cbn; auto. }
  assert (LS : forall l, (forall m, In m l -> In m (fields n)) -> map (map_node (fun p => p)) l = l).
  { intros l H. rewrite <- (map_id l) at 2. apply map_ext_in. intros m Hm. apply IH. auto. }
  destruct n; cbn [fields] in OP, LS; cbn [map_node];
    try (rewrite ?EX; repeat (rewrite OP by (intros; rewrite ?in_app_iff; tauto)); repeat (rewrite LS by (intros; rewrite ?in_app_iff; tauto)); reflexivity).
  f_equal. rewrite <- (map_id entries) at 2. apply map_ext_in. intros [k v] Hx.
  rewrite !OP; [reflexivity| |]; intros m Hm; apply in_flat_map; eexists; (split; [exact Hx|]); cbn [fst snd]; apply in_or_app; auto.
Qed.

(** * How deep the output is nested *)

Lemma nesting_pos p : nesting (gpos p) = 1%nat.
Proof. reflexivity. Qed.
Lemma nesting_opt {A} (f : A -> gv) o B : (forall x, o = Some x -> (nesting (f x) <= B)%nat) -> (nesting (gopt f o) <= B)%nat.
Proof. destruct o; cbn [gopt]; auto. intros _. cbn. lia. Qed.
Lemma nesting_made {A} (f : A -> gv) l B : (forall x, In x l -> (nesting (f x) <= B)%nat) -> (nesting (gmade (map f l)) <= S B)%nat.
Proof.
  intros H. cbn [gmade nesting]. apply le_n_S. apply list_max_le. rewrite map_map. apply Forall_forall. intros k Hk.
  apply in_map_iff in Hk. destruct Hk as [x [<- Hx]]. auto.
Qed.
Lemma nesting_nil {A} (f : A -> gv) l B : (forall x, In x l -> (nesting (f x) <= B)%nat) -> (nesting (gnil (map f l)) <= S B)%nat.
Proof. intros H. destruct l as [|x l]; [cbn; lia|]. apply (nesting_made f (x :: l) B H). Qed.
Lemma nesting_obj l B : Forall (fun kv => (nesting (snd kv) <= B)%nat) l -> (nesting (GObj l) <= S B)%nat.
Proof.
  intros H. cbn [nesting]. apply le_n_S. apply list_max_le. rewrite Forall_map. eapply Forall_impl; [|exact H].
  intros [k x]. auto.
Qed.
Lemma nesting_modifier m : nesting (gmodifier m) = 1%nat.
Proof. unfold gmodifier. destruct (m_bang m), (m_count m); reflexivity. Qed.
Lemma nesting_exarg e : (nesting (gexarg e) <= 3)%nat.
Proof.
  apply (nesting_obj _ 2). cbv delta [gexarg] beta. repeat apply Forall_cons; try apply Forall_nil; cbn [snd];
    match goal with
    | |- (nesting (gopt gpos _) <= _)%nat => apply nesting_opt; intros; rewrite nesting_pos; lia
    | |- (nesting (gopt gcmd _) <= _)%nat => apply nesting_opt; intros; cbn; lia
    | |- (nesting (gmade (map gmodifier _)) <= _)%nat => apply (nesting_made gmodifier _ 1); intros; rewrite nesting_modifier; lia
    | |- (nesting (gnil (map gmodifier _)) <= _)%nat => apply (nesting_nil gmodifier _ 1); intros; rewrite nesting_modifier; lia
    | |- (nesting (gmade (map ?f _)) <= _)%nat => apply (nesting_made f _ 1); intros; cbn; lia
    | |- (nesting (gnil (map ?f _)) <= _)%nat => apply (nesting_nil f _ 1); intros; cbn; lia
    | |- _ => cbn; lia
    end.
Qed.
Lemma nesting_step n B : (1 <= B)%nat -> (forall m, In m (fields n) -> (nesting (gnode m) <= B)%nat) -> (nesting (gnode n) <= 3 + B)%nat.
Proof.
  intros HB H.
  assert (OP : forall o, (forall m, In m (on o) -> In m (fields n)) -> (nesting (gopt gnode o) <= B)%nat).
  { intros o Ho. apply nesting_opt. intros x ->. apply H, Ho. cbn; auto. }
  assert (NL : forall l, (forall m, In m l -> In m (fields n)) -> (nesting (gnil (map gnode l)) <= S B)%nat).
  { intros l Hl. apply nesting_nil. auto. }
  assert (ML : forall l, (forall m, In m l -> In m (fields n)) -> (nesting (gmade (map gnode l)) <= S B)%nat).
  { intros l Hl. apply nesting_made. auto. }
  destruct n; cbn [fields] in OP, NL, ML; cbn [gnode]; apply (nesting_obj _ (2 + B)); repeat apply Forall_cons; try apply Forall_nil; cbn [snd];
    try match goal with
    | |- (nesting (gpos _) <= _)%nat => rewrite nesting_pos; lia
    | |- (nesting (gexarg ?e) <= _)%nat => pose proof (nesting_exarg e); lia
    | |- (nesting (gopt gnode ?o) <= _)%nat => pose proof (OP o ltac:(intros; rewrite ?in_app_iff; tauto)); lia
    | |- (nesting (gnil (map gnode ?o)) <= _)%nat => pose proof (NL o ltac:(intros; rewrite ?in_app_iff; tauto)); lia
    | |- (nesting (gmade (map gnode ?o)) <= _)%nat => pose proof (ML o ltac:(intros; rewrite ?in_app_iff; tauto)); lia
    | |- (nesting (gtext _) <= _)%nat => cbn; lia
    | |- (nesting (gattr _) <= _)%nat => cbn; lia
    | |- (nesting (gtoken _) <= _)%nat => cbn; lia
    | |- (nesting (GInt _) <= _)%nat => cbn; lia
    | |- (nesting GNull <= _)%nat => cbn; lia
    end.
  apply (nesting_made _ entries (S B)). intros [k v] Hx. apply nesting_obj. repeat constructor; cbn [snd]; apply OP; intros m Hm;
    apply in_flat_map; eexists; (split; [exact Hx|]); cbn [fst snd]; apply in_or_app; auto.
Qed.
