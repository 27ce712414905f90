(** Property C75: under -json every field of the tree is found under its name. *)
From Coq Require Import Lia ZifyBool ZifyNat ZifyN.
From Verif Require Import Base Utf8 CharClass Reader Vnode Token Ast ExprParser CmdTable Api Cli Places LinesProof
  Json JsonSpec JsonRead JsonProof JsonFields Nodes Cursor WalkProof PropJson.

Lemma dec_natural n : natural (dec n) n.
Proof.
  split; [|split].
  - destruct (dec_shape n) as [->|[d [ds [-> [H1 H2]]]]]; [repeat constructor; discriminate|]. constructor; [lia|exact H2].
  - destruct (dec_head n) as [d [ds [-> _]]]. discriminate.
  - symmetry. apply dec_val.
Qed.
Lemma itoa_N n : itoa (Z.of_N n) = dec n.
Proof. destruct n; reflexivity. Qed.
Lemma itoa_whole z : whole (itoa z) z.
Proof.
  destruct z as [|p|p].
  - left. exists 0. split; [apply (dec_natural 0)|reflexivity].
  - left. exists (N.pos p). split; [apply dec_natural|reflexivity].
  - right. exists (dec (N.pos p)), (N.pos p). split; [reflexivity|]. split; [apply dec_natural|reflexivity].
Qed.
Lemma show_int z : shows (FInt z) (jval (GInt z)).
Proof. constructor. apply itoa_whole. Qed.
Lemma show_num n : shows (FInt (Z.of_N n)) (jval (gnum n)).
Proof. apply show_int. Qed.
Lemma show_tok t : shows (FTok t) (jval (gtoken t)).
Proof. unfold gtoken, gnum. cbn [jval]. rewrite itoa_N. constructor. apply dec_natural. Qed.
Lemma show_text t : shows (FText t) (jval (gtext t)).
Proof. unfold gtext. cbn [jval]. rewrite map_some. constructor. Qed.
Lemma show_pos p : shows (FPos p) (jval (gpos p)).
Proof.
  unfold gpos. cbn [jval map]. constructor. unfold pos_fields.
  repeat (apply ob_cons; [first [apply show_num|idtac]|]); [|constructor].
  rewrite (name_runes_decode _ _ (le_n _)). constructor. intros t H. apply utf8_decode. exact H.
Qed.
Lemma show_maybe_pos o : shows (FMaybePos o) (jval (gopt gpos o)).
Proof. destruct o as [p|]; [apply sh_apos, show_pos|apply sh_nopos]. Qed.
Lemma show_maybe_cmd o : shows (FMaybeCmd o) (jval (gopt gcmd o)).
Proof.
  destruct o as [c|]; [|apply sh_nocmd]. cbn [gopt]. unfold gcmd. cbn [jval map]. constructor. unfold cmd_fields.
  repeat (apply ob_cons; [first [apply show_num|apply show_text]|]). constructor.
Qed.
Lemma show_texts l : shows (FTexts l) (jval (gmade (map gtext l))).
Proof.
  cbn [gmade jval]. replace (map jval (map gtext l)) with (map JStr l); [constructor|].
  rewrite map_map. apply map_ext. intros t. unfold gtext. cbn [jval]. rewrite map_some. reflexivity.
Qed.
Lemma show_mods l : shows (FMods l) (jval (gmade (map gmodifier l))).
Proof.
  cbn [gmade jval]. constructor. induction l as [|[nm b c] l IH]; [constructor|]. cbn [map]. unfold gmodifier at 1. cbn [jval].
  constructor; [|exact IH]. unfold mod_fields. cbn [m_name m_bang m_count].
  destruct b as [b|], c as [c|]; cbn [app map];
    repeat (apply ob_cons; [first [apply show_num|apply show_int|apply show_text]|]); constructor.
Qed.
Lemma show_attr a : shows (FAttr a) (jval (gattr a)).
Proof. unfold gattr. cbn [jval map]. constructor. unfold attr_fields. repeat (apply ob_cons; [constructor|]). constructor. Qed.
Lemma show_arg e : shows (FArg e) (jval (gexarg e)).
Proof.
  unfold gexarg. cbn [jval map]. constructor. unfold arg_fields.
  repeat (apply ob_cons; [first
    [apply sh_bool|apply sh_null|apply show_num|apply show_int|apply show_text|apply show_maybe_pos|apply show_maybe_cmd
    |apply show_mods|apply show_texts]|]). constructor.
Qed.
Lemma show_each ns : Forall (fun n => shows (FNode (Some n)) (jval (gnode n))) ns -> each ns (map jval (map gnode ns)).
Proof. induction 1; cbn [map]; constructor; auto. Qed.
Lemma show_made ns : Forall (fun n => shows (FNode (Some n)) (jval (gnode n))) ns -> shows (FNodes ns) (jval (gmade (map gnode ns))).
Proof. intros H. cbn [gmade jval]. constructor. apply show_each, H. Qed.
Lemma show_nil ns : Forall (fun n => shows (FNode (Some n)) (jval (gnode n))) ns -> shows (FNodes ns) (jval (gnil (map gnode ns))).
Proof. intros H. destruct ns as [|n ns]; [constructor|]. apply (show_made (n :: ns)), H. Qed.
Lemma show_opt o : (forall m, In m (on o) -> shows (FNode (Some m)) (jval (gnode m))) -> shows (FNode o) (jval (gopt gnode o)).
Proof. intros H. destruct o as [m|]; [apply H; cbn; auto|constructor]. Qed.
Lemma show_node n : shows (FNode (Some n)) (jval (gnode n)).
Proof.
  induction n as [n IH] using fields_ind.
  assert (OP : forall o, (forall m, In m (on o) -> In m (fields n)) -> shows (FNode o) (jval (gopt gnode o))) by (intros o Ho; apply show_opt; auto).
  assert (NL : forall l, (forall m, In m l -> In m (fields n)) -> shows (FNodes l) (jval (gnil (map gnode l))))
    by (intros l Hl; apply show_nil, Forall_forall; auto).
  assert (ML : forall l, (forall m, In m l -> In m (fields n)) -> shows (FNodes l) (jval (gmade (map gnode l))))
    by (intros l Hl; apply show_made, Forall_forall; auto).
  destruct n; cbn [gnode jval map]; apply sh_node; unfold node_fields; cbn [fields] in OP, NL, ML;
  try (repeat (apply ob_cons; [first
    [apply sh_null|apply show_pos|apply show_arg|apply show_text|apply show_int|apply show_tok|apply show_attr
    |apply OP; intros ? ?; rewrite ?in_app_iff; tauto|apply NL; intros ? ?; rewrite ?in_app_iff; tauto
    |apply ML; intros ? ?; rewrite ?in_app_iff; tauto]|]); constructor; fail).
  clear NL ML IH. apply ob_cons; [apply show_pos|]. apply ob_cons; [|constructor]. cbn [gmade jval]. constructor.
  induction entries as [|[k v] es IH]; [constructor|]. cbn [map jval]. constructor.
  - unfold entry_fields. cbn [fst snd]. repeat (apply ob_cons; [apply OP; intros ? ?; cbn [flat_map]; rewrite ?in_app_iff; tauto|]). constructor.
  - apply IH. intros o Ho. apply OP. intros m Hm. cbn [flat_map]. rewrite in_app_iff. auto.
Qed.

(** * C75 *)

Theorem C75_json_fields : forall rel nv w args f src n out v,
  reads w args f src -> ParseFile src f (Some (mkOption nv)) = Returned n ->
  cli_main (go_json rel) (mkFlags nv true) w args = Ok (mkCli 0 out [] false) ->
  json_text v out -> shows (FNode (Some n)) v.
Proof.
  intros rel nv w args f src n out v Hw HP HC Hv. rewrite (run_json _ _ _ _ _ _ _ Hw HP) in HC.
  unfold go_json in HC. destruct (encode_value rel (gnode n)) as [t|] eqn:E; [|discriminate HC].
  injection HC as <-. rewrite (json_text_unique _ _ _ Hv (encode_text _ _ _ E)). apply show_node.
Qed.
Print Assumptions C75_json_fields.

(** What a program that reads the output may do: look a member up by its name. *)
Fixpoint member (k : text) (l : list (text * jv)) : option jv :=
  match l with [] => None | (k', v) :: l => if text_eqb k k' then Some v else member k l end.
Definition at_ (k : text) (v : jv) : option jv := match v with JObj l => member k l | _ => None end.
Lemma member_shown k : forall fs l x, object fs l -> In (k, x) fs -> NoDup (map fst fs) -> exists v, member k l = Some v /\ shows x v.
Proof.
  intros fs l x H. revert x. induction H as [|k' x' v fs l Hx H IH]; intros x Hin Hnd; [destruct Hin|].
  cbn [member]. inversion Hnd as [|? ? Hn Hd]; subst. destruct Hin as [E|Hin].
  - injection E as -> ->. rewrite (proj2 (text_eqb_eq k k) eq_refl). eauto.
  - destruct (text_eqb k k') eqn:Ek; [|eauto]. apply text_eqb_eq in Ek. subst k'. exfalso. apply Hn. change k with (fst (k, x)). apply in_map, Hin.
Qed.
Theorem C75_lookup : forall n v k x, shows (FNode (Some n)) v -> In (k, x) (node_fields n) ->
  exists y, at_ k v = Some y /\ shows x y.
Proof.
  intros n v k x H Hin. inversion H as [| | | | | | | | | | | | | | | |n' l Ho| | | ]; subst. cbn [at_]. eapply member_shown; eauto.
  destruct n; cbn [node_fields map fst]; repeat constructor; cbn [In]; intros K; repeat destruct K as [K|K]; try discriminate K; exact K.
Qed.
Print Assumptions C75_lookup.
(** A script whose tree has a modifier, a block, a condition and a binary expression; what
    is found by following names in the output. *)
Definition C75_script : list N := T "if a" ++ 10 :: T "silent! call F(b - 'c')" ++ 10 :: T "endif".
Definition path (ks : list (N + text)) (v : jv) : option jv :=
  fold_left (fun o k => match o, k with
    | Some (JArr l), inl i => nth_error l (N.to_nat i)
    | Some v, inr k => at_ k v
    | _, _ => None end) ks (Some v).
Example C75_case : exists n out v,
  ParseFile (mkSource C75_script false) (T "f") (Some (mkOption false)) = Returned n /\
  reads (one_file (T "f") C75_script) [T "f"] (T "f") (mkSource C75_script false) /\
  cli_main (go_json (mkRelease false None)) (mkFlags false true) (one_file (T "f") C75_script) [T "f"] = Ok (mkCli 0 out [] false) /\
  json_text v out /\
  let call := [inr (T "Body"); inl 0; inr (T "Body"); inl 0] in
  path [inr (T "Body"); inl 0; inr (T "Condition"); inr (T "Name")] v = Some (JStr (T "a")) /\
  path (call ++ [inr (T "ExArg"); inr (T "Modifiers"); inl 0; inr (T "name")]) v = Some (JStr (T "silent")) /\
  path (call ++ [inr (T "ExArg"); inr (T "Modifiers"); inl 0; inr (T "bang")]) v = Some (JNum (T "1")) /\
  path (call ++ [inr (T "FuncCall"); inr (T "Args"); inl 0; inr (T "Left"); inr (T "Name")]) v = Some (JStr (T "b")) /\
  path (call ++ [inr (T "FuncCall"); inr (T "Args"); inl 0; inr (T "Right"); inr (T "Value")]) v = Some (JStr (T "'c'")) /\
  path (call ++ [inr (T "FuncCall"); inr (T "Args"); inl 0; inr (T "OpPos"); inr (T "Column")]) v = Some (JNum (T "18")).
Proof.
  destruct (ParseFile (mkSource C75_script false) (T "f") (Some (mkOption false))) as [n| |] eqn:E; [|exfalso; revert E; vm_compute; discriminate..].
  exists n, (render false 0 (gnode n) ++ [10]), (jval (gnode n)). split; [reflexivity|]. split; [|split; [|split]].
  - constructor. reflexivity.
  - cbn [cli_main cli_files one_file w_open]. change (text_eqb (T "f") (T "f")) with true. cbv iota. unfold cli_parse.
    cbn [f_neovim f_json]. rewrite E. reflexivity.
  - exists [], (render false 0 (gnode n)), [10]. split; [reflexivity|]. split; [constructor|]. split; [apply render_value|]. constructor; [cbn; auto|constructor].
  - vm_compute in E. injection E as <-. cbv zeta. repeat split; vm_compute; reflexivity.
Qed.
