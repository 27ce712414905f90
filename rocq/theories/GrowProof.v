(** Objects of the node store are never taken back: what a command leaves of them. *)
From Coq Require Import Lia ZifyBool ZifyNat ZifyN.
From Verif Require Import Base CharClass Reader Vnode Tokenizer ExprParser CmdTable CmdParser
  HeapParser HeapProof.

(** * The specification *)

(** The second node is the first one at a later time: the same command with the same
    arguments at the same place, and nothing taken out of its lists. *)
Definition later (d d' : hnode) : Prop :=
  n_kind d' = n_kind d /\ n_pos d' = n_pos d /\ n_ea d' = n_ea d /\
  (exists x, n_body d' = n_body d ++ x) /\ (exists x, n_elseif d' = n_elseif d ++ x) /\
  (exists x, n_catch d' = n_catch d ++ x).
(** Every object of the first store is in the second one, at the same address. *)
Definition grow (s s' : list hnode) : Prop :=
  forall a d, nth_error s a = Some d -> exists d', nth_error s' a = Some d' /\ later d d'.

(** * The steps *)

Lemma later_refl d : later d d.
Proof. repeat split; exists []; now rewrite app_nil_r. Qed.
Lemma later_trans d e f : later d e -> later e f -> later d f.
Proof.
  intros (A & B & C0 & [x X] & [y Y] & [z Z]) (A' & B' & C' & [x' X'] & [y' Y'] & [z' Z']).
  unfold later. rewrite A', B', C', X', Y', Z', A, B, C0, X, Y, Z. rewrite <- !app_assoc. repeat split; eauto.
Qed.
Lemma grow_refl s : grow s s.
Proof. intros a d E. exists d. split; [exact E|apply later_refl]. Qed.
Lemma grow_trans s t u : grow s t -> grow t u -> grow s u.
Proof.
  intros A B a d E. destruct (A a d E) as [d1 [E1 L1]]. destruct (B a d1 E1) as [d2 [E2 L2]].
  exists d2. split; [exact E2|exact (later_trans _ _ _ L1 L2)].
Qed.
Lemma grow_change a f s : (forall d, later d (f d)) -> grow s (change a f s).
Proof.
  intros H b d E. destruct (Nat.eq_dec b a) as [->|N].
  - exists (f d). split; [exact (change_same _ _ _ _ E)|apply H].
  - exists d. split; [rewrite change_other by exact N; exact E|apply later_refl].
Qed.
Lemma grow_new s n : grow s (s ++ [n]).
Proof.
  intros a d E. exists d. split; [|apply later_refl]. rewrite nth_error_app1; [exact E|]. apply nth_error_Some. congruence.
Qed.

Lemma later_body x d : later d (put_body x d).
Proof. unfold later, put_body. cbn. repeat split; try (exists []; now rewrite app_nil_r). eauto. Qed.
Lemma later_elseif a d : later d (put_elseif a d).
Proof. unfold later, put_elseif. cbn. repeat split; try (exists []; now rewrite app_nil_r). eauto. Qed.
Lemma later_else a d : later d (put_else a d).
Proof. unfold later, put_else. cbn. repeat split; try (exists []; now rewrite app_nil_r). Qed.
Lemma later_catch a d : later d (put_catch a d).
Proof. unfold later, put_catch. cbn. repeat split; try (exists []; now rewrite app_nil_r). eauto. Qed.
Lemma later_finally a d : later d (put_finally a d).
Proof. unfold later, put_finally. cbn. repeat split; try (exists []; now rewrite app_nil_r). Qed.
Lemma later_end v d : later d (put_end v d).
Proof. unfold later, put_end. cbn. repeat split; try (exists []; now rewrite app_nil_r). Qed.

(** The outcome is a failure, or a state with a later store. *)
Definition grows (s : list hnode) (o : outcome hstate) : Prop :=
  match o with Ok st => grow s (h_store st) | _ => True end.

Lemma grows_bind s o (f : hstate -> outcome hstate) : grows s o ->
  (forall st, grow s (h_store st) -> grows s (f st)) -> grows s (bind o f).
Proof. destruct o; cbn [bind grows]; auto. Qed.
Lemma g_change f s st : (forall d, later d (f d)) -> grow s (h_store st) -> grows s (h_change_top f st).
Proof.
  intros H G. unfold h_change_top. destruct (h_ctx st); [exact I|]. cbn [grows h_store].
  eapply grow_trans; [exact G|apply grow_change, H].
Qed.
Lemma g_add v s st : grow s (h_store st) -> grows s (h_add_node v st).
Proof. apply g_change, later_body. Qed.
Lemma g_part put k p e s st : (forall a d, later d (put a d)) -> grow s (h_store st) -> grows s (h_open_part put k p e st).
Proof.
  intros H G. unfold h_open_part, h_new. apply grows_bind.
  - apply g_change; [apply H|]. cbn [h_store]. eapply grow_trans; [exact G|apply grow_new].
  - intros st2 G2. exact G2.
Qed.
Lemma g_block k p e s st : grow s (h_store st) -> grows s (h_open_block k p e st).
Proof. apply (g_part (fun a => put_body (Ptr a))). intros. apply later_body. Qed.
Lemma g_pop s st : grow s (h_store st) -> grows s (h_pop st).
Proof. unfold h_pop. destruct (h_ctx st); cbn; auto. Qed.
Lemma g_end v s st : grow s (h_store st) -> grows s (h_end_block v st).
Proof.
  intros G. unfold h_end_block. apply grows_bind; [apply g_change; [apply later_end|exact G]|]. intros; now apply g_pop.
Qed.
Lemma g_ok s st : grow s (h_store st) -> grows s (Ok st).
Proof. auto. Qed.
Lemma g_cur c s st : grow s (h_store st) -> grow s (h_store (h_with_cur c st)).
Proof. auto. Qed.
Lemma g_if s (b : bool) st : grow s (h_store st) -> grows s (if b then Ok st else h_pop st).
Proof. intros. destruct b; [now apply g_ok|now apply g_pop]. Qed.

(** Takes a command apart down to the steps above. *)
Ltac gstep :=
  match goal with
  | |- grows _ (raise _ _) => exact I
  | |- grows _ (Panic _) => exact I
  | |- grows _ (bind (if _ then Ok ?x else h_pop ?x) _) => apply grows_bind; [apply g_if|intros]
  | |- grows _ (bind (h_add_node _ _) _) => apply grows_bind; [apply g_add|intros]
  | |- grows _ (bind ?o _) => let t := type of o in
      lazymatch t with
      | outcome hstate => fail
      | _ => destruct o as [?| | |]; cbn [bind]; [|exact I|exact I|exact I]
      end
  | |- grows _ (let (_, _) := ?x in _) => destruct x
  | |- grows _ (if ?b then _ else _) => destruct b
  | |- grows _ (match ?x with _ => _ end) => destruct x
  | |- grows _ (h_add_node _ _) => apply g_add
  | |- grows _ (h_open_block _ _ _ _) => apply g_block
  | |- grows _ (h_open_part put_elseif _ _ _ _) => apply g_part; [exact later_elseif|]
  | |- grows _ (h_open_part put_else _ _ _ _) => apply g_part; [exact later_else|]
  | |- grows _ (h_open_part put_catch _ _ _ _) => apply g_part; [exact later_catch|]
  | |- grows _ (h_open_part put_finally _ _ _ _) => apply g_part; [exact later_finally|]
  | |- grows _ (h_end_block _ _) => apply g_end
  | |- grows _ (Ok _) => apply g_ok
  | |- grow _ (h_store (h_with_cur _ _)) => apply g_cur
  | |- grow _ _ => assumption
  end.
Ltac gall F := intros; unfold F; cbv zeta; repeat gstep.

Definition gcmdP (F : ectx -> hstate -> outcome hstate) : Prop :=
  forall k s st, grow s (h_store st) -> grows s (F k st).

Lemma g_comment s st : grow s (h_store st) -> grows s (h_parse_comment st).
Proof. gall h_parse_comment. Qed.
Lemma g_trail s st : grow s (h_store st) -> grows s (h_parse_trail st).
Proof. intros H. unfold h_parse_trail. cbv zeta. repeat gstep. apply grows_bind; [apply g_comment; repeat gstep|intros; repeat gstep]. Qed.
Lemma g_common : gcmdP h_parse_cmd_common. Proof. red. gall h_parse_cmd_common. Qed.
Lemma g_append : gcmdP h_parse_cmd_append. Proof. red. gall h_parse_cmd_append. Qed.
Lemma g_loadkeymap : gcmdP h_parse_cmd_loadkeymap. Proof. red. gall h_parse_cmd_loadkeymap. Qed.
Lemma g_lua : gcmdP h_parse_cmd_lua. Proof. red. gall h_parse_cmd_lua. Qed.
Lemma g_finish : gcmdP h_parse_cmd_finish.
Proof. intros k s st H. unfold h_parse_cmd_finish. apply grows_bind; [now apply g_common|]. intros. repeat gstep. Qed.
Lemma g_function : gcmdP h_parse_cmd_function.
Proof. intros k s st H. unfold h_parse_cmd_function. cbv zeta. repeat first [apply g_common; assumption|gstep]. Qed.
Lemma g_endfunction : gcmdP h_parse_cmd_endfunction. Proof. red. gall h_parse_cmd_endfunction. Qed.
Lemma g_delfunction : gcmdP h_parse_cmd_delfunction. Proof. red. gall h_parse_cmd_delfunction. Qed.
Lemma g_return : gcmdP h_parse_cmd_return. Proof. red. gall h_parse_cmd_return. Qed.
Lemma g_call : gcmdP h_parse_cmd_call. Proof. red. gall h_parse_cmd_call. Qed.
Lemma g_heredoc k s st : grow s (h_store st) ->
  match h_parse_heredoc k st with Ok (_, st') => grow s (h_store st') | _ => True end.
Proof.
  intros H. unfold h_parse_heredoc. destruct (heredoc_words _ _) as [[[ws m] c1]| | |]; cbn [bind]; auto.
  destruct (is_nil m); [exact I|]. pose proof (g_trail s (h_with_cur c1 st) H) as G.
  destruct (h_parse_trail _) as [st1| | |]; cbn [bind]; auto. destruct (heredoc_lines _ _ _) as [[ls c2]| | |]; cbn [bind]; auto.
Qed.
Lemma g_let : gcmdP h_parse_cmd_let.
Proof.
  intros k s st H. unfold h_parse_cmd_let. cbv zeta.
  repeat first [apply g_common; assumption
    |match goal with |- grows ?s (bind (h_parse_heredoc ?k ?x) _) => let G := fresh in pose proof (g_heredoc k s x ltac:(repeat gstep)) as G; destruct (h_parse_heredoc k x) as [[? ?]| | |]; cbn [bind]; [apply g_add; exact G|exact I|exact I|exact I] end
    |gstep].
Qed.
Lemma g_const : gcmdP h_parse_cmd_const.
Proof. intros k s st H. unfold h_parse_cmd_const. cbv zeta. repeat first [apply g_common; assumption|gstep]. Qed.
Lemma g_unlet : gcmdP h_parse_cmd_unlet. Proof. red. gall h_parse_cmd_unlet. Qed.
Lemma g_lock mk : gcmdP (h_parse_cmd_lock mk). Proof. red. gall h_parse_cmd_lock. Qed.
Lemma g_if_ : gcmdP h_parse_cmd_if. Proof. red. gall h_parse_cmd_if. Qed.
Lemma g_elseif : gcmdP h_parse_cmd_elseif. Proof. red. gall h_parse_cmd_elseif. Qed.
Lemma g_else : gcmdP h_parse_cmd_else. Proof. red. gall h_parse_cmd_else. Qed.
Lemma g_endif : gcmdP h_parse_cmd_endif. Proof. red. gall h_parse_cmd_endif. Qed.
Lemma g_while : gcmdP h_parse_cmd_while. Proof. red. gall h_parse_cmd_while. Qed.
Lemma g_endwhile : gcmdP h_parse_cmd_endwhile. Proof. red. gall h_parse_cmd_endwhile. Qed.
Lemma g_for : gcmdP h_parse_cmd_for. Proof. red. gall h_parse_cmd_for. Qed.
Lemma g_endfor : gcmdP h_parse_cmd_endfor. Proof. red. gall h_parse_cmd_endfor. Qed.
Lemma g_continue : gcmdP h_parse_cmd_continue. Proof. red. gall h_parse_cmd_continue. Qed.
Lemma g_break : gcmdP h_parse_cmd_break. Proof. red. gall h_parse_cmd_break. Qed.
Lemma g_try : gcmdP h_parse_cmd_try. Proof. red. gall h_parse_cmd_try. Qed.
Lemma g_catch : gcmdP h_parse_cmd_catch. Proof. red. gall h_parse_cmd_catch. Qed.
Lemma g_finally : gcmdP h_parse_cmd_finally. Proof. red. gall h_parse_cmd_finally. Qed.
Lemma g_endtry : gcmdP h_parse_cmd_endtry. Proof. red. gall h_parse_cmd_endtry. Qed.
Lemma g_throw : gcmdP h_parse_cmd_throw. Proof. red. gall h_parse_cmd_throw. Qed.
Lemma g_eval : gcmdP h_parse_cmd_eval. Proof. red. gall h_parse_cmd_eval. Qed.
Lemma g_echo kd : gcmdP (h_parse_cmd_echo kd). Proof. red. gall h_parse_cmd_echo. Qed.
Lemma g_echohl : gcmdP h_parse_cmd_echohl. Proof. red. gall h_parse_cmd_echohl. Qed.
Lemma g_execute : gcmdP h_parse_cmd_execute. Proof. red. gall h_parse_cmd_execute. Qed.
Lemma g_wincmd : gcmdP h_parse_wincmd. Proof. red. gall h_parse_wincmd. Qed.
Lemma g_syntax : gcmdP h_parse_cmd_syntax. Proof. red. gall h_parse_cmd_syntax. Qed.

Lemma assoc_ok {A} (Q : A -> Prop) n : forall l : list (text * A), Forall (fun x => Q (snd x)) l ->
  match assoc_text n l with Some x => Q x | None => True end.
Proof.
  induction l as [|[k v] l IH]; intros H; [exact I|]. inversion_clear H. cbn [assoc_text].
  destruct (text_eqb _ _); [assumption|]. apply IH. assumption.
Qed.
Create HintDb gdb discriminated.
#[local] Hint Constants Opaque : gdb.
#[local] Hint Resolve g_append g_break g_call g_catch g_common g_continue g_delfunction g_echo g_echohl
  g_else g_elseif g_endfor g_endfunction g_endif g_endtry g_endwhile g_execute g_finally g_finish g_for g_function
  g_if_ g_let g_const g_loadkeymap g_lock g_lua g_return g_throw g_eval g_try g_unlet g_while g_wincmd g_syntax : gdb.
Lemma g_table : Forall (fun x => gcmdP (snd x)) h_parser_table.
Proof.
  unfold h_parser_table. repeat (apply Forall_cons; [cbn [snd]; solve [auto with gdb nocore]|]). apply Forall_nil.
Qed.
Lemma g_dispatch : gcmdP h_dispatch.
Proof.
  intros k s st H. unfold h_dispatch. pose proof (assoc_ok gcmdP (c_parser (ec_x k)) _ g_table) as G.
  destruct (assoc_text _ _); [apply G, H|exact I].
Qed.
Lemma g_find neovim s st : grow s (h_store st) -> grow s (h_store (snd (h_find_command neovim st))).
Proof.
  intros H. unfold h_find_command. destruct (read_cmd_name _). destruct (is_nil _); [exact H|].
  destruct (assoc_text _ _); [exact H|]. cbv zeta. match goal with |- context [if ?b then _ else _] => destruct b end; [destruct (read_alnum _)|]; exact H.
Qed.
Lemma g_command neovim e line s st : grow s (h_store st) -> grows s (h_parse_command neovim e line st).
Proof.
  intros H. unfold h_parse_command, h_parse_cmd_modifier_range. cbv zeta.
  destruct (peek1 _) as [r|]; [|repeat gstep].
  destruct (r =? _); [repeat gstep|].
  pose proof (g_find neovim s (h_with_cur (skip_white_and_colon (h_cur st)) st) H) as G.
  destruct (h_find_command _ _) as [[x|] st2]; [|exact I]. cbn [snd] in G.
  repeat match goal with
  | |- grows _ (if ?b && ?c && ?d then raise _ _ else _) => destruct (b && c && d); [exact I|]
  | |- grows _ (h_dispatch _ _) => apply g_dispatch, G
  | |- _ => gstep
  end.
Qed.
Lemma g_one neovim s st : grow s (h_store st) -> grows s (h_parse_one_cmd neovim st).
Proof.
  intros H. unfold h_parse_one_cmd. cbv zeta. destruct (text_eqb _ _); [exact H|]. destruct (peek1 _) as [r|]; [|exact H].
  destruct (r =? _).
  - apply grows_bind; [apply g_comment; exact H|]. intros. assumption.
  - repeat gstep. apply grows_bind; [apply g_command; exact H|]. intros. now apply g_trail.
Qed.
Lemma g_loop neovim : forall n s st, grow s (h_store st) -> grows s (h_cmds_loop neovim n st).
Proof.
  induction n as [|n IH]; intros s st H; [exact I|]. cbn [h_cmds_loop]. destruct (is_eof _); [exact H|].
  apply grows_bind; [apply g_one, H|]. intros. now apply IH.
Qed.
