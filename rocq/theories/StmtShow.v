(** The export of statements, up to positions. *)
From Coq Require Import Lia ZifyBool ZifyNat ZifyN.
From Verif Require Import Base CharClass Reader Vnode Token Tokenizer ExprParser Cursor Grammar Ast Export Join JoinProof Script Written WrittenProof CmdTable CmdParser WrittenScript ArgsProof.

(** [v] is exported as a node of the kind [P] that is [n] up to positions. *)
Definition shows_k (P : node -> bool) (v : vnode) (n : node) : Prop :=
  exists n', new_ast [] v = Ok n' /\ P n' = true /\ unplaced n' = unplaced n.
Definition shows_s := shows_k is_stmt.
Definition shows_ko (P : node -> bool) (o : option vnode) (x : option node) : Prop :=
  match o, x with Some v, Some n => shows_k P v n | None, None => True | _, _ => False end.

(** The head of a command, up to positions. *)
Definition same_head (e : exarg) (a : aexarg) : Prop :=
  map_exarg nowhere (new_exarg [] e) = map_exarg nowhere a.

Lemma ex_ok v n : shows v n -> exists n', (let* y := new_ast [] v in Ok (to_expr y)) = Ok (Some n') /\ unplaced n' = unplaced n.
Proof. intros [n' [E [X P]]]. exists n'. rewrite E. cbn [bind]. unfold to_expr. rewrite X. auto. Qed.
Lemma oex_ok o x : shows_opt o x -> exists x', match o with None => Ok None | Some v => let* y := new_ast [] v in Ok (to_expr y) end = Ok x' /\ option_map unplaced x' = option_map unplaced x.
Proof.
  destruct o as [v|], x as [n|]; cbn; try tauto; intros H; [|exists None; auto]. destruct (ex_ok _ _ H) as [n' [E P]]. exists (Some n'). split; auto. cbn. congruence.
Qed.
Lemma cast_ok P v n : shows_k P v n -> exists n', (let* y := new_ast [] v in assert_node P y) = Ok n' /\ unplaced n' = unplaced n.
Proof. intros [n' [E [X U]]]. exists n'. rewrite E. cbn [bind]. unfold assert_node. rewrite X. auto. Qed.
Lemma casts_ok P vs ns : Forall2 (shows_k P) vs ns ->
  exists ns', mapM (fun x => let* y := new_ast [] x in assert_node P y) vs = Ok ns' /\ map unplaced ns' = map unplaced ns.
Proof.
  induction 1 as [|v n vs ns H _ [ns' [E' P']]]; cbn [mapM].
  - exists []. auto.
  - destruct (cast_ok _ _ _ H) as [n' [E U]]. rewrite E, E'. cbn [bind]. exists (n' :: ns'). cbn [map]. rewrite U, P'. auto.
Qed.
Lemma ocast_ok P o x : shows_ko P o x -> exists x', optM (fun x => let* y := new_ast [] x in assert_node P y) o = Ok x' /\ option_map unplaced x' = option_map unplaced x.
Proof.
  destruct o as [v|], x as [n|]; cbn; try tauto; intros H; [|exists None; auto]. destruct (cast_ok _ _ _ H) as [n' [E U]]. rewrite E. cbn [bind]. exists (Some n'). split; auto. cbn. congruence.
Qed.
Lemma name_kind v n : same_name v n -> shows_k is_ident v n.
Proof. intros [p [q [s [-> ->]]]]. exists (NIdent (new_pos [] p) s). split; [reflexivity|]. split; reflexivity. Qed.
Lemma names_kind vs ns : Forall2 same_name vs ns -> Forall2 (shows_k is_ident) vs ns.
Proof. induction 1; constructor; auto using name_kind. Qed.
Lemma line_kind v n : lit_line v n -> shows v n.
Proof. intros [p [q [s [-> ->]]]]. exists (NBasicLit (new_pos [] p) TSTRING s). split; [reflexivity|]. split; reflexivity. Qed.
Lemma lines_kind vs ns : Forall2 lit_line vs ns -> Forall2 shows vs ns.
Proof. induction 1; constructor; auto using line_kind. Qed.
Lemma call_kind p f xs n : shows (VCall p f xs) n -> is_call n = true -> shows_k is_call (VCall p f xs) n.
Proof.
  intros [n' [E [X U]]] Hn. exists n'. split; auto. split; auto. unfold unplaced in U. destruct n; try discriminate. destruct n'; try discriminate. reflexivity.
Qed.

Ltac st := repeat match goal with
  | H : shows _ _ |- _ => apply ex_ok in H; destruct H as [? [H ?]]
  | H : shows_opt _ _ |- _ => apply oex_ok in H; destruct H as [? [H ?]]
  | H : Forall2 shows _ _ |- _ => apply shows_items in H; destruct H as [? [H ?]]
  | H : Forall2 (shows_k _) _ _ |- _ => apply casts_ok in H; destruct H as [? [H ?]]
  | H : shows_k _ _ _ |- _ => apply cast_ok in H; destruct H as [? [H ?]]
  | H : shows_ko _ _ _ |- _ => apply ocast_ok in H; destruct H as [? [H ?]]
  end; unfold shows_s, shows_k, same_head, unplaced in *; cbn [new_ast];
  repeat match goal with
  | H : ?x = Ok _ |- context [?x] => rewrite H; clear H; cbn [bind]
  end; eexists; (split; [reflexivity|]); (split; [reflexivity|]); cbn [map_node option_map];
  repeat match goal with H : _ = _ |- _ => rewrite H; clear H end; reflexivity.

Section Show.
Context (p : pos) (q : apos) (e : exarg) (a : aexarg) (He : same_head e a).

Lemma ss_comment s : shows_s (VComment p s) (NComment q s).
Proof. clear. st. Qed.
Lemma ss_echo k x vs ns : ea_cmd e = Some x -> Forall2 shows vs ns -> shows_s (VEcho k p e vs) (NEchoCmd q (c_name x) a ns).
Proof.
  intros Hx H. apply shows_items in H. destruct H as [ns' [E U]]. unfold shows_s, shows_k, same_head, unplaced in *. cbn [new_ast]. rewrite Hx, E. cbn [bind].
  eexists; (split; [reflexivity|]); (split; [reflexivity|]); cbn [map_node option_map]. rewrite He, U. reflexivity.
Qed.
Lemma ss_excmd s : shows_s (VExcmd p e s) (NExcmd q s a).
Proof. st. Qed.
Lemma ss_execute vs ns : Forall2 shows vs ns -> shows_s (VExecute p e vs) (NExecute q a ns).
Proof. intros. st. Qed.
Lemma ss_call v n : shows_k is_call v n -> shows_s (VExcall p e v) (NExCall q a (Some n)).
Proof. intros. st. Qed.
Lemma ss_return v n : shows_opt v n -> shows_s (VReturn p e v) (NReturn q a n).
Proof. intros. st. Qed.
Lemma ss_throw v n : shows v n -> shows_s (VThrow p e v) (NThrow q a (Some n)).
Proof. intros. st. Qed.
Lemma ss_eval v n : shows v n -> shows_s (VEval p e v) (NEval q a (Some n)).
Proof. intros. st. Qed.
Lemma ss_let op l ls r v l' ls' r' n : shows_opt l l' -> Forall2 shows ls ls' -> shows_opt r r' -> shows v n ->
  shows_s (VLet p e op l ls r (Some v)) (NLet q a op l' ls' r' (Some n)).
Proof. intros. st. Qed.
Lemma ss_const op l ls r v l' ls' r' n : shows_opt l l' -> Forall2 shows ls ls' -> shows_opt r r' -> shows v n ->
  shows_s (VConst p e op l ls r (Some v)) (NLet q a op l' ls' r' (Some n)).
Proof. intros. st. Qed.
Lemma ss_unlet vs ns : Forall2 shows vs ns -> shows_s (VUnlet p e vs) (NUnLet q a ns).
Proof. intros. st. Qed.
Lemma ss_lockvar z vs ns : Forall2 shows vs ns -> shows_s (VLockvar p e z vs) (NLockVar q a z ns).
Proof. intros. st. Qed.
Lemma ss_unlockvar z vs ns : Forall2 shows vs ns -> shows_s (VUnlockvar p e z vs) (NUnLockVar q a z ns).
Proof. intros. st. Qed.
Lemma ss_break : shows_s (VBreak p e) (NBreak q a).
Proof. st. Qed.
Lemma ss_continue : shows_s (VContinue p e) (NContinue q a).
Proof. st. Qed.
Lemma ss_delfunction v n : shows v n -> shows_s (VDelfunction p e v) (NDelFunction q a (Some n)).
Proof. intros. st. Qed.
Lemma ss_echohl s : shows_s (VEchohl p e s) (NEchohl q a s).
Proof. st. Qed.
Lemma sk_endif : shows_k is_endif (VEndif p e) (NEndIf q a).
Proof. st. Qed.
Lemma sk_endwhile : shows_k is_endwhile (VEndwhile p e) (NEndWhile q a).
Proof. st. Qed.
Lemma sk_endfor : shows_k is_endfor (VEndfor p e) (NEndFor q a).
Proof. st. Qed.
Lemma sk_endtry : shows_k is_endtry (VEndtry p e) (NEndTry q a).
Proof. st. Qed.
Lemma sk_endfunction : shows_k is_endfunction (VEndfunction p e) (NEndFunction q a).
Proof. st. Qed.
Lemma sk_elseif vs ns v n : Forall2 shows_s vs ns -> shows v n -> shows_k is_elseif (VElseif p e vs v) (NElseIf q a ns (Some n)).
Proof. unfold shows_s. intros. st. Qed.
Lemma sk_else vs ns : Forall2 shows_s vs ns -> shows_k is_else (VElse p e vs) (NElse q a ns).
Proof. unfold shows_s. intros. st. Qed.
Lemma sk_catch vs ns s : Forall2 shows_s vs ns -> shows_k is_catch (VCatch p e vs s) (NCatch q a ns s).
Proof. unfold shows_s. intros. st. Qed.
Lemma sk_finally vs ns : Forall2 shows_s vs ns -> shows_k is_finally (VFinally p e vs) (NFinally q a ns).
Proof. unfold shows_s. intros. st. Qed.
Lemma ss_if vs ns v n es es' el el' x y : Forall2 shows_s vs ns -> shows v n -> Forall2 (shows_k is_elseif) es es' -> shows_ko is_else el el' -> shows_k is_endif x y ->
  shows_s (VIf p e vs v es el (Some x)) (NIf q a ns (Some n) es' el' (Some y)).
Proof. unfold shows_s. intros. st. Qed.
Lemma ss_while vs ns v n x y : Forall2 shows_s vs ns -> shows v n -> shows_k is_endwhile x y ->
  shows_s (VWhile p e vs v (Some x)) (NWhile q a ns (Some n) (Some y)).
Proof. unfold shows_s. intros. st. Qed.
Lemma ss_for vs ns l ls r v l' ls' r' n x y : Forall2 shows_s vs ns -> shows_opt l l' -> Forall2 shows ls ls' -> shows_opt r r' -> shows v n -> shows_k is_endfor x y ->
  shows_s (VFor p e vs l ls r v (Some x)) (NFor q a ns l' ls' r' (Some n) (Some y)).
Proof. unfold shows_s. intros. st. Qed.
Lemma ss_try vs ns cs cs' f f' x y : Forall2 shows_s vs ns -> Forall2 (shows_k is_catch) cs cs' -> shows_ko is_finally f f' -> shows_k is_endtry x y ->
  shows_s (VTry p e vs cs f (Some x)) (NTry q a ns cs' f' (Some y)).
Proof. unfold shows_s. intros. st. Qed.
Lemma ss_function vs ns v n ps ps' ds ds' at_ x y : Forall2 shows_s vs ns -> shows v n -> Forall2 same_name ps ps' -> Forall2 shows ds ds' -> shows_k is_endfunction x y ->
  shows_s (VFunction p e vs v ps ds at_ (Some x)) (NFunction q a ns (Some n) ps' ds' at_ (Some y)).
Proof. unfold shows_s. intros ? ? H. apply names_kind in H. intros. st. Qed.
Lemma shows_heredoc ws ns mk ls ns' : Forall2 lit_line ws ns -> Forall2 lit_line ls ns' -> shows (VHeredoc p ws mk ls) (NHeredoc q ns mk ns').
Proof.
  intros H1 H2. apply lines_kind in H1, H2. apply shows_items in H1, H2. destruct H1 as [x [E1 U1]], H2 as [y [E2 U2]]. unfold shows, unplaced in *. cbn [new_ast]. rewrite E1. cbn [bind]. rewrite E2. cbn [bind].
  eexists; (split; [reflexivity|]); (split; [reflexivity|]); cbn [map_node option_map]. rewrite U1, U2. reflexivity.
Qed.
End Show.
