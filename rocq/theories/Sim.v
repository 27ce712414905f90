(** Two runs of the parser over texts that agree, up to positions, either everywhere or up
    to the end of some line. *)
From Coq Require Import Lia ZifyBool ZifyNat ZifyN.
From Verif Require Import Base CharClass Reader Vnode Tokenizer ExprParser.

(** * Changing the positions of a tree *)

Definition map_ea (h : pos -> pos) (e : exarg) : exarg :=
  mkEa (ea_forceit e) (ea_do_ecmd_cmd e) (ea_append e) (ea_usefilter e) (ea_amount e)
    (ea_force_bin e) (ea_read_edit e) (ea_force_ff e) (ea_force_enc e) (ea_bad_char e)
    (option_map h (ea_linepos e)) (option_map h (ea_cmdpos e)) (option_map h (ea_argpos e))
    (ea_cmd e) (ea_modifiers e) (ea_range e).

Fixpoint map_pos (h : pos -> pos) (v : vnode) : vnode :=
  let m := map_pos h in
  match v with
  | VTernary p a b c => VTernary (h p) (m a) (m b) (m c)
  | VBin o p a b => VBin o (h p) (m a) (m b)
  | VUn o p a => VUn o (h p) (m a)
  | VSubscript p a b => VSubscript (h p) (m a) (m b)
  | VSlice p a b c => VSlice (h p) (m a) (option_map m b) (option_map m c)
  | VMethod p a b => VMethod (h p) (m a) (m b)
  | VCall p a l => VCall (h p) (m a) (map m l)
  | VDot p a b => VDot (h p) (m a) (m b)
  | VLit k p s => VLit k (h p) s
  | VList p l => VList (h p) (map m l)
  | VDict p l => VDict (h p) (map (fun kv => match kv with (k, v) => (m k, m v) end) l)
  | VIdent p s => VIdent (h p) s
  | VCurlyName p l => VCurlyName (h p) (map m l)
  | VCurlyPart p s => VCurlyPart (h p) s
  | VCurlyExpr p a => VCurlyExpr (h p) (m a)
  | VLambda p l a => VLambda (h p) (map m l) (m a)
  | VHeredoc p l o b => VHeredoc (h p) (map m l) o (map m b)
  | VParen p a => VParen (h p) (m a)
  | VToplevel p b => VToplevel (h p) (map m b)
  | VComment p s => VComment (h p) s
  | VExcmd p e s => VExcmd (h p) (map_ea h e) s
  | VFunction p e b l rl da at_ en =>
      VFunction (h p) (map_ea h e) (map m b) (m l) (map m rl) (map m da) at_ (option_map m en)
  | VEndfunction p e => VEndfunction (h p) (map_ea h e)
  | VDelfunction p e a => VDelfunction (h p) (map_ea h e) (m a)
  | VReturn p e a => VReturn (h p) (map_ea h e) (option_map m a)
  | VExcall p e a => VExcall (h p) (map_ea h e) (m a)
  | VLet p e o l ls r v => VLet (h p) (map_ea h e) o (option_map m l) (map m ls) (option_map m r) (option_map m v)
  | VConst p e o l ls r v => VConst (h p) (map_ea h e) o (option_map m l) (map m ls) (option_map m r) (option_map m v)
  | VUnlet p e l => VUnlet (h p) (map_ea h e) (map m l)
  | VLockvar p e d l => VLockvar (h p) (map_ea h e) d (map m l)
  | VUnlockvar p e d l => VUnlockvar (h p) (map_ea h e) d (map m l)
  | VIf p e b c es el en => VIf (h p) (map_ea h e) (map m b) (m c) (map m es) (option_map m el) (option_map m en)
  | VElseif p e b c => VElseif (h p) (map_ea h e) (map m b) (m c)
  | VElse p e b => VElse (h p) (map_ea h e) (map m b)
  | VEndif p e => VEndif (h p) (map_ea h e)
  | VWhile p e b c en => VWhile (h p) (map_ea h e) (map m b) (m c) (option_map m en)
  | VEndwhile p e => VEndwhile (h p) (map_ea h e)
  | VFor p e b l ls rs r en =>
      VFor (h p) (map_ea h e) (map m b) (option_map m l) (map m ls) (option_map m rs) (m r) (option_map m en)
  | VEndfor p e => VEndfor (h p) (map_ea h e)
  | VContinue p e => VContinue (h p) (map_ea h e)
  | VBreak p e => VBreak (h p) (map_ea h e)
  | VTry p e b cs fi en => VTry (h p) (map_ea h e) (map m b) (map m cs) (option_map m fi) (option_map m en)
  | VCatch p e b s => VCatch (h p) (map_ea h e) (map m b) s
  | VFinally p e b => VFinally (h p) (map_ea h e) (map m b)
  | VEndtry p e => VEndtry (h p) (map_ea h e)
  | VThrow p e a => VThrow (h p) (map_ea h e) (m a)
  | VEval p e a => VEval (h p) (map_ea h e) (m a)
  | VEcho k p e l => VEcho k (h p) (map_ea h e) (map m l)
  | VEchohl p e s => VEchohl (h p) (map_ea h e) s
  | VExecute p e l => VExecute (h p) (map_ea h e) (map m l)
  end.

Lemma vpos_map h v : vpos (map_pos h v) = h (vpos v).
Proof. destruct v; reflexivity. Qed.

(** The next [k] cells are characters. *)
Fixpoint chars (k : nat) (c : cursor) : Prop :=
  match k with
  | O => True
  | S k' => match c with Cons (R _) _ t => chars k' t | _ => False end
  end.

(** A list of parts that is one plain name. *)
Definition one_part (ps : list vnode) : option text := match ps with [VCurlyPart _ s] => Some s | _ => None end.
Lemma one_part_map h ps : one_part (map (map_pos h) ps) = one_part ps.
Proof. destruct ps as [|[] [|? ?]]; reflexivity. Qed.
Lemma one_part_eq {A} ps (f : text -> A) d : match ps with [VCurlyPart _ s] => f s | _ => d end = match one_part ps with Some s => f s | None => d end.
Proof. destruct ps as [|[] [|? ?]]; reflexivity. Qed.

Section Sim.

(** [opn]: the texts agree up to the end of a line only; what follows is [F] and [F']. *)
Context (opn : bool) (F F' : cursor) (h h' : pos -> pos).

Definition prel (p p' : pos) : Prop := h p = h' p'.

Inductive sim : cursor -> cursor -> Prop :=
| sim_eof p p' : opn = false -> prel p p' -> sim (Eof p) (Eof p')
| sim_last p p' : opn = true -> prel p p' -> sim (Cons EOL p F) (Cons EOL p' F')
| sim_cons x p p' c c' : prel p p' -> sim c c' -> sim (Cons x p c) (Cons x p' c').

Definition sim0 (c c' : cursor) : Prop := sim c c' \/ (opn = true /\ c = F /\ c' = F').

Definition erel (e e' : parse_error) : Prop :=
  exists m p p', prel p p' /\ e = Err_ m p /\ e' = Err_ m p'.

(** The error of the first text is at its end, if that is what [F] is. *)
Definition lost (e : parse_error) : Prop := opn = true /\ (is_eof F = false \/ exists m, e = Err_ m (getpos F)).
(** The first text lacks something at the end of its line, where the second text has a first
    word that cannot be read: behind an opening brace the parser looks at that word. *)
Definition line_end (m : text) : Prop := m = T "unexpected token: <EOL>" \/ m = T "unexpected character: " ++ ch_text CEol.
Definition ahead (e : parse_error) : Prop := opn = true /\ exists m p, line_end m /\ e = Err_ m p.
(** Not the panic for a number that is too large. *)
Definition mild (k : panic_kind) : Prop := is_eof F = false \/ match k with PStr2nr _ => False | _ => True end.

Definition orel {A A'} (Q : A -> A' -> Prop) (o : outcome A) (o' : outcome A') : Prop :=
  match o, o' with
  | OutOfFuel, _ | _, OutOfFuel => True
  | Ok a, Ok a' => Q a a'
  | PErr e, PErr e' => erel e e' \/ lost e \/ (ahead e /\ tget F' = PErr e')
  | Panic k, Panic k' => k = k' \/ (opn = true /\ mild k)
  | Ok _, _ => False
  | PErr e, Panic k => lost e \/ (ahead e /\ tget F' = Panic k)
  | PErr e, Ok _ => lost e
  | Panic k, _ => opn = true /\ mild k
  end.

Lemma orel_oof_r {A A'} (Q : A -> A' -> Prop) o : orel Q o OutOfFuel.
Proof. destruct o; exact I. Qed.
(** Two texts that are related to their ends. *)
Lemma orel_closed {A A'} (Q : A -> A' -> Prop) o o' : opn = false -> orel Q o o' ->
  match o, o' with
  | OutOfFuel, _ | _, OutOfFuel => True
  | Ok a, Ok a' => Q a a'
  | PErr e, PErr e' => erel e e'
  | Panic k, Panic k' => k = k'
  | _, _ => False
  end.
Proof.
  intros O. unfold orel, lost, ahead. rewrite O. destruct o, o'; auto; intros H; repeat match goal with H : _ \/ _ |- _ => destruct H | H : _ /\ _ |- _ => destruct H end; auto; try discriminate.
Qed.
(** A first run that gives up outside the common text, or for no reason of the text. *)
Definition tame {A} (P : A -> Prop) (o : outcome A) : Prop :=
  match o with Ok a => P a | PErr e => lost e | Panic k => mild k | OutOfFuel => True end.
Lemma orel_fail {A A'} (Q : A -> A' -> Prop) o o' : opn = true -> tame (fun _ => False) o -> orel Q o o'.
Proof. intros Ho N. destruct o; [destruct N| | |exact I]; destruct o'; cbn [orel tame] in *; auto. Qed.
Lemma orel_bind {A A' B B'} (Q : A -> A' -> Prop) (S : B -> B' -> Prop) m m' k k' :
  orel Q m m' -> (forall a a', Q a a' -> orel S (k a) (k' a')) -> orel S (bind m k) (bind m' k').
Proof.
  intros M K. destruct m, m'; cbn [orel bind] in *; auto; try contradiction; try (destruct (k a); exact I); try exact I;
    try (destruct (k' a); exact I); try (destruct (k' a); auto).
Qed.
Lemma orel_bind_eq {A A' B B'} (Q : A -> A' -> Prop) (S : B -> B' -> Prop) m m' k k' :
  orel Q m m' -> (forall a a', m = Ok a -> m' = Ok a' -> Q a a' -> orel S (k a) (k' a')) -> orel S (bind m k) (bind m' k').
Proof.
  intros M K. destruct m, m'; cbn [orel bind] in *; auto; try contradiction; try (destruct (k a); exact I); try exact I;
    try (destruct (k' a); exact I); try (destruct (k' a); auto).
Qed.
Lemma orel_raise {A A'} (Q : A -> A' -> Prop) m p p' : prel p p' -> orel Q (raise m p) (raise m p').
Proof. intros P. cbn. left. unfold erel. eauto 6. Qed.
Lemma orel_raise' {A A'} (Q : A -> A' -> Prop) m m' p p' : m = m' -> prel p p' -> orel Q (raise m p) (raise m' p').
Proof. intros <-. apply orel_raise. Qed.
Lemma orel_panic {A A'} (Q : A -> A' -> Prop) k : orel Q (Panic k) (Panic k).
Proof. cbn. auto. Qed.
Lemma orel_eq {A} (o o' : outcome A) : o = o' -> (forall e, o <> PErr e) -> orel eq o o'.
Proof. intros <- N. destruct o; cbn; auto. destruct (N e eq_refl). Qed.
Lemma orel_weak {A A'} (Q S : A -> A' -> Prop) o o' : orel Q o o' -> (forall a a', Q a a' -> S a a') -> orel S o o'.
Proof. intros O W. destruct o, o'; cbn [orel] in *; auto. Qed.

(** ** Readers *)

Lemma sim_pos c c' : sim c c' -> prel (getpos c) (getpos c').
Proof. destruct 1; auto. Qed.
Lemma sim_peek c c' : sim c c' -> peek c' = peek c.
Proof. destruct 1; auto. Qed.
Lemma sim_peek1 c c' : sim c c' -> peek1 c' = peek1 c.
Proof. destruct 1; auto. Qed.
Lemma sim_iseof c c' : sim c c' -> is_eof c' = is_eof c.
Proof. destruct 1; auto. Qed.
Lemma sim_getn n : forall c c', sim c c' -> fst (getn n c') = fst (getn n c) /\ sim (snd (getn n c)) (snd (getn n c')).
Proof.
  induction n as [|n IH]; intros c c' S; cbn [getn fst snd]; [auto|].
  destruct S as [p p' O P|p p' O P|x p p' c c' P S]; cbn [fst snd]; try (split; [reflexivity|constructor; auto]).
  destruct x as [|r]; cbn [fst snd]; [split; [reflexivity|constructor; auto]|].
  destruct (IH _ _ S). destruct (getn n c), (getn n c'). cbn [fst snd] in *. subst. auto.
Qed.
Lemma sim_peekn n c c' : sim c c' -> peekn n c' = peekn n c.
Proof. apply sim_getn. Qed.
Lemma sim_while f : forall c c', sim c c' -> fst (read_while f c') = fst (read_while f c) /\ sim (snd (read_while f c)) (snd (read_while f c')).
Proof.
  intros c c' S. induction S as [p p' O P|p p' O P|x p p' c c' P S IH]; cbn [read_while fst snd]; try (split; [reflexivity|constructor; auto]).
  destruct x as [|r]; cbn [fst snd]; [split; [reflexivity|constructor; auto]|].
  destruct (f r); [|cbn [fst snd]; split; [reflexivity|constructor; auto]].
  destruct IH. destruct (read_while f c), (read_while f c'). cbn [fst snd] in *. subst. auto.
Qed.
Lemma sim_skip f c c' : sim c c' -> sim (skip_while f c) (skip_while f c').
Proof. apply sim_while. Qed.
Lemma sim_all : forall c c', sim c c' -> fst (getn_all c') = fst (getn_all c) /\ sim (snd (getn_all c)) (snd (getn_all c')).
Proof.
  intros c c' S. induction S as [p p' O P|p p' O P|x p p' c c' P S IH]; cbn [getn_all fst snd]; try (split; [reflexivity|constructor; auto]).
  destruct x as [|r]; cbn [fst snd]; [split; [reflexivity|constructor; auto]|].
  destruct IH. destruct (getn_all c), (getn_all c'). cbn [fst snd] in *. subst. auto.
Qed.
Lemma sim_peekline c c' : sim c c' -> peekline c' = peekline c.
Proof. apply sim_all. Qed.
Lemma sim_get c c' : sim c c' -> fst (get c') = fst (get c) /\ sim0 (snd (get c)) (snd (get c')).
Proof.
  destruct 1 as [p p' O P|p p' O P|x p p' c c' P S]; cbn [get fst snd]; split; auto; try (left; auto; constructor; auto; fail).
  right. auto.
Qed.
Lemma sim_get_char c c' r : sim c c' -> peek c = CR r -> sim (snd (get c)) (snd (get c')).
Proof. destruct 1 as [p p' O P|p p' O P|x p p' c c' P S]; cbn [peek ch_of_cell get snd]; try discriminate. auto. Qed.

Lemma buf_at_sim k : forall c c', sim c c' -> chars k c -> buf_at k c' = buf_at k c.
Proof.
  induction k as [|k IH]; intros c c' S H; destruct S as [p p' O P|p p' O P|x p p' c c' P S]; cbn [buf_at]; auto.
  - destruct H.
  - cbn [chars] in H. destruct x; [destruct H|]. auto.
Qed.
Lemma p_sim k c c' : sim c c' -> chars k c -> p_ k c' = p_ k c.
Proof. intros S H. pose proof (buf_at_sim k c c' S H). destruct S; cbn [p_] in *; auto. Qed.
Lemma buf_at_chars k : forall c r, chars k c -> buf_at k c = Ok (CR r) -> chars (S k) c.
Proof.
  induction k as [|k IH]; intros c r H E; destruct c as [p|[|x] p c]; cbn [buf_at ch_of_cell chars] in *; try discriminate; auto; try contradiction.
  specialize (IH c r H E). destruct c as [q|[|y] q c]; auto.
Qed.
Lemma p_chars k c r : chars k c -> p_ k c = Ok (CR r) -> chars (S k) c.
Proof. intros H E. apply buf_at_chars with r; auto. destruct c; [discriminate|auto]. Qed.

(** Reading a character that is known not to lie beyond the line end. *)
Lemma orel_p {A A'} (Q : A -> A' -> Prop) k c c' K K' : sim c c' -> chars k c ->
  (forall x, (forall r, ch_is x r = true -> chars (S k) c) -> (forall f, ch_in f x = true -> chars (S k) c) -> orel Q (K x) (K' x)) ->
  orel Q (bind (p_ k c) K) (bind (p_ k c') K').
Proof.
  intros S H G. rewrite (p_sim k c c' S H). destruct (p_ k c) as [x|e|z|] eqn:E; cbn [bind].
  - apply G; intros; destruct x as [| |y]; try discriminate; apply p_chars with y; auto.
  - exfalso. revert E. destruct c; [discriminate|]. cbn [p_]. generalize (Cons x p c). clear.
    induction k; intros [?|? ? ?]; cbn [buf_at]; try discriminate. apply IHk.
  - apply orel_panic.
  - exact I.
Qed.
Lemma seek_sim k : forall c c', sim c c' -> chars k c -> exists d d', seek_cur k c = Ok d /\ seek_cur k c' = Ok d' /\ sim d d'.
Proof.
  induction k as [|k IH]; intros c c' S H; cbn [seek_cur]; [eauto|].
  destruct S as [p p' O P|p p' O P|x p p' c c' P S]; cbn [chars] in H; try contradiction. destruct x; [contradiction|]. auto.
Qed.
Lemma orel_seek {A A'} (Q : A -> A' -> Prop) k c c' K K' : sim c c' -> chars k c ->
  (forall d d', sim d d' -> orel Q (K d) (K' d')) -> orel Q (bind (seek_cur k c) K) (bind (seek_cur k c') K').
Proof. intros S H G. destruct (seek_sim k c c' S H) as [d [d' [E [E' D]]]]. rewrite E, E'. apply G. auto. Qed.
Lemma chars_peek c r : peek c = CR r -> chars 1 c.
Proof. destruct c as [p|[|x] p c]; cbn; try discriminate. auto. Qed.
Lemma orel_p_match k s : forall c c', sim c c' -> chars k c ->
  orel (fun b b' : bool => b = b' /\ (b = true -> chars (k + length s) c)) (p_match k s c) (p_match k s c').
Proof.
  revert k. induction s as [|r s IH]; intros k c c' Sm H; cbn [p_match length].
  - cbn. rewrite Nat.add_0_r. auto.
  - apply orel_p; auto. intros x X _. destruct (ch_is x r) eqn:E; [|cbn; split; congruence].
    eapply orel_weak; [apply IH; eauto|]. cbv beta. intros a a' [-> G]. split; auto. intros Y. specialize (G Y).
    replace (k + S (length s))%nat with (S k + length s)%nat by lia. auto.
Qed.
Lemma getstr_sim_aux : forall c c', sim c c' -> forall n n', n = n' -> (opn = true -> n <= clen c - clen F)%nat -> getstr_n n' c' = getstr_n n c.
Proof.
  intros c c' S. induction S as [p p' O P|p p' O P|x p p' c c' P S IH]; intros n n' <- L.
  - destruct n; auto.
  - destruct n as [|n]; auto. cbn [getstr_n]. f_equal. specialize (L O). cbn [clen] in L. assert (n = 0%nat) as -> by lia. reflexivity.
  - destruct n as [|n]; auto. cbn [getstr_n]. f_equal. apply IH; auto. intros O. specialize (L O). cbn [clen] in L. lia.
Qed.
Lemma sim_clen c c' : sim c c' -> (if opn then clen F < clen c /\ clen F' < clen c' /\ clen c - clen F = clen c' - clen F' else clen c = clen c')%nat.
Proof. induction 1 as [p p' O P|p p' O P|x p p' c c' P S IH]; destruct opn; try discriminate; cbn [clen]; lia. Qed.
Lemma getstr_sim b b' e e' : sim b b' -> sim0 e e' -> getstr b' e' = getstr b e.
Proof.
  intros Sb Se. pose proof (sim_clen _ _ Sb) as Lb. unfold getstr.
  assert (Le : (if opn then clen F <= clen e /\ clen F' <= clen e' /\ clen e - clen F = clen e' - clen F' else clen e = clen e')%nat).
  { destruct Se as [Se|[O [-> ->]]]. pose proof (sim_clen _ _ Se). destruct opn; lia. rewrite O. lia. }
  apply getstr_sim_aux; auto; destruct opn; try lia; discriminate.
Qed.

(** ** Tokens *)

Definition trel (t t' : token) : Prop := tk t = tk t' /\ tv t = tv t' /\ prel (tp t) (tp t').
Definition tgrel (a a' : token * cursor) : Prop :=
  trel (fst a) (fst a') /\ sim0 (snd a) (snd a') /\ (tk (fst a) <> KEol -> sim (snd a) (snd a')).
(** A token that ends in front of the line end. *)
Definition ttrel (a a' : token * cursor) : Prop := trel (fst a) (fst a') /\ sim (snd a) (snd a').
Definition xcrel (a a' : text * cursor) : Prop := fst a = fst a' /\ sim (snd a) (snd a').
Lemma tt_tg a a' : ttrel a a' -> tgrel a a'.
Proof. intros [A B]. split; [auto|split; [left; auto|auto]]. Qed.

Lemma ok_tt k s p p' c c' : prel p p' -> sim c c' -> orel ttrel (Ok (mkTok k s p, c)) (Ok (mkTok k s p', c')).
Proof. intros P S. cbn. split; [split; [|split]|]; auto. Qed.

Lemma tok_cmp_sim o k s c c' : sim c c' -> chars k c -> orel ttrel (tok_cmp o k s c) (tok_cmp o k s c').
Proof.
  intros S H. unfold tok_cmp. apply orel_p; auto. intros x X _. destruct (ch_is x _) eqn:E1; [|destruct (ch_is x (C "#")) eqn:E2];
    (apply orel_seek; [auto|eauto|]; intros d d' D; apply ok_tt; auto; apply sim_pos; auto).
Qed.
Lemma tok_fix_sim k s c c' : sim c c' -> chars (length s) c -> orel ttrel (tok_fix k s c) (tok_fix k s c').
Proof. intros S H. unfold tok_fix. apply orel_seek; auto. intros d d' D. apply ok_tt; auto. apply sim_pos; auto. Qed.

(** One step over a pure reader function. *)
Ltac rd1 L :=
  match type of L with _ = fst ?x /\ sim (snd ?x) (snd ?y) =>
    let Ea := fresh "Ea" in let Es := fresh "S" in destruct L as [Ea Es];
    destruct x as [? ?]; destruct y as [? ?]; cbn [fst snd] in Ea, Es; subst end.
Lemma get2_number_sim c c' : sim c c' -> orel ttrel (get2_number c) (get2_number c').
Proof.
  intros S. pose proof (sim_pos _ _ S) as P. unfold get2_number, read_digit. pose proof (sim_while isdigit _ _ S) as L.
  destruct L as [Ea Es]. destruct (read_while isdigit c) as [s c1], (read_while isdigit c') as [s' c1']. cbn [fst snd] in *. subst s'.
  apply orel_p; [auto|exact I|]. intros x X _.
  eapply orel_bind with (Q := fun b b' : bool => b = b' /\ (b = true -> chars 2 c1)).
  { destruct (ch_is x _) eqn:E1; [|cbn; split; congruence]. apply orel_p; eauto. intros y _ Y. split; [reflexivity|apply Y]. }
  intros b b' [<- B]. destruct b; [|apply ok_tt; auto].
  destruct (sim_getn 1 _ _ Es) as [Ea2 Es2]. destruct (getn 1 c1) as [s2 c2], (getn 1 c1') as [s2' c2']. cbn [fst snd] in *. subst s2'.
  destruct (sim_while isdigit _ _ Es2) as [Ea3 Es3]. destruct (read_while isdigit c2) as [s3 c3], (read_while isdigit c2') as [s3' c3']. cbn [fst snd] in *. subst s3'.
  apply orel_p; [auto|exact I|]. intros y Y _.
  eapply orel_bind with (Q := eq).
  { destruct (ch_is y _ || ch_is y _) eqn:E; [|cbn; auto]. apply orel_p; [auto|apply orb_prop in E; destruct E; eauto|].
    intros z Z Z2. destruct (ch_in isdigit z); [cbn; auto|]. destruct (ch_is z _ || ch_is z _) eqn:E2; [|cbn; auto].
    apply orel_p; [auto|apply orb_prop in E2; destruct E2; eauto|]. intros w _ _. cbn. auto. }
  intros e e' <-. destruct e; [|apply ok_tt; auto].
  destruct (sim_getn 2 _ _ Es3) as [Ea4 Es4]. destruct (getn 2 c3) as [s4 c4], (getn 2 c3') as [s4' c4']. cbn [fst snd] in *. subst s4'.
  destruct (sim_while isdigit _ _ Es4) as [Ea5 Es5]. destruct (read_while isdigit c4) as [s5 c5], (read_while isdigit c4') as [s5' c5']. cbn [fst snd] in *. subst s5'.
  apply ok_tt; auto.
Qed.
Lemma read_blob_sim : forall n c c', (clen c <= n)%nat -> sim c c' -> orel xcrel (read_blob c) (read_blob c').
Proof.
  induction n as [|n IH]; intros c c' L S; destruct S as [p p' O P|p p' O P|x p p' c c' P S]; cbn [clen] in L; try lia;
    try (cbn; split; [reflexivity|constructor; auto]; fail).
  destruct x as [|a]; [cbn; split; [reflexivity|constructor; auto]|].
  assert (S0 : sim (Cons (R a) p c) (Cons (R a) p' c')) by (constructor; auto).
  assert (K : forall t, orel xcrel (Ok (t, Cons (R a) p c)) (Ok (t, Cons (R a) p' c'))) by (intros; cbn; split; auto).
  pose proof S as S1. destruct S as [q q' O Q|q q' O Q|y q q' c c' Q S]; cbn [read_blob]; try apply K.
  destruct y as [|b]; try apply K. cbn [clen] in L.
  destruct (isxdigit a && isxdigit b).
  { eapply orel_bind; [apply IH; [lia|exact S]|]. intros [s d] [s' d'] [E D]. cbn in *. subst. split; auto. }
  destruct ((a =? _) && isxdigit b).
  { change (match c with Cons (R b0) _ t2 => _ | _ => _ end) with (read_blob (Cons (R b) q c)).
    change (match c' with Cons (R b0) _ t2 => _ | _ => _ end) with (read_blob (Cons (R b) q' c')).
    eapply orel_bind; [apply IH; [cbn [clen]; lia|exact S1]|]. intros [s d] [s' d'] [E D]. cbn in *. subst. split; auto. }
  destruct (isxdigit a && negb (isxdigit b)); [|apply K]. apply orel_raise. exact P.
Qed.
Ltac getnw n S s c1 s' c1' :=
  let Ea := fresh "Ea" in let Es := fresh "Es" in
  match type of S with sim ?c ?c' => destruct (sim_getn n _ _ S) as [Ea Es];
    destruct (getn n c) as [s c1]; destruct (getn n c') as [s' c1']; cbn [fst snd] in Ea, Es; subst s' end.
Ltac readw f S s c1 s' c1' :=
  let Ea := fresh "Ea" in let Es := fresh "Es" in
  match type of S with sim ?c ?c' => destruct (sim_while f _ _ S) as [Ea Es];
    destruct (read_while f c) as [s c1]; destruct (read_while f c') as [s' c1']; cbn [fst snd] in Ea, Es; subst s' end.
Lemma get2_digit_sim r c c' : sim c c' -> chars 1 c -> orel ttrel (get2_digit r c) (get2_digit r c').
Proof.
  intros S H. pose proof (sim_pos _ _ S) as P. pose proof (get2_number_sim _ _ S) as G. unfold get2_digit. destruct (r =? _); [|exact G].
  apply orel_p; auto. intros x X _.
  destruct (ch_is x (C "X") || ch_is x (C "x")) eqn:E1.
  { apply orel_p; [auto|apply orb_prop in E1; destruct E1; eauto|]. intros y _ Y. destruct (ch_in isxdigit y); [|exact G].
    getnw 3%nat S s c1 s' c1'. unfold read_xdigit. readw isxdigit Es s2 c2 s2' c2'. apply ok_tt; auto. }
  destruct (ch_is x (C "B") || ch_is x (C "b")) eqn:E2.
  { apply orel_p; [auto|apply orb_prop in E2; destruct E2; eauto|]. intros y _ Y. destruct (ch_is y _ || ch_is y _); [|exact G].
    getnw 3%nat S s c1 s' c1'. unfold read_bdigit. readw (fun r0 : N => (r0 =? 48) || (r0 =? 49)) Es s2 c2 s2' c2'. apply ok_tt; auto. }
  destruct (ch_is x (C "Z") || ch_is x (C "z")) eqn:E3; [|exact G].
  apply orel_p; [auto|apply orb_prop in E3; destruct E3; eauto|]. intros y _ Y. destruct (negb _); [|exact G].
  getnw 2%nat S s c1 s' c1'. eapply orel_bind; [eapply read_blob_sim; [apply le_n|exact Es]|].
  intros [s2 c2] [s2' c2'] [E D]. cbn [fst snd] in *. subst. apply ok_tt; auto.
Qed.
Lemma get2_ident_sim c c' : sim c c' -> orel ttrel (get2_ident c) (get2_ident c').
Proof. intros S. pose proof (sim_pos _ _ S) as P. unfold get2_ident, read_name. readw isnamec S s c1 s' c1'. apply ok_tt; auto. Qed.
Lemma get2_word_sim r c c' : sim c c' -> chars 1 c -> orel ttrel (get2_word r c) (get2_word r c').
Proof.
  intros S H. pose proof (get2_ident_sim _ _ S) as G. unfold get2_word. destruct (r =? _); [|exact G].
  apply orel_p; auto. intros x X _. destruct (ch_is x _) eqn:E1; [|exact G].
  apply orel_p; eauto. intros y Y Y2. destruct (negb _) eqn:E2. apply tok_cmp_sim; eauto.
  eapply orel_bind. apply orel_p_match; eauto. cbv beta. intros b b' [<- B]. destruct b; [|exact G]. specialize (B eq_refl). cbn [Nat.add length] in B.
  apply orel_p; eauto. intros z _ _. destruct (negb (ch_in iswordc z)); [|exact G]. apply tok_cmp_sim; auto.
Qed.

Lemma get2_sim c c' : sim c c' -> orel tgrel (get2 c) (get2 c').
Proof.
  intros S. pose proof (sim_pos _ _ S) as P. unfold get2. rewrite (sim_peek _ _ S). destruct (peek c) as [| |r] eqn:Ep.
  - cbn. split; [split; [|split]|split]; auto; left; auto.
  - destruct S as [p p' O Q|p p' O Q|x p p' c c' Q S]; cbn [peek] in Ep; try discriminate; cbn [seek_cur bind].
    + cbn. split; [split; [|split]|split]; auto; [right; auto|intros N; destruct N; reflexivity].
    + destruct x; try discriminate. cbn. split; [split; [|split]|split]; auto; [left; auto].
  - pose proof (chars_peek _ _ Ep) as H. eapply orel_weak; [|apply tt_tg].
    assert (FX : forall k r0, orel ttrel (tok_fix k [r0] c) (tok_fix k [r0] c')) by (intros; apply tok_fix_sim; auto).
    destruct (iswhite r).
    { unfold read_white. readw iswhite S s c1 s' c1'. apply ok_tt; auto. }
    destruct (isdigit r). apply get2_digit_sim; auto.
    destruct (isnamec1 r). apply get2_word_sim; auto.
    repeat match goal with
    | |- orel _ (if ?b then _ else _) (if ?b then _ else _) => destruct b eqn:?
    | |- orel _ (tok_fix _ [_] _) _ => apply FX
    | |- orel _ (tok_fix _ _ _) _ => solve [apply tok_fix_sim; eauto]
    | |- orel _ (tok_cmp _ _ _ _) _ => solve [apply tok_cmp_sim; eauto]
    | |- orel _ (bind (p_ _ _) _) _ => apply orel_p; [auto|solve [eauto]|intros ? ? ?]
    | |- orel _ (raise _ _) _ => apply orel_raise; auto
    end.
    + eapply orel_bind with (Q := eq).
      { destruct (ch_is x (C "g") || ch_is x (C "l")) eqn:E; [|cbn; auto]. apply orel_p; [auto|apply orb_prop in E; destruct E; eauto|]. intros; cbn; auto. }
      intros b b' <-. getnw (if b then 3 else 1)%nat S s c1 s' c1'. unfold read_word. readw iswordc Es s2 c2 s2' c2'. apply ok_tt; auto.
    + getnw 1%nat S s c1 s' c1'. unfold read_word. readw iswordc Es s2 c2 s2' c2'. apply ok_tt; auto.
    + getnw 2%nat S s c1 s' c1'. apply ok_tt; auto.
Qed.
Lemma tget_sim c c' : sim c c' -> orel tgrel (tget c) (tget c').
Proof. intros S. unfold tget. apply get2_sim, sim_skip, S. Qed.
Lemma tpeek_sim c c' : sim c c' -> orel trel (tpeek c) (tpeek c').
Proof. intros S. unfold tpeek. eapply orel_bind; [apply tget_sim, S|]. intros [t d] [t' d'] [Tr _]. exact Tr. Qed.

Lemma sstring_sim : forall n c c', (clen c <= n)%nat -> sim c c' -> orel xcrel (sstring_loop c) (sstring_loop c').
Proof.
  induction n as [|n IH]; intros c c' L S; destruct S as [p p' O P|p p' O P|x p p' c c' P S]; cbn [clen] in L; try lia;
    try (cbn [sstring_loop]; apply orel_raise; auto; fail).
  destruct x as [|a]; cbn [sstring_loop]; [apply orel_raise; auto|]. destruct (a =? _).
  - pose proof S as S1. destruct S as [q q' O Q|q q' O Q|y q q' c c' Q S]; try (cbn; split; auto; fail).
    destruct y as [|b]; try (cbn; split; auto; fail). destruct (b =? _); [|cbn; split; auto].
    cbn [clen] in L. eapply orel_bind; [apply IH; [lia|exact S]|]. intros [s d] [s' d'] [E D]. cbn in *. subst. split; auto.
  - eapply orel_bind; [apply IH; [lia|exact S]|]. intros [s d] [s' d'] [E D]. cbn in *. subst. split; auto.
Qed.
Lemma dstring_sim : forall n c c', (clen c <= n)%nat -> sim c c' -> orel xcrel (dstring_loop c) (dstring_loop c').
Proof.
  induction n as [|n IH]; intros c c' L S; destruct S as [p p' O P|p p' O P|x p p' c c' P S]; cbn [clen] in L; try lia;
    try (cbn [dstring_loop]; apply orel_raise; auto; fail).
  destruct x as [|a]; cbn [dstring_loop]; [apply orel_raise; auto|]. destruct (a =? _); [cbn; split; auto|]. destruct (a =? 92).
  - destruct S as [q q' O Q|q q' O Q|y q q' c c' Q S]; try (apply orel_raise; auto; fail).
    destruct y as [|b]; try (apply orel_raise; auto; fail).
    cbn [clen] in L. eapply orel_bind; [apply IH; [lia|exact S]|]. intros [s d] [s' d'] [E D]. cbn in *. subst. split; auto.
  - eapply orel_bind; [apply IH; [lia|exact S]|]. intros [s d] [s' d'] [E D]. cbn in *. subst. split; auto.
Qed.
Lemma get_sstring_sim c c' : sim c c' -> orel xcrel (get_sstring c) (get_sstring c').
Proof.
  intros S. unfold get_sstring. pose proof (sim_skip iswhite _ _ S) as S1. fold (skip_white c) in *. fold (skip_white c') in *.
  apply orel_p; [auto|exact I|]. intros x X _. destruct (ch_is x _) eqn:E; cbn [negb]; [|apply orel_raise, sim_pos, S1].
  apply orel_seek; eauto. intros d d' D. eapply sstring_sim; [apply le_n|auto].
Qed.
Lemma get_dstring_sim c c' : sim c c' -> orel xcrel (get_dstring c) (get_dstring c').
Proof.
  intros S. unfold get_dstring. pose proof (sim_skip iswhite _ _ S) as S1. fold (skip_white c) in *. fold (skip_white c') in *.
  apply orel_p; [auto|exact I|]. intros x X _. destruct (ch_is x _) eqn:E; cbn [negb]; [|apply orel_raise, sim_pos, S1].
  apply orel_seek; eauto. intros d d' D. eapply dstring_sim; [apply le_n|auto].
Qed.
Lemma litkey_loop_sim : forall c c', sim c c' -> orel xcrel (litkey_loop c) (litkey_loop c').
Proof.
  intros c c' S. induction S as [p p' O P|p p' O P|x p p' c c' P S IH]; cbn [litkey_loop]; try (apply orel_raise; auto; fail).
  destruct x as [|r]; [apply orel_raise; auto|]. destruct (negb _). cbn. split; auto. constructor; auto.
  eapply orel_bind; [apply IH|]. intros [s d] [s' d'] [E D]. cbn in *. subst. split; auto.
Qed.

(** ** Expressions *)

Definition vrel (v v' : vnode) : Prop := map_pos h v = map_pos h' v'.
Definition vsrel (l l' : list vnode) : Prop := map (map_pos h) l = map (map_pos h') l'.
Definition vorel (o o' : option vnode) : Prop := option_map (map_pos h) o = option_map (map_pos h') o'.
Definition vcrel (a a' : vnode * cursor) : Prop := vrel (fst a) (fst a') /\ sim (snd a) (snd a').
Definition vscrel (a a' : list vnode * cursor) : Prop := vsrel (fst a) (fst a') /\ sim (snd a) (snd a').

Lemma ok_vc v v' c c' : vrel v v' -> sim c c' -> orel vcrel (Ok (v, c)) (Ok (v', c')).
Proof. intros V S. split; auto. Qed.
Lemma ok_vsc v v' c c' : vsrel v v' -> sim c c' -> orel vscrel (Ok (v, c)) (Ok (v', c')).
Proof. intros V S. split; auto. Qed.
Lemma vsrel_cons v v' l l' : vrel v v' -> vsrel l l' -> vsrel (v :: l) (v' :: l').
Proof. unfold vrel, vsrel. cbn. congruence. Qed.
Lemma vsrel_len l l' : vsrel l l' -> length l = length l'.
Proof. intros E. apply (f_equal (@length _)) in E. rewrite !map_length in E. auto. Qed.

Lemma litkey_sim c c' : sim c c' -> orel vcrel (parse_dict_literal_key c) (parse_dict_literal_key c').
Proof.
  intros S. unfold parse_dict_literal_key. pose proof (sim_skip iswhite _ _ S) as S1. fold (skip_white c) in *. fold (skip_white c') in *.
  cbv zeta. rewrite (sim_peek _ _ S1). pose proof (sim_pos _ _ S1) as P. destruct (peek (skip_white c)) as [| |r] eqn:Ep; try (apply orel_raise; auto; fail).
  destruct (is_litkey r); [|apply orel_raise; auto]. apply orel_seek; [auto|eapply chars_peek; eauto|]. intros d d' D.
  eapply orel_bind; [apply litkey_loop_sim, D|]. intros [s e] [s' e'] [E X]. cbn [fst snd] in *. subst.
  apply ok_vc; auto. unfold vrel. cbn. f_equal. apply sim_pos; auto.
Qed.

Context (e1 e1' : cursor -> outcome (vnode * cursor))
  (He : forall c c', sim c c' -> orel vcrel (e1 c) (e1' c')).

Ltac unx := apply orel_raise'; [reflexivity|assumption].
Lemma tok_eqb_eq k k' : tok_eqb k k' = true -> tok_num k = tok_num k'.
Proof. unfold tok_eqb. lia. Qed.
Lemma not_eol k k' : tok_eqb k k' = true -> k' <> KEol -> k <> KEol.
Proof.
  intros E N ->. apply tok_eqb_eq in E. cbn in E. destruct k'; cbn in E; try discriminate; [congruence|].
  destruct o, m; cbn in E; discriminate.
Qed.
Ltac sm := cbn [fst snd]; first [assumption | match goal with H : _ <> KEol -> sim ?a ?b |- sim ?a ?b =>
  apply H; first [discriminate | eapply not_eol; [eassumption|discriminate]] end].
Ltac tg H k s p p' c1 c1' :=
  eapply orel_bind; [apply tget_sim; sm|];
  let k' := fresh "k'" in let s' := fresh "s'" in
  intros [[k s p] c1] [[k' s' p'] c1'] [[? [? ?]] [? ?]]; cbn [fst snd tk tv tp] in *; subst k' s'.
Ltac ee H v v' c1 c1' :=
  eapply orel_bind; [apply He; sm|]; intros [v c1] [v' c1'] [? ?]; cbn [fst snd] in *.
Lemma vrel_pos v v' : vrel v v' -> prel (vpos v) (vpos v').
Proof. unfold vrel, prel. intros E. rewrite <- !vpos_map. congruence. Qed.

Ltac ind2 n IH := induction n as [|n IH]; intros n'; intros; [exact I|]; destruct n' as [|n']; [apply orel_oof_r|].
Ltac vr := unfold vrel, vsrel, vorel, prel in *; cbn; congruence.

Lemma curly_sim n : forall n' c c', sim c c' -> orel vscrel (curly_loop e1 n c) (curly_loop e1' n' c').
Proof.
  induction n as [|n IH]; intros n' c c' S; [exact I|]. destruct n' as [|n']; [apply orel_oof_r|]. cbn [curly_loop].
  pose proof (sim_pos _ _ S) as P. rewrite (sim_peek _ _ S). destruct (ch_in isnamec (peek c)).
  - unfold read_name. readw isnamec S s c1 s' c1'. eapply orel_bind; [apply IH, Es|]. intros [ps c2] [ps' c2'] [V S2]. cbn [fst snd] in *.
    apply ok_vsc; auto. apply vsrel_cons; auto. vr.
  - destruct (peek c) as [| |r] eqn:Ep; cbn [ch_is]; try (apply ok_vsc; auto; vr). destruct (r =? _); [|apply ok_vsc; auto; vr].
    pose proof (sim_get_char _ _ _ S Ep) as S1. cbv zeta. ee S1 v v' c2 c2'. assert (S2 : sim c2 c2') by assumption. pose proof (sim_skip iswhite _ _ S2) as S3.
    fold (skip_white c2) in *. fold (skip_white c2') in *. pose proof (sim_pos _ _ S3) as P3.
    apply orel_p; [auto|exact I|]. intros x X _. destruct (ch_is x _) eqn:E; cbn [negb]; [|apply orel_raise; auto].
    apply orel_seek; eauto. intros d d' D. eapply orel_bind; [apply IH, D|]. intros [ps c5] [ps' c5'] [V S5]. cbn [fst snd] in *.
    apply ok_vsc; auto. apply vsrel_cons; auto. pose proof (sim_pos _ _ S1). vr.
Qed.
Lemma curly_parts_sim c c' : sim c c' -> orel vscrel (parse_curly_parts e1 c) (parse_curly_parts e1' c').
Proof.
  intros S. pose proof (sim_pos _ _ S) as P. unfold parse_curly_parts. rewrite (sim_peek _ _ S), (sim_peekn _ _ _ S). destruct (_ && _).
  - getnw 5%nat S s c1 s' c1'. eapply orel_bind; [apply curly_sim, Es|]. intros [ps c2] [ps' c2'] [V S2]. cbn [fst snd] in *.
    apply ok_vsc; auto. apply vsrel_cons; auto. vr.
  - apply curly_sim, S.
Qed.
Lemma identifier_sim c c' : sim c c' -> orel vcrel (parse_identifier e1 c) (parse_identifier e1' c').
Proof.
  intros S. unfold parse_identifier. pose proof (sim_skip iswhite _ _ S) as S1. fold (skip_white c) in *. fold (skip_white c') in *. cbv zeta.
  pose proof (sim_pos _ _ S1) as P. eapply orel_bind; [apply curly_parts_sim, S1|]. intros [ps c2] [ps' c2'] [V S2]. cbn [fst snd] in *.
  assert (D : orel vcrel (Ok (VCurlyName (getpos (skip_white c)) ps, c2)) (Ok (VCurlyName (getpos (skip_white c')) ps', c2'))) by (apply ok_vc; auto; vr).
  rewrite !one_part_eq. replace (one_part ps') with (one_part ps) by (rewrite <- (one_part_map h ps), <- (one_part_map h' ps'); unfold vsrel in V; rewrite V; reflexivity).
  destruct (one_part ps); [apply ok_vc; auto; vr|exact D].
Qed.
Lemma dot_left_ok_map g v : dot_left_ok (map_pos g v) = dot_left_ok v.
Proof. destruct v; reflexivity. Qed.
Lemma dot_left_sim v v' : vrel v v' -> dot_left_ok v' = dot_left_ok v.
Proof. unfold vrel. intros E. rewrite <- (dot_left_ok_map h v), <- (dot_left_ok_map h' v'). congruence. Qed.
Definition vopt (o o' : option (vnode * cursor)) : Prop :=
  match o, o' with None, None => True | Some a, Some a' => vcrel a a' | _, _ => False end.
Lemma parse_dot_sim t t' l l' c c' : trel t t' -> vrel l l' -> sim c c' -> orel vopt (parse_dot t l c) (parse_dot t' l' c').
Proof.
  intros [? [? ?]] V S. unfold parse_dot. rewrite (dot_left_sim _ _ V). destruct (dot_left_ok l); cbn [negb]; [|exact I].
  pose proof (sim_pos _ _ S). apply orel_p; [auto|exact I|]. intros x _ X. destruct (ch_in iswordc x); cbn [negb]; [|exact I].
  unfold read_word. readw iswordc S s c1 s' c1'. apply orel_p; [auto|exact I|]. intros y _ _. destruct (ch_in isnamec y); [exact I|].
  split; auto. vr.
Qed.
Definition vtcrel (a a' : list vnode * token * cursor) : Prop :=
  vsrel (fst (fst a)) (fst (fst a')) /\ trel (snd (fst a)) (snd (fst a')) /\ sim (snd a) (snd a').
Lemma rlist_loop_sim n : forall n' c c', sim c c' -> orel vtcrel (rlist_loop e1 n c) (rlist_loop e1' n' c').
Proof.
  induction n as [|n IH]; intros n' c c' S; [exact I|]. destruct n' as [|n']; [apply orel_oof_r|]. cbn [rlist_loop].
  ee S v v' c1 c1'. tg H0 k s p p' c2 c2'. assert (V1 : vsrel [v] [v']) by vr.
  destruct k; try unx.
  - split; [auto|split]; [split; auto|]. sm.
  - assert (S2 : sim c2 c2') by sm. tg S2 k2 s2 p2 p2' c3 c3'. destruct (tok_eqb k2 KPClose) eqn:E.
    + split; [auto|split]; [split; auto|]. sm.
    + eapply orel_bind; [apply IH, S2|]. intros [[vs t] c4] [[vs' t'] c4'] [V [Tt S4]]. cbn [fst snd] in *.
      split; [apply vsrel_cons; auto|split]; auto.
Qed.
Lemma rlist_sim c c' : sim c c' -> orel vscrel (parse_rlist e1 c) (parse_rlist e1' c').
Proof.
  intros S. unfold parse_rlist. tg S k s p p' c1 c1'. destruct (tok_eqb k KPClose) eqn:E.
  { apply ok_vsc. vr. sm. }
  eapply orel_bind; [apply rlist_loop_sim, S|]. intros [[vs t] c4] [[vs' t'] c4'] [V [Tt S4]]. cbn [fst snd] in *.
  rewrite (vsrel_len _ _ V). destruct (Nat.ltb _ _). apply orel_raise. apply Tt. apply ok_vsc; auto.
Qed.
Lemma list_loop_sim n : forall n' c c', sim c c' -> orel vscrel (list_loop e1 n c) (list_loop e1' n' c').
Proof.
  induction n as [|n IH]; intros n' c c' S; [exact I|]. destruct n' as [|n']; [apply orel_oof_r|]. cbn [list_loop].
  ee S v v' c1 c1'. tg H0 k s p p' c2 c2'. assert (V1 : vsrel [v] [v']) by vr.
  destruct k; try unx.
  - apply ok_vsc; auto. sm.
  - assert (S2 : sim c2 c2') by sm. tg S2 k2 s2 p2 p2' c3 c3'. destruct (tok_eqb k2 KSqClose) eqn:E.
    + apply ok_vsc; auto. sm.
    + eapply orel_bind; [apply IH, S2|]. intros [vs c4] [vs' c4'] [V S4]. cbn [fst snd] in *.
      apply ok_vsc; auto. apply vsrel_cons; auto.
Qed.
Lemma list_sim p p' c c' : prel p p' -> sim c c' -> orel vcrel (parse_list e1 p c) (parse_list e1' p' c').
Proof.
  intros P S. unfold parse_list. tg S k s q q' c1 c1'. destruct (tok_eqb k KSqClose) eqn:E.
  { apply ok_vc. vr. sm. }
  eapply orel_bind; [apply list_loop_sim, S|]. intros [vs c4] [vs' c4'] [V S4]. cbn [fst snd] in *. apply ok_vc; auto. vr.
Qed.
Definition vsopt (o o' : option (list vnode * cursor)) : Prop :=
  match o, o' with None, None => True | Some a, Some a' => vscrel a a' | _, _ => False end.
Lemma lambda_loop_sim n : forall n' named t t' c c', trel t t' -> (tk t <> KEol -> sim c c') ->
  orel vsopt (lambda_loop n named t c) (lambda_loop n' named t' c').
Proof.
  induction n as [|n IH]; intros n' named [k s p] [k' s' p'] c c' [Ek [Es Ep]] S; [exact I|]. destruct n' as [|n']; [apply orel_oof_r|].
  cbn [lambda_loop tk tv tp] in *. subst k' s'. destruct k; try exact I.
  - assert (S0 : sim c c') by (apply S; discriminate). clear S. pose proof (sim_pos _ _ S0) as P.
    destruct (negb _); [apply orel_raise; auto|]. destruct (mem_text _ _); [apply orel_raise; auto|].
    apply orel_p; [auto|exact I|]. intros x _ _. eapply orel_bind with (Q := eq).
    { destruct (ch_in iswhite x); [|reflexivity]. eapply orel_bind; [apply tpeek_sim, S0|]. intros t1 t1' [E _]. rewrite E. reflexivity. }
    intros b b' <-. destruct b; [apply orel_raise; auto|]. cbv zeta. tg S0 k1 s1 p1 p1' c1 c1'.
    assert (V1 : vsrel [VIdent p s] [VIdent p' s]) by vr.
    destruct k1; try (apply orel_raise; auto).
    + assert (S1 : sim c1 c1') by sm. tg S1 k2 s2 p2 p2' c2 c2'. destruct (tok_eqb k2 KArrow) eqn:E.
      * split; auto. sm.
      * eapply orel_bind; [apply IH|].
        -- split; [|split]; cbn [tk tv tp]; auto.
        -- auto.
        -- intros [[vs c3]|] [[vs' c3']|] X; try contradiction; [|exact I]. destruct X as [V S3]. split; auto. cbn [fst snd] in *. apply vsrel_cons; auto. vr.
    + split; auto. sm.
  - assert (S0 : sim c c') by (apply S; discriminate). tg S0 k1 s1 p1 p1' c1 c1'. destruct (tok_eqb k1 KArrow) eqn:E; [|unx].
    split. cbn [fst]. vr. sm.
  - split. vr. apply S. discriminate.
Qed.
Definition kvrel (a a' : (list (vnode * vnode) + vnode) * cursor) : Prop :=
  match fst a, fst a' with
  | inl l, inl l' => map (fun kv => (map_pos h (fst kv), map_pos h (snd kv))) l = map (fun kv => (map_pos h' (fst kv), map_pos h' (snd kv))) l'
  | inr v, inr v' => vrel v v'
  | _, _ => False
  end /\ sim (snd a) (snd a').
Lemma dict_loop_sim n : forall n' lit empty st st' c c', sim st st' -> sim c c' ->
  orel kvrel (dict_loop e1 n lit empty st c) (dict_loop e1' n' lit empty st' c').
Proof.
  induction n as [|n IH]; intros n' lit empty st st' c c' St S; [exact I|]. destruct n' as [|n']; [apply orel_oof_r|]. cbn [dict_loop].
  eapply orel_bind with (Q := vcrel). { destruct lit. apply litkey_sim, S. apply He, S. }
  intros [key c1] [key' c1'] [Vk S1]. cbn [fst snd] in *. tg S1 k s p p' c2 c2'. destruct k; try unx.
  - assert (S2 : sim c2 c2') by sm. ee S2 v v' c3 c3'. tg H4 k2 s2 p2 p2' c4 c4'.
    assert (V1 : map (fun kv => (map_pos h (fst kv), map_pos h (snd kv))) [(key, v)] = map (fun kv => (map_pos h' (fst kv), map_pos h' (snd kv))) [(key', v')]) by (unfold vrel in *; cbn; congruence).
    destruct k2; try unx.
    + split; auto. sm.
    + assert (S4 : sim c4 c4') by sm. tg S4 k3 s3 p3 p3' c5 c5'. destruct (tok_eqb k3 KCClose) eqn:E.
      * split; auto. sm.
      * eapply orel_bind; [apply IH; eauto|]. intros [r c6] [r' c6'] [Vr S6]. cbn [fst snd] in *.
        destruct r, r'; try contradiction; split; cbn [fst snd]; auto. cbn [map] in *. unfold vrel in *. cbn. congruence.
  - destruct (negb empty); [unx|]. eapply orel_bind; [apply identifier_sim, St|]. intros [v c3] [v' c3'] [V S3]. split; auto.
Qed.
Lemma dict_vrel p p' l l' : prel p p' -> map (fun kv => (map_pos h (fst kv), map_pos h (snd kv))) l = map (fun kv => (map_pos h' (fst kv), map_pos h' (snd kv))) l' -> vrel (VDict p l) (VDict p' l').
Proof.
  unfold prel, vrel. intros P E. cbn. f_equal; auto.
  rewrite (map_ext (fun kv => match kv with (k, v) => (map_pos h k, map_pos h v) end) (fun kv => (map_pos h (fst kv), map_pos h (snd kv)))) by (intros []; reflexivity).
  rewrite (map_ext (fun kv => match kv with (k, v) => (map_pos h' k, map_pos h' v) end) (fun kv => (map_pos h' (fst kv), map_pos h' (snd kv)))) by (intros []; reflexivity). auto.
Qed.
Lemma dict_sim lit p p' st st' c c' : prel p p' -> sim st st' -> sim c c' -> orel vcrel (parse_dict e1 lit p st c) (parse_dict e1' lit p' st' c').
Proof.
  intros P St S. unfold parse_dict. tg S k s q q' c1 c1'. destruct (tok_eqb k KCClose) eqn:E.
  { apply ok_vc. vr. sm. }
  eapply orel_bind; [apply dict_loop_sim; [apply St|apply S]|]. intros [r c6] [r' c6'] [Vr S6]. cbn [fst snd] in *.
  destruct r, r'; try contradiction; apply ok_vc; auto. apply dict_vrel; auto.
Qed.

(** At a line end there is no expression. *)
Definition at_eol (c : cursor) : Prop := exists t d, tget c = Ok (t, d) /\ tk t = KEol.
Definition stuck {A} (o : outcome A) : Prop :=
  match o with PErr e => exists m p, line_end m /\ e = Err_ m p | OutOfFuel => True | _ => False end.
Context (Heol : forall c, at_eol c -> stuck (e1 c)).
Lemma tget_eol_peek c t d : tget c = Ok (t, d) -> tk t = KEol -> peek (skip_white c) = CEol.
Proof.
  unfold tget, get2. destruct (peek (skip_white c)) as [| |r]; auto.
  - intros E. injection E as <- <-. discriminate.
  - intros E Ek. exfalso. revert E.
    assert (G : forall o : outcome (token * cursor), (forall t d, o = Ok (t, d) -> tk t <> KEol) -> o = Ok (t, d) -> False) by (intros o N E; exact (N _ _ E Ek)).
    apply G. clear. set (c0 := skip_white c). clearbody c0. intros t d.
    assert (FX : forall k s t d, k <> KEol -> tok_fix k s c0 = Ok (t, d) -> tk t <> KEol).
    { intros k s t0 d0 N E. unfold tok_fix in E. destruct (seek_cur _ _); try discriminate. injection E as <- _. auto. }
    assert (CM : forall o k s t d, tok_cmp o k s c0 = Ok (t, d) -> tk t <> KEol).
    { intros o k s t0 d0 E. unfold tok_cmp in E. destruct (p_ k c0) as [x| | |]; try discriminate. cbn [bind] in E.
      destruct (ch_is x _); [|destruct (ch_is x (C "#"))]; destruct (seek_cur _ _); try discriminate; injection E as <- _; discriminate. }
    assert (NB : forall t d, get2_number c0 = Ok (t, d) -> tk t <> KEol).
    { intros t0 d0 E. unfold get2_number in E.
      repeat match type of E with
      | (let '(_, _) := ?x in _) = _ => destruct x
      | bind ?m _ = _ => destruct m; try discriminate; cbn [bind] in E
      | (if ?b then _ else _) = _ => destruct b
      end; injection E as <- _; discriminate. }
    assert (ID : forall t d, get2_ident c0 = Ok (t, d) -> tk t <> KEol).
    { intros t0 d0 E. unfold get2_ident in E. destruct (read_name c0). injection E as <- _. discriminate. }
    destruct (iswhite r). { destruct (read_white c0). intros E. injection E as <- _. discriminate. }
    destruct (isdigit r).
    { intros E. unfold get2_digit in E.
      repeat match type of E with
      | (let '(_, _) := ?x in _) = _ => destruct x
      | bind ?m _ = _ => destruct m as [?x| | |]; try discriminate; cbn [bind] in E
      | (if ?b then _ else _) = _ => destruct b
      end; try (apply NB in E; exact E); injection E as <- _; discriminate. }
    destruct (isnamec1 r).
    { unfold get2_word. destruct (r =? _); [|apply ID]. destruct (p_ 1 c0) as [x| | |]; try discriminate. cbn [bind]. destruct (ch_is _ _); [|apply ID].
      destruct (p_ 2 c0) as [y| | |]; try discriminate. cbn [bind]. destruct (negb _). apply CM.
      destruct (p_match _ _ _) as [b| | |]; try discriminate. cbn [bind]. destruct b; [|apply ID].
      destruct (p_ 5 c0) as [z| | |]; try discriminate. cbn [bind]. destruct (negb _). apply CM. apply ID. }
    repeat match goal with
    | |- (if ?b then _ else _) = _ -> _ => destruct b
    | |- tok_fix _ _ _ = _ -> _ => apply FX; discriminate
    | |- tok_cmp _ _ _ _ = _ -> _ => apply CM
    | |- bind (p_ _ _) _ = _ -> _ => destruct (p_ _ _) as [?x| | |]; try discriminate; cbn [bind]
    | |- raise _ _ = _ -> _ => discriminate
    end.
    + match goal with |- bind ?m _ = _ -> _ => destruct m as [b| | |]; try discriminate end. cbn [bind]. destruct (getn _ c0). destruct (read_word _). intros E; injection E as <- _; discriminate.
    + destruct (getn _ c0). destruct (read_word _). intros E; injection E as <- _; discriminate.
    + destruct (getn _ c0). intros E; injection E as <- _; discriminate.
Qed.
Lemma tget_eol c t d : tget c = Ok (t, d) -> tk t = KEol -> t = mkTok KEol (T "<EOL>") (tp t).
Proof.
  intros E K. pose proof (tget_eol_peek _ _ _ E K) as P. unfold tget, get2 in E. rewrite P in E. destruct (seek_cur 1 _); try discriminate.
  injection E as <- _. reflexivity.
Qed.
Lemma bind_stuck {A B} (m : outcome A) (k : A -> outcome B) : stuck m -> stuck (bind m k).
Proof. destruct m; cbn; tauto. Qed.
Lemma dict_eol lit p st c : at_eol c -> stuck (parse_dict e1 lit p st c).
Proof.
  intros [t [d [E Ek]]]. unfold parse_dict. rewrite E. cbn [bind]. rewrite Ek. cbn [tok_eqb]. change (tok_eqb KEol KCClose) with false. cbv iota.
  apply bind_stuck. cbn [dict_loop]. apply bind_stuck. destruct lit; [|apply Heol; exists t, d; auto].
  unfold parse_dict_literal_key. cbv zeta. rewrite (tget_eol_peek _ _ _ E Ek). cbn [stuck raise]. do 2 eexists. split; [|reflexivity]. right. reflexivity.
Qed.
Lemma brace_sim lit p p' st st' c c' : prel p p' -> sim st st' -> sim c c' ->
  orel vcrel (parse_brace e1 lit p st c) (parse_brace e1' lit p' st' c').
Proof.
  intros P St S. pose proof (dict_sim lit p p' st st' c c' P St S) as D.
  unfold parse_brace.
  eapply orel_bind_eq; [apply tget_sim, S|]. intros [t c1] [t' c1'] E E' [Tr [S0 S1]]. cbn [fst snd] in *.
  pose proof Tr as [Ek [Ev Ep]].
  assert (Z : (opn = true /\ c1 = F /\ c1' = F' /\ tk t = KEol) \/ sim c1 c1').
  { destruct S0 as [S0|[O [-> ->]]]; auto. destruct (tk t) eqn:Q; try (right; apply S1; discriminate). auto. }
  clear S0 S1. destruct Z as [[Ho [-> [-> K]]]|S2].
  { rewrite <- Ek, K. assert (X : stuck (parse_dict e1 lit p st c)) by (apply dict_eol; exists t, F; auto).
    destruct (is_eof F) eqn:EF.
    - destruct F as [q|]; [|discriminate]. change (tpeek (Eof q)) with (Ok (mkTok KEof (T "<EOF>") q)). cbn [bind].
      change (tok_eqb (tk (mkTok KEof (T "<EOF>") q)) KArrow || tok_eqb (tk (mkTok KEof (T "<EOF>") q)) KComma) with false. cbv iota. unfold tpeek.
      destruct (tget F') as [[t2 d2]|e'|k'|] eqn:Et; cbn [bind].
      + replace (lambda_loop (Datatypes.S (Datatypes.S (clen F'))) [] t' F') with (@Ok (option (list vnode * cursor)) None) by (cbn [lambda_loop]; rewrite <- Ek, K; reflexivity).
        cbn [bind]. destruct (_ || _); exact D.
      + destruct (parse_dict e1 lit p st c) as [?|e|?|]; cbn [stuck] in X; try contradiction; [|exact I]. cbn [orel]. right. right. split; [|exact Et].
        split; auto.
      + destruct (parse_dict e1 lit p st c) as [?|e|?|]; cbn [stuck] in X; try contradiction; [|exact I]. cbn [orel]. right. split; [|exact Et].
        split; auto.
      + apply orel_oof_r.
    - apply orel_fail; auto.
      assert (X2 : tame (fun _ => False) (parse_dict e1 lit p st c)).
      { destruct (parse_dict e1 lit p st c); cbn [stuck tame] in *; auto. split; auto. contradiction. }
      destruct (tpeek F) as [t2|e|k|]; cbn [bind tame]; [|split; auto|left; auto|exact I].
      replace (lambda_loop (Datatypes.S (Datatypes.S (clen F))) [] t F) with (@Ok (option (list vnode * cursor)) None) by (cbn [lambda_loop]; rewrite K; reflexivity).
      cbn [bind]. destruct (_ || _); exact X2. }
  eapply orel_bind with (Q := eq).
  { rewrite <- Ek. destruct (tk t); try reflexivity; (eapply orel_bind; [apply tpeek_sim, S2|]; intros t2 t2' [E2 _]; rewrite E2; reflexivity). }
  intros b b' <-. destruct b; [|exact D].
  eapply orel_bind; [apply lambda_loop_sim; auto|]. intros [[vs c2]|] [[vs' c2']|] X; try contradiction; [|exact D].
  destruct X as [V S3]. cbn [fst snd] in *. ee S3 v v' c3 c3'. tg H0 k s q q' c4 c4'. destruct (tok_eqb k KCClose) eqn:E2; cbn [negb]; [|unx].
  apply ok_vc. vr. sm.
Qed.
Lemma expr9_sim c c' : sim c c' -> orel vcrel (parse_expr9 e1 c) (parse_expr9 e1' c').
Proof.
  intros S. unfold parse_expr9. tg S k s p p' c1 c1'. destruct k; try unx; try (apply ok_vc; [vr|sm]).
  - assert (S1 : sim c1 c1') by sm. rewrite (sim_peekn _ _ _ S1).
    destruct o; try unx; destruct m; try unx; try (apply identifier_sim, S).
    destruct (equalci _ _); [apply identifier_sim, S|unx].
  - ee S v v' c2 c2'. tg S k2 s2 p2 p2' c3 c3'. destruct (tok_eqb k2 KPClose) eqn:E; cbn [negb]; [|unx]. apply ok_vc; [vr|sm].
  - apply list_sim; [auto|sm].
  - apply brace_sim; [auto|auto|sm].
  - eapply orel_bind; [apply get_sstring_sim, S|]. intros [x d] [x' d'] [E D]. cbn [fst snd] in *. subst. apply ok_vc; [vr|auto].
  - eapply orel_bind; [apply get_dstring_sim, S|]. intros [x d] [x' d'] [E D]. cbn [fst snd] in *. subst. apply ok_vc; [vr|auto].
  - apply identifier_sim, S.
  - apply brace_sim; [auto|auto|sm].
Qed.
Definition vocrel (a a' : option vnode * cursor) : Prop := vorel (fst a) (fst a') /\ sim (snd a) (snd a').
Lemma slice_sim p p' l l' r r' c c' : prel p p' -> vrel l l' -> vorel r r' -> sim c c' ->
  orel vcrel (slice_tail e1 p l r c) (slice_tail e1' p' l' r' c').
Proof.
  intros P L Rr S. unfold slice_tail. eapply orel_bind; [apply tpeek_sim, S|]. intros t t' [Ek _]. rewrite Ek.
  eapply orel_bind with (Q := vocrel).
  { destruct (negb _); [|split; [vr|auto]]. ee S v v' c2 c2'. split; [vr|auto]. }
  intros [r1 c1] [r1' c1'] [V1 S1]. cbn [fst snd] in *. tg S1 k2 s2 p2 p2' c3 c3'. destruct (tok_eqb k2 KSqClose) eqn:E; cbn [negb]; [|unx].
  apply ok_vc; [vr|sm].
Qed.
Lemma subscript_sim p p' l l' c c' : prel p p' -> vrel l l' -> sim c c' ->
  orel vcrel (parse_subscript e1 p l c) (parse_subscript e1' p' l' c').
Proof.
  intros P L S. unfold parse_subscript. tg S k s q q' c1 c1'. destruct (tok_eqb k KColon) eqn:E.
  { apply slice_sim; auto. vr. sm. }
  ee S v v' c2 c2'. tg S k2 s2 p2 p2' c3 c3'. destruct (tok_eqb k2 KColon) eqn:E2. { apply slice_sim; auto. vr. sm. }
  destruct (tok_eqb k2 KSqClose) eqn:E3; cbn [negb]; [|unx]. apply ok_vc; [vr|sm].
Qed.
Lemma expr8_loop_sim n : forall n' l l' c c', vrel l l' -> sim c c' -> orel vcrel (expr8_loop e1 n l c) (expr8_loop e1' n' l' c').
Proof.
  induction n as [|n IH]; intros n' l l' c c' L S; [exact I|]. destruct n' as [|n']; [apply orel_oof_r|]. cbn [expr8_loop]. cbv zeta.
  rewrite (sim_peek _ _ S). assert (K : orel vcrel (Ok (l, c)) (Ok (l', c'))) by (apply ok_vc; auto).
  tg S k s p p' c1 c1'. destruct k; try exact K.
  - destruct (ch_in iswhite (peek c)); [exact K|]. eapply orel_bind; [apply parse_dot_sim; [|apply L|sm]|]. split; [|split]; cbn [tk tv tp]; auto.
    intros [[v d]|] [[v' d']|] X; try contradiction; [|exact K]. destruct X. apply IH; auto.
  - eapply orel_bind; [apply rlist_sim; sm|]. intros [vs c2] [vs' c2'] [V S2]. cbn [fst snd] in *. apply IH; auto. vr.
  - destruct (ch_in iswhite (peek c)); [exact K|]. eapply orel_bind; [apply subscript_sim; [eassumption|apply L|sm]|]. intros [v d] [v' d'] [V D]. apply IH; auto.
  - eapply orel_bind; [apply expr9_sim; sm|]. intros [f c2] [f' c2'] [V S2]. cbn [fst snd] in *. tg S2 k2 s2 p2 p2' c3 c3'.
    destruct (tok_eqb k2 KPOpen) eqn:E; cbn [negb]; [|apply orel_raise; auto].
    eapply orel_bind; [apply rlist_sim; sm|]. intros [vs c4] [vs' c4'] [V4 S4]. cbn [fst snd] in *. apply IH; auto. vr.
Qed.
Lemma expr8_sim c c' : sim c c' -> orel vcrel (parse_expr8 e1 c) (parse_expr8 e1' c').
Proof. intros S. unfold parse_expr8. eapply orel_bind; [apply expr9_sim, S|]. intros [v d] [v' d'] [V D]. apply expr8_loop_sim; auto. Qed.
Lemma expr7_loop_sim n : forall n' c c', sim c c' -> orel vcrel (expr7_loop e1 n c) (expr7_loop e1' n' c').
Proof.
  induction n as [|n IH]; intros n' c c' S; [exact I|]. destruct n' as [|n']; [apply orel_oof_r|]. cbn [expr7_loop].
  tg S k s p p' c1 c1'. destruct k; try (apply expr8_sim, S);
    (eapply orel_bind; [apply IH; sm|]; intros [v d] [v' d'] [V D]; cbn [fst snd] in *; apply ok_vc; [vr|auto]).
Qed.
Lemma expr7_sim c c' : sim c c' -> orel vcrel (parse_expr7 e1 c) (parse_expr7 e1' c').
Proof. apply expr7_loop_sim. Qed.

Lemma bin_loop_sim sub sub' ops (Hs : forall c c', sim c c' -> orel vcrel (sub c) (sub' c')) (Ho : ops KEol = None) n :
  forall n' l l' c c', vrel l l' -> sim c c' -> orel vcrel (bin_loop sub ops n l c) (bin_loop sub' ops n' l' c').
Proof.
  induction n as [|n IH]; intros n' l l' c c' L S; [exact I|]. destruct n' as [|n']; [apply orel_oof_r|]. cbn [bin_loop].
  tg S k s p p' c1 c1'. destruct (ops k) eqn:Eo; [|apply ok_vc; auto].
  assert (Nk : k <> KEol) by (intros ->; congruence).
  eapply orel_bind; [apply Hs; auto|]. intros [v d] [v' d'] [V D]. cbn [fst snd] in *. apply IH; auto. vr.
Qed.
Lemma bin_level_sim sub sub' ops (Hs : forall c c', sim c c' -> orel vcrel (sub c) (sub' c')) (Ho : ops KEol = None) c c' :
  sim c c' -> orel vcrel (bin_level sub ops c) (bin_level sub' ops c').
Proof. intros S. unfold bin_level. eapply orel_bind; [apply Hs, S|]. intros [v d] [v' d'] [V D]. apply bin_loop_sim; auto. Qed.
Lemma expr6_sim c c' : sim c c' -> orel vcrel (parse_expr6 e1 c) (parse_expr6 e1' c').
Proof. apply bin_level_sim; [apply expr7_sim|reflexivity]. Qed.
Lemma expr5_sim c c' : sim c c' -> orel vcrel (parse_expr5 e1 c) (parse_expr5 e1' c').
Proof. apply bin_level_sim; [apply expr6_sim|reflexivity]. Qed.
Lemma expr4_sim c c' : sim c c' -> orel vcrel (parse_expr4 e1 c) (parse_expr4 e1' c').
Proof.
  intros S. unfold parse_expr4. eapply orel_bind; [apply expr5_sim, S|]. intros [v d] [v' d'] [V D]. cbn [fst snd] in *.
  tg D k s p p' c1 c1'. destruct k; try (apply ok_vc; auto; fail).
  eapply orel_bind; [apply expr5_sim; sm|]. intros [w x] [w' x'] [W X]. cbn [fst snd] in *. apply ok_vc; [vr|auto].
Qed.
Lemma expr3_sim c c' : sim c c' -> orel vcrel (parse_expr3 e1 c) (parse_expr3 e1' c').
Proof. apply bin_level_sim; [apply expr4_sim|reflexivity]. Qed.
Lemma expr2_sim c c' : sim c c' -> orel vcrel (parse_expr2 e1 c) (parse_expr2 e1' c').
Proof. apply bin_level_sim; [apply expr3_sim|reflexivity]. Qed.
Lemma expr1_sim c c' : sim c c' -> orel vcrel (expr1_body e1 c) (expr1_body e1' c').
Proof.
  intros S. unfold expr1_body. eapply orel_bind; [apply expr2_sim, S|]. intros [v d] [v' d'] [V D]. cbn [fst snd] in *.
  tg D k s p p' c1 c1'. destruct (tok_eqb k KQuestion) eqn:E; [|apply ok_vc; auto].
  ee D w w' c2 c2'. tg D k2 s2 p2 p2' c3 c3'. destruct (tok_eqb k2 KColon) eqn:E2; cbn [negb]; [|unx].
  ee D u u' c4 c4'. apply ok_vc; [vr|auto].
Qed.
Lemma lv9_sim c c' : sim c c' -> orel vcrel (parse_lv9 e1 c) (parse_lv9 e1' c').
Proof.
  intros S. unfold parse_lv9. tg S k s p p' c1 c1'. destruct k; try unx; try (apply ok_vc; [vr|sm]); try (apply identifier_sim, S).
  assert (S1 : sim c1 c1') by sm. rewrite (sim_peekn _ _ _ S1).
  destruct o; try unx; destruct m; try unx. destruct (equalci _ _); [apply identifier_sim, S|unx].
Qed.
Lemma lv8_loop_sim n : forall n' l l' c c', vrel l l' -> sim c c' -> orel vcrel (lv8_loop e1 n l c) (lv8_loop e1' n' l' c').
Proof.
  induction n as [|n IH]; intros n' l l' c c' L S; [exact I|]. destruct n' as [|n']; [apply orel_oof_r|]. cbn [lv8_loop]. cbv zeta.
  rewrite (sim_peek _ _ S). assert (K : orel vcrel (Ok (l, c)) (Ok (l', c'))) by (apply ok_vc; auto).
  tg S k s p p' c1 c1'. destruct k; try exact K.
  - destruct (ch_in iswhite (peek c)); [exact K|]. eapply orel_bind; [apply parse_dot_sim; [|apply L|sm]|]. split; [|split]; cbn [tk tv tp]; auto.
    intros [[v d]|] [[v' d']|] X; try contradiction; [|exact K]. destruct X. apply IH; auto.
  - destruct (ch_in iswhite (peek c)); [exact K|]. eapply orel_bind; [apply subscript_sim; [eassumption|apply L|sm]|]. intros [v d] [v' d'] [V D]. apply IH; auto.
Qed.
Lemma lv8_sim c c' : sim c c' -> orel vcrel (parse_lv8 e1 c) (parse_lv8 e1' c').
Proof. intros S. unfold parse_lv8. eapply orel_bind; [apply lv9_sim, S|]. intros [v d] [v' d'] [V D]. apply lv8_loop_sim; auto. Qed.

(** No expression starts at a line end. *)
Lemma expr1_eol c : at_eol c -> stuck (expr1_body e1 c).
Proof.
  intros [t [d [E Ek]]]. unfold expr1_body. apply bind_stuck. unfold parse_expr2, bin_level. apply bind_stuck. unfold parse_expr3, bin_level.
  apply bind_stuck. unfold parse_expr4. apply bind_stuck. unfold parse_expr5, bin_level. apply bind_stuck. unfold parse_expr6, bin_level. apply bind_stuck.
  unfold parse_expr7. cbn [expr7_loop]. rewrite E. cbn [bind]. rewrite Ek. unfold parse_expr8. apply bind_stuck. unfold parse_expr9. rewrite E. cbn [bind]. rewrite Ek.
  rewrite (tget_eol _ _ _ E Ek). cbn [unexpected_token raise stuck tv tp]. do 2 eexists. split; [|reflexivity]. left. reflexivity.
Qed.

End Sim.

Lemma parse_expr1_eol n c : at_eol c -> stuck (parse_expr1 n c).
Proof. destruct n; cbn [parse_expr1]; intros. exact I. apply expr1_eol; auto. Qed.

Lemma parse_expr1_sim opn F F' h h' n : forall n' c c', sim opn F F' h h' c c' ->
  orel opn F F' h h' (vcrel opn F F' h h') (parse_expr1 n c) (parse_expr1 n' c').
Proof.
  induction n as [|n IH]; intros n' c c' S; [exact I|]. destruct n' as [|n']; [apply orel_oof_r|]. cbn [parse_expr1].
  apply expr1_sim; auto. apply parse_expr1_eol.
Qed.
Lemma parse_expr_sim opn F F' h h' c c' : sim opn F F' h h' c c' ->
  orel opn F F' h h' (vcrel opn F F' h h') (parse_expr c) (parse_expr c').
Proof. apply parse_expr1_sim. Qed.
Lemma parse_lvalue_sim opn F F' h h' c c' : sim opn F F' h h' c c' ->
  orel opn F F' h h' (vcrel opn F F' h h') (parse_lvalue_ c) (parse_lvalue_ c').
Proof. intros S. apply lv8_sim; auto. apply parse_expr1_sim. Qed.
