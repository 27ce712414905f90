(** A text written behind another one: the proofs. *)
From Coq Require Import Lia ZifyBool ZifyNat ZifyN.
From Verif Require Import Base Utf8 CharClass Reader Vnode Token Ast Tokenizer ExprParser CmdTable CmdParser Export Api
  Cursor Sim SimCmd SimArgs SimRun SimLoop Graft Places PlacesProof LinesProof ApiExpr ApiFile ScriptExport Grammar ExprSafe Script Derived CmdBase CmdArgs HeadProof CmdOpen CmdLoop NodeFacts NodeText Ast Nodes Join JoinProof TokSafe ExportSafe Sequel.
From Verif Require FindBack.

(** * Readers *)

(** The lines as read from cell [i], line [l], offset [o] on. *)
Definition behind (lines : list text) (i l o : N) : cursor :=
  match lines with
  | [] => Eof (mkPos i l 0 o)
  | t :: r => put_first t i l 0 o (fun i' => build_more r i' l (blen t) (o + blen t))
  end.
Lemma behind_reader lines : new_reader lines = behind lines 0 1 0.
Proof. destruct lines; reflexivity. Qed.
Lemma behind_last more i ln col off : starts_line more ->
  build_more more i ln col off = Cons EOL (mkPos i ln (col + 1) off) (behind more (i + 1) (ln + 1) (off + 1)).
Proof.
  intros H. destruct more as [|l more]; cbn [build_more behind]; [reflexivity|].
  assert (K : re_continuation l = false).
  { destruct (re_continuation l) eqn:K; auto. apply continuation_iff in K. destruct (H _ _ eq_refl K). }
  rewrite K. reflexivity.
Qed.
Lemma clen_first t k : forall i ln col off, clen (put_first t i ln col off k) = (length t + clen (k (i + N.of_nat (length t))%N))%nat.
Proof.
  induction t as [|r t IH]; cbn [put_first length clen]; intros i ln col off; [rewrite N.add_0_r; reflexivity|].
  rewrite IH. replace (i + 1 + N.of_nat (length t)) with (i + N.of_nat (S (length t))) by lia. reflexivity.
Qed.
Lemma clen_cont t k : forall i ln col, clen (put_cont t i ln col k) = (length t + clen (k (i + N.of_nat (length t))%N))%nat.
Proof.
  induction t as [|r t IH]; cbn [put_cont length clen]; intros i ln col; [rewrite N.add_0_r; reflexivity|].
  rewrite IH. replace (i + 1 + N.of_nat (length t)) with (i + N.of_nat (S (length t))) by lia. reflexivity.
Qed.
Lemma starts_nil : starts_line []. Proof. intros ? ? ?; discriminate. Qed.
Lemma behind_build more : starts_line more -> forall ts i ln col off,
  let I := i + N.of_nat (clen (build_more ts i ln col off)) in
  let L := ln + 1 + N.of_nat (length ts) in
  let O := off + 1 + line_bytes ts in
  sim true (Eof (mkPos I L 0 O)) (behind more I L O) same same (build_more ts i ln col off) (build_more (ts ++ more) i ln col off).
Proof.
  intros H. induction ts as [|t ts IH]; intros i ln col off.
  - cbn [app]. rewrite (behind_last _ _ _ _ _ H). cbn [build_more clen length line_bytes]. rewrite !N.add_0_r.
    apply sim_last; reflexivity.
  - cbn [app build_more line_bytes length]. destruct (re_continuation t).
    + destruct (skip_backslash t 0) as [u c]. cbv zeta.
      specialize (IH (i + N.of_nat (length u)) (ln + 1) (blen t) (off + blen t + 1)). cbv zeta in IH.
      rewrite clen_cont. match type of IH with sim _ (Eof (mkPos ?iX ?lX 0 ?oX)) _ _ _ _ _ => 
        replace (i + N.of_nat _) with iX by lia; replace (ln + 1 + _) with lX by lia; replace (off + 1 + (blen t + 1 + line_bytes ts)) with oX by lia end.
      apply cont_sim. exact IH.
    + cbv zeta. specialize (IH (i + 1 + N.of_nat (length t)) (ln + 1) (blen t) (off + 1 + blen t)). cbv zeta in IH.
      cbn [clen]. rewrite clen_first. match type of IH with sim _ (Eof (mkPos ?iX ?lX 0 ?oX)) _ _ _ _ _ => 
        replace (i + N.of_nat _) with iX by lia; replace (ln + 1 + _) with lX by lia; replace (off + 1 + (blen t + 1 + line_bytes ts)) with oX by lia end.
      apply sim_cons; [reflexivity|]. apply first_sim. exact IH.
Qed.
Lemma behind_open t ts more : starts_line more ->
  let I := N.of_nat (clen (new_reader (t :: ts))) in
  let L := 1 + N.of_nat (length (t :: ts)) in
  let O := line_bytes (t :: ts) in
  sim true (Eof (mkPos I L 0 O)) (behind more I L O) same same (new_reader (t :: ts)) (new_reader ((t :: ts) ++ more)).
Proof.
  intros H. cbv zeta. cbn [app new_reader line_bytes length]. rewrite clen_first, N.add_0_l.
  pose proof (behind_build more H ts (N.of_nat (length t)) 1 (blen t) (blen t)) as G. cbv zeta in G.
  match type of G with sim _ (Eof (mkPos ?iX ?lX 0 ?oX)) _ _ _ _ _ => 
    replace (N.of_nat (_ + _)) with iX by lia; replace (1 + N.of_nat (S _)) with lX by lia; replace (blen t + 1 + line_bytes ts) with oX by lia end.
  apply first_sim. exact G.
Qed.

(** The same lines at another place. *)
Definition shift (di dl d : N) (p : pos) : pos :=
  mkPos (p_i p + di) (p_lnum p + dl) (p_col p) (if (p_off p =? 0) && negb (p_lnum p =? 1) then 0 else p_off p + d).
Section Shift.
Context (di dl d : N) (F F' : cursor).
Local Notation sh := (shift di dl d).
Local Notation sim := (Sim.sim false F F' sh same).
Lemma shift_at i ln col off : ln = 1 \/ 0 < off -> prel sh same (mkPos i ln col off) (mkPos (i + di) (ln + dl) col (off + d)).
Proof.
  intros H. unfold prel, shift, same. cbn [p_i p_lnum p_col p_off].
  replace ((off =? 0) && negb (ln =? 1)) with false by lia. reflexivity.
Qed.
Lemma shift_first t k k' : forall i ln col off, ln = 1 \/ 0 < off ->
  sim (k (i + N.of_nat (length t))) (k' (i + N.of_nat (length t) + di)) ->
  sim (put_first t i ln col off k) (put_first t (i + di) (ln + dl) col (off + d) k').
Proof.
  induction t as [|r t IH]; cbn [put_first length]; intros i ln col off Ho H.
  - rewrite N.add_0_r in H. exact H.
  - apply sim_cons; [apply shift_at; auto|].
    replace (i + di + 1) with (i + 1 + di) by lia. replace (off + d + rune_len r) with (off + rune_len r + d) by lia.
    apply IH; [lia|]. replace (i + 1 + N.of_nat (length t)) with (i + N.of_nat (S (length t))) by lia. exact H.
Qed.
Lemma shift_cont t k k' : forall i ln col, ln <> 1 ->
  sim (k (i + N.of_nat (length t))) (k' (i + N.of_nat (length t) + di)) ->
  sim (put_cont t i ln col k) (put_cont t (i + di) (ln + dl) col k').
Proof.
  induction t as [|r t IH]; cbn [put_cont length]; intros i ln col Ho H.
  - rewrite N.add_0_r in H. exact H.
  - apply sim_cons.
    { unfold prel, shift, same. cbn [p_i p_lnum p_col p_off]. replace ((0 =? 0) && negb (ln =? 1)) with true by lia. reflexivity. }
    replace (i + di + 1) with (i + 1 + di) by lia.
    apply IH; [lia|]. replace (i + 1 + N.of_nat (length t)) with (i + N.of_nat (S (length t))) by lia. exact H.
Qed.
Lemma shift_build : forall ts i ln col off, 1 <= ln -> ln = 1 \/ 0 < off ->
  sim (build_more ts i ln col off) (build_more ts (i + di) (ln + dl) col (off + d)).
Proof.
  induction ts as [|t ts IH]; intros i ln col off Hl Ho.
  - cbn [build_more]. apply sim_cons; [apply shift_at; auto|]. apply sim_eof; [reflexivity|].
    replace (i + di + 1) with (i + 1 + di) by lia. replace (ln + dl + 1) with (ln + 1 + dl) by lia.
    replace (off + d + 1) with (off + 1 + d) by lia. apply shift_at. lia.
  - cbn [build_more]. replace (ln + dl + 1) with (ln + 1 + dl) by lia. destruct (re_continuation t).
    + destruct (skip_backslash t 0) as [u c]. apply shift_cont; [lia|].
      replace (off + d + blen t + 1) with (off + blen t + 1 + d) by lia. apply IH; lia.
    + apply sim_cons; [apply shift_at; auto|].
      replace (i + di + 1) with (i + 1 + di) by lia. 
      replace (off + d + 1) with (off + 1 + d) by lia. apply shift_first; [lia|].
      replace (off + 1 + d + blen t) with (off + 1 + blen t + d) by lia. apply IH; lia.
Qed.
Lemma shift_reader ts : sim (new_reader ts) (behind ts di (1 + dl) d).
Proof.
  destruct ts as [|t ts]; cbn [new_reader behind].
  - apply sim_eof; [reflexivity|]. unfold prel, shift, same. cbn. reflexivity.
  - apply (shift_first t _ _ 0 1 0 0); [lia|]. cbn [N.add]. rewrite (N.add_comm d). apply (shift_build ts _ 1); lia.
Qed.
Lemma shift_idx p p' q q' : prel sh same p p' -> prel sh same q q' -> (p_i p' =? p_i q' + 1) = (p_i p =? p_i q + 1).
Proof. unfold prel, same. intros <- <-. cbn [shift p_i]. lia. Qed.
Lemma sim_cells c c' : sim c c' -> map cell_of (view c') = map cell_of (view c).
Proof. induction 1; cbn [view map]; auto; try discriminate. rewrite IHsim. reflexivity. Qed.
End Shift.

(** * The commands found *)

Lemma alpha_not_digit r : isalpha r = true -> isdigit r = false.
Proof. unfold isalpha, isupper, islower, isdigit, between. lia. Qed.
Lemma read_upper c n c1 : read_cmd_name c = (n, c1) -> starts_upper n = true ->
  forallb isalpha n = true /\ spells n c c1 /\ (forall r, peek1 c1 = Some r -> isalpha r = false).
Proof.
  unfold read_cmd_name. destruct (o_is (peek1 c) (C "k")) eqn:E1; [intros H; injection H as <- <-; discriminate|].
  destruct (o_is (peek1 c) (C "s") && re_s_repeat (peekn 5 c)) eqn:E2; [intros H; injection H as <- <-; discriminate|].
  destruct (o_in is_special_cmd (peek1 c)) eqn:E3.
  { apply o_in_peek1 in E3. destruct E3 as [r [p [t [-> Hr]]]]. cbn [getn]. intros H; injection H as <- <-. cbn [starts_upper].
    unfold is_special_cmd in Hr. cbn in Hr. unfold isupper, between. lia. }
  destruct (text_eqb (peekn 2 c) (T "py")) eqn:E4.
  { apply text_eqb_eq in E4. unfold read_alnum. intros H Hu. exfalso. unfold peekn in E4.
    destruct c as [|[|r] p t]; cbn [getn fst] in E4; try discriminate. cbn [read_while] in H.
    destruct (isalnum r); [|injection H as <- <-; discriminate].
    destruct (read_while isalnum t). injection H as <- <-.
    assert (r = C "p"). { destruct t as [|[|r'] p' t']; cbn in E4; try discriminate; congruence. }
    subst r. discriminate. }
  unfold read_alpha. destruct (read_while isalpha c) as [nm c2] eqn:E5. pose proof (read_while_spells _ _ _ _ E5) as [Sp [Ha Hp]].
  destruct (negb (text_eqb nm (T "del")) && re_delete_lp nm) eqn:E6.
  - intros H Hu. exfalso. destruct (getn_firstn nm (length nm - 1) c c2 Sp ltac:(lia)) as [c' E7]. rewrite E7 in H. injection H as <- <-.
    apply andb_true_iff in E6. destruct E6 as [_ E6]. destruct nm as [|r nm]; [discriminate|].
    assert (r = C "d"). { unfold re_delete_lp in E6. apply mem_text_In in E6. cbn [flat_map app] in E6. repeat (destruct E6 as [E6|E6]; [injection E6 as <-; reflexivity|]). destruct E6. }
    subst r. destruct nm; discriminate.
  - intros H; injection H as <- <-. intros _. auto.
Qed.

Lemma assoc_cons w k (r : option cmd) ch : assoc_text w ((k, r) :: ch) = if text_eqb w k then Some r else assoc_text w ch.
Proof. reflexivity. Qed.
Lemma assoc_other w k (r : option cmd) ch : w <> k -> assoc_text w ((k, r) :: ch) = assoc_text w ch.
Proof. intros H. rewrite assoc_cons. destruct (text_eqb w k) eqn:E; auto. apply text_eqb_eq in E. congruence. Qed.
Lemma assoc_same k (r : option cmd) ch : assoc_text k ((k, r) :: ch) = Some r.
Proof. rewrite assoc_cons. replace (text_eqb k k) with true; auto. symmetry. apply text_eqb_eq. reflexivity. Qed.

Section Caches.
Context (neovim : bool).
Local Notation fc_ok := (FindBack.cache_ok neovim).
Local Notation answer := (FindBack.answer neovim).

(** What is found, by cases. *)
Definition user_of (n : text) : bool :=
  match lookup_builtin neovim n with None => starts_upper n | Some x => text_eqb (c_name x) (T "Print") && starts_upper n end.
Lemma find_eq c fr ch : find_command neovim (mkSt c fr ch) =
  let '(n, c1) := read_cmd_name c in
  if is_nil n then (None, mkSt c1 fr ch) else
  match assoc_text n ch with
  | Some r => (r, mkSt c1 fr ch)
  | None => if user_of n then (Some (user_cmd (n ++ fst (read_alnum c1))),
              mkSt (snd (read_alnum c1)) fr ((n ++ fst (read_alnum c1), Some (user_cmd (n ++ fst (read_alnum c1)))) :: ch))
            else (lookup_builtin neovim n, mkSt c1 fr ((n, lookup_builtin neovim n) :: ch))
  end.
Proof.
  unfold find_command, user_of. cbn [cur ctx cache]. destruct (read_cmd_name c) as [n c1]. destruct (is_nil n); [reflexivity|].
  destruct (assoc_text n ch); [reflexivity|]. cbv zeta. destruct (read_alnum c1). cbn [fst snd].
  destruct (match lookup_builtin neovim n with Some _ => _ | None => _ end); reflexivity.
Qed.
Lemma answer_user n : user_of n = true -> answer n = Some (user_cmd n).
Proof. unfold FindBack.answer, user_of. intros ->. reflexivity. Qed.
Lemma answer_table n : user_of n = false -> answer n = lookup_builtin neovim n.
Proof. unfold FindBack.answer, user_of. intros ->. reflexivity. Qed.
Lemma user_upper n : user_of n = true -> starts_upper n = true.
Proof. unfold user_of. destruct (lookup_builtin neovim n); auto. intros H. apply andb_true_iff in H. apply H. Qed.
Lemma alnum_none c1 : (forall r, peek1 c1 = Some r -> isalpha r = false) -> (forall r, peek1 c1 = Some r -> isdigit r = false) ->
  read_alnum c1 = ([], c1).
Proof.
  intros H1 H2. unfold read_alnum. destruct c1 as [|[|r] p t]; try reflexivity. cbn [read_while].
  assert (E : isalnum r = false) by (unfold isalnum; rewrite (H1 r eq_refl), (H2 r eq_refl); reflexivity).
  rewrite E. reflexivity.
Qed.
Lemma alnum_digit c1 r : peek1 c1 = Some r -> isdigit r = true -> forallb isalpha (fst (read_alnum c1)) = false.
Proof.
  intros H1 H2. unfold read_alnum. destruct c1 as [|[|x] p t]; try discriminate. cbn in H1. injection H1 as ->. cbn [read_while].
  assert (E : isalnum r = true) by (unfold isalnum; rewrite H2, ?orb_true_r; reflexivity).
  rewrite E. destruct (read_while isalnum t). cbn [fst forallb].
  destruct (isalpha r) eqn:Z; auto. apply alpha_not_digit in Z. congruence.
Qed.
Lemma fc_cons k r ch : fc_ok ch -> (FindBack.plain_key k -> r = answer k) -> fc_ok ((k, r) :: ch).
Proof. intros H1 H2. constructor; auto. Qed.

(** The entry a command not yet in the cache makes there is right, or its key is no key. *)
Lemma fc_new c n c1 ch : read_cmd_name c = (n, c1) -> fc_ok ch ->
  fc_ok (cache (snd (if user_of n then (Some (user_cmd (n ++ fst (read_alnum c1))),
              mkSt (snd (read_alnum c1)) [] ((n ++ fst (read_alnum c1), Some (user_cmd (n ++ fst (read_alnum c1)))) :: ch))
            else (lookup_builtin neovim n, mkSt c1 [] ((n, lookup_builtin neovim n) :: ch))))).
Proof.
  intros E H. destruct (user_of n) eqn:U; cbn [snd cache]; apply fc_cons; auto.
  - intros K. pose proof (user_upper _ U) as Up. destruct (read_upper _ _ _ E Up) as [Ha [Sp Hp]].
    assert (Hd : forall r, peek1 c1 = Some r -> isdigit r = false).
    { intros r Hr. destruct (isdigit r) eqn:Z; auto. exfalso. pose proof (alnum_digit _ _ Hr Z) as X.
      assert (Y : forallb isalpha (n ++ fst (read_alnum c1)) = true).
      { apply K. destruct n; [discriminate|exact Up]. }
      rewrite forallb_app, X, andb_false_r in Y. discriminate. }
    rewrite (alnum_none _ Hp Hd). cbn [fst]. rewrite app_nil_r. symmetry. apply answer_user; auto.
  - intros _. symmetry. apply answer_table; auto.
Qed.

(** ** The keys of a cache stand in the text *)

Context (B : cursor).
Definition stands (w : text) : Prop := exists pre post, map cell_of (view B) = pre ++ map R w ++ post.
Lemma stands_at c w d : sfx c B -> spells w c d -> stands w.
Proof.
  intros S1 S2. destruct (sfx_view _ _ S1) as [pre [E _]]. destruct (spells_view _ _ _ S2) as [mid [E2 E3]].
  exists (map cell_of pre), (map cell_of (view d)). rewrite E, E2, !map_app, E3. reflexivity.
Qed.
Definition keys_stand (ch : list (text * option cmd)) : Prop := forall k r, In (k, r) ch -> starts_upper k = true -> stands k.
Definition known (ch ch' : list (text * option cmd)) : Prop := ch' = ch /\ fc_ok ch /\ keys_stand ch.
Lemma known_found c : sfx c B -> same_found known neovim c.
Proof.
  intros Sx fr fr' ch ch' [-> [H1 H2]]. rewrite !find_eq. destruct (read_cmd_name c) as [n c1] eqn:E.
  destruct (is_nil n); [cbn; split; [|split]; auto; split; auto|]. destruct (assoc_text n ch) as [r|]; [cbn; split; [|split]; auto; split; auto|].
  pose proof (fc_new _ _ _ _ E H1) as N. destruct (user_of n) eqn:U; cbn [fst snd cur cache] in *.
  - split; auto. split; auto. split; auto. split; auto. intros k r [K|K]; [|exact (H2 k r K)]. injection K as <- <-. intros _.
    pose proof (user_upper _ U) as Up. destruct (read_upper _ _ _ E Up) as [Ha [Sp Hp]].
    apply (stands_at c _ (snd (read_alnum c1))); auto. apply spells_app. exists c1. split; [exact Sp|]. 
    unfold read_alnum. destruct (read_while isalnum c1) as [s c2] eqn:R1. apply read_while_spells in R1. apply R1.
  - split; auto. split; auto. split; auto. split; auto. intros k r [K|K]; [|exact (H2 k r K)]. injection K as <- <-. intros Up.
    destruct (read_upper _ _ _ E Up) as [Ha [Sp Hp]]. apply (stands_at c _ c1); auto.
Qed.

(** ** Two caches that agree on the words before digits *)

Definition digit_word (w : text) : Prop :=
  starts_upper w = true /\ forallb isalpha w = true /\ exists r, isdigit r = true /\ stands (w ++ [r]).
Definition alike (ch ch' : list (text * option cmd)) : Prop :=
  fc_ok ch /\ fc_ok ch' /\ forall w, digit_word w -> assoc_text w ch' = assoc_text w ch.
Lemma alike_cons k r ch ch' : alike ch ch' -> (FindBack.plain_key k -> r = answer k) -> alike ((k, r) :: ch) ((k, r) :: ch').
Proof.
  intros [H1 [H2 H3]] H. split; [apply fc_cons; auto|]. split; [apply fc_cons; auto|]. intros w Hw. rewrite !assoc_cons, (H3 _ Hw). reflexivity.
Qed.
Lemma alike_l k ch ch' : alike ch ch' -> ~ digit_word k -> alike ((k, answer k) :: ch) ch'.
Proof.
  intros [H1 [H2 H3]] H. split; [apply fc_cons; auto|]. split; auto. intros w Hw. rewrite assoc_other; auto. intros ->. auto.
Qed.
Lemma alike_r k ch ch' : alike ch ch' -> ~ digit_word k -> alike ch ((k, answer k) :: ch').
Proof.
  intros [H1 [H2 H3]] H. split; auto. split; [apply fc_cons; auto|]. intros w Hw. rewrite assoc_other; auto. intros ->. auto.
Qed.
(** The name ends before no digit: what is found does not depend on the cache. *)
Lemma find_plain c fr ch n c1 : read_cmd_name c = (n, c1) -> is_nil n = false -> fc_ok ch ->
  (starts_upper n = true -> forall r, peek1 c1 = Some r -> isdigit r = false) ->
  find_command neovim (mkSt c fr ch) = (answer n, mkSt c1 fr (match assoc_text n ch with Some _ => ch | None => (n, answer n) :: ch end)).
Proof.
  intros E Hn H1 Hd. rewrite find_eq, E, Hn. destruct (assoc_text n ch) as [r|] eqn:A.
  - f_equal. apply (FindBack.cached _ _ _ _ H1 A). intros Up. apply (read_upper _ _ _ E Up).
  - destruct (user_of n) eqn:U; [|rewrite (answer_table _ U); reflexivity]. pose proof (user_upper _ U) as Up.
    destruct (read_upper _ _ _ E Up) as [Ha [Sp Hp]]. rewrite (alnum_none _ Hp (Hd Up)). cbn [fst snd]. rewrite app_nil_r, (answer_user _ U). reflexivity.
Qed.
Lemma alike_found c : sfx c B -> same_found alike neovim c.
Proof.
  intros Sx fr fr' ch ch' A. destruct (read_cmd_name c) as [n c1] eqn:E.
  destruct (is_nil n) eqn:Hn; [rewrite !find_eq, E, Hn; cbn; auto|].
  destruct (starts_upper n && o_in isdigit (peek1 c1)) eqn:D.
  - apply andb_true_iff in D. destruct D as [Up D]. apply o_in_peek1 in D. destruct D as [r [p [t [Hc Hr]]]].
    destruct (read_upper _ _ _ E Up) as [Ha [Sp Hp]]. pose proof A as [H1 [H2 H3]].
    assert (Dw : digit_word n).
    { split; auto. split; auto. exists r. split; auto. apply (stands_at c _ t); auto. apply spells_app. exists c1. split; [exact Sp|]. subst c1. cbn [spells]. auto. }
    rewrite !find_eq, E, Hn, (H3 _ Dw). destruct (assoc_text n ch); [cbn; auto|].
    pose proof (fc_new _ _ _ _ E H1) as N1. 
    destruct (user_of n) eqn:U; cbn [fst snd cur cache] in *; (split; [reflexivity|]; split; [reflexivity|]); apply alike_cons; auto;
      inversion N1; auto.
  - assert (Hd : starts_upper n = true -> forall r, peek1 c1 = Some r -> isdigit r = false).
    { intros Up r Hr. rewrite Up, Hr in D. exact D. }
    pose proof A as [H1 [H2 H3]]. rewrite (find_plain _ _ _ _ _ E Hn H1 Hd), (find_plain _ _ _ _ _ E Hn H2 Hd). cbn [fst snd cur cache].
    split; auto. split; auto. destruct (assoc_text n ch) eqn:A1, (assoc_text n ch') eqn:A2; auto.
    + apply alike_r; auto. intros Dw. rewrite (H3 _ Dw) in A2. congruence.
    + apply alike_l; auto. intros Dw. rewrite (H3 _ Dw) in A2. congruence.
    + apply alike_cons; auto.
Qed.
End Caches.

(** * The whole text *)

Lemma inv_start neovim B : inv neovim B (mkSt B [mkFrame FTop (getpos B) ea0 []] []).
Proof. split; [constructor|]. exists top_place, B. cbn [ctx cur]. split; [|constructor]. apply ob_top. constructor. Qed.
Lemma map_ea_same e : map_ea same e = e.
Proof. destruct e; unfold map_ea; cbn; f_equal; match goal with |- option_map _ ?o = _ => destruct o; reflexivity end. Qed.
Lemma same_vsrel l l' : vsrel same same l l' -> l' = l.
Proof.
  unfold vsrel. intros H. assert (G : forall k, map (map_pos same) k = k).
  { intros k. rewrite (map_ext _ (fun v => v)) by (intros v; apply map_pos_same). apply map_id. }
  rewrite !G in H. auto.
Qed.
Lemma same_top p e body fs : ctxrel same same [mkFrame FTop p e body] fs -> fs = [mkFrame FTop p e body].
Proof.
  intros X. destruct fs as [|f fs]; [discriminate|]. destruct fs as [|? ?]; [|discriminate].
  apply ctx_inv in X. destruct X as [X _]. apply kind_inv in X. destruct X as [X1 [X2 [X3 X4]]]. destruct f as [k p' e' b'].
  cbn [f_kind f_pos f_ea f_body map_kind] in *. destruct k; cbn [map_kind] in X1; try discriminate.
  apply same_vsrel in X4. unfold prel, same in X2. subst. f_equal. f_equal. unfold earel in X3. rewrite !map_ea_same in X3. auto.
Qed.
Lemma top_only neovim B w e f fs : opens neovim B w e (f :: fs) -> f_kind f = FTop -> exists body, f :: fs = [mkFrame FTop (getpos B) ea0 body].
Proof. intros H K. inversion H; subst; cbn [f_kind] in K; try discriminate. eauto. Qed.
(** The state the parser ends in when it returns a tree. *)
Lemma parsed_state neovim B p body : wf B -> vim_parse neovim B = Ok (VToplevel p body) ->
  exists c ch, cmds_loop neovim (S (clen B)) (mkSt B [mkFrame FTop (getpos B) ea0 []] []) = Ok (mkSt c [mkFrame FTop p ea0 body] ch) /\ p = getpos B.
Proof.
  intros W E. unfold vim_parse in E. destruct (cmds_loop neovim (S (clen B)) _) as [a| | |] eqn:Ea; try discriminate. cbn [bind] in E.
  pose proof (csafe_ok _ _ _ _ _ (loop_safe neovim B W _ _ (inv_start neovim B) (Nat.lt_succ_diag_r _)) Ea) as [[_ [w [e [Ho _]]]] _].
  unfold top_frame, check_missing_if_try_loops in E. destruct a as [c [|f fs] ch]; cbn [ctx cur] in *; [discriminate|]. cbn [bind] in E.
  destruct (is_function (f_kind f)) eqn:K1; [discriminate|].
  destruct (is_if_part (f_kind f)) eqn:K2; [discriminate|].
  destruct (is_try_part (f_kind f)) eqn:K3; [discriminate|].
  destruct (is_while (f_kind f)) eqn:K4; [discriminate|].
  destruct (is_for (f_kind f)) eqn:K5; [discriminate|]. cbn [bind] in E.
  assert (Ek : f_kind f = FTop) by (destruct (f_kind f); try discriminate; auto).
  destruct (top_only _ _ _ _ _ _ Ho Ek) as [body' Eb]. injection Eb as -> ->. cbn [f_pos f_body] in E. injection E as <- <-. eauto.
Qed.
Definition closed_body (body : list vnode) : Prop :=
  existsb fin_node body = false /\ match rev body with v :: _ => open_node v = false | [] => True end.
Definition after (tsA tsB : list text) : cursor :=
  behind tsB (N.of_nat (clen (new_reader tsA))) (1 + N.of_nat (length tsA)) (line_bytes tsA).
Lemma first_part neovim tsA tsB p body : tsA <> [] -> starts_line tsB -> wf (new_reader tsA) -> wf (new_reader (tsA ++ tsB)) ->
  vim_parse neovim (new_reader tsA) = Ok (VToplevel p body) -> closed_body body ->
  let c := new_reader (tsA ++ tsB) in
  exists k ch, (forall m, cmds_loop neovim (k + m) (mkSt c [mkFrame FTop (getpos c) ea0 []] []) =
      cmds_loop neovim m (mkSt (after tsA tsB) [mkFrame FTop p ea0 body] ch)) /\
    (k + clen (after tsA tsB) <= clen c)%nat /\ sfx (after tsA tsB) c /\
    FindBack.cache_ok neovim ch /\ keys_stand (new_reader tsA) ch.
Proof.
  intros N SB WA WAB E [Hf Ho]. cbv zeta. destruct (parsed_state _ _ _ _ WA E) as [c1 [ch [El Ep]]].
  destruct tsA as [|t ts]; [congruence|]. clear N. pose proof (behind_open t ts tsB SB) as Sm. cbv zeta in Sm. fold (after (t :: ts) tsB) in Sm.
  match type of Sm with sim _ (Eof ?q) _ _ _ _ _ => set (q0 := q) in *; clearbody q0 end.
  pose proof (sim_pos _ _ _ _ _ _ _ Sm) as P. unfold prel, same in P.
  destruct (loop_reach neovim same same same_idx q0 (after (t :: ts) tsB) _ _ WA WAB (S (clen (new_reader (t :: ts))))
    (mkSt (new_reader (t :: ts)) [mkFrame FTop (getpos (new_reader (t :: ts))) ea0 []] [])
    (mkSt (new_reader ((t :: ts) ++ tsB)) [mkFrame FTop (getpos (new_reader ((t :: ts) ++ tsB))) ea0 []] []) (mkSt c1 [mkFrame FTop p ea0 body] ch))
    as [k [b' [K1 [K2 [K3 [K4 K5]]]]]]; auto using inv_start.
  { split; [exact Sm|]. split; [|reflexivity]. cbn [ctx]. rewrite P. reflexivity. }
  { cbn [ctx fin existsb fin_frame]. unfold fin_frame. cbn [f_kind f_body]. rewrite Hf. reflexivity. }
  { cbn [ctx open_tail f_body]. destruct (rev body); auto. }
  cbn [ctx cache cur] in *. apply same_top in K4. exists k, ch. destruct b' as [cb fb hb]. cbn [cur ctx cache] in *. subst cb fb hb.
  split; [exact K1|]. split; [exact K2|]. split.
  { clear - Sm. induction Sm; try discriminate; [apply sfx_cons, sfx_refl|apply sfx_cons; auto]. }
  pose proof (loop_g (getpos (new_reader (t :: ts))) [] (known neovim (new_reader (t :: ts))) neovim (new_reader (t :: ts)) WA (known_found neovim (new_reader (t :: ts)))
    (S (clen (new_reader (t :: ts)))) _ (mkSt (new_reader (t :: ts)) [mkFrame FTop (getpos (new_reader (t :: ts))) ea0 []] []) (inv_start neovim (new_reader (t :: ts)))) as G.
  rewrite El in G. cbn [gout] in G. set (B := new_reader (t :: ts)) in *.
  assert (G0 : known neovim B ch ch).
  { assert (Z : forall x y, grel (getpos B) [] (known neovim B) x y -> known neovim B (cache x) (cache y)) by (intros ? ? []; auto).
    assert (Y : grel (getpos B) [] (known neovim B) (mkSt B [mkFrame FTop (getpos B) ea0 []] []) (mkSt B [mkFrame FTop (getpos B) ea0 []] [])).
    { change [mkFrame FTop (getpos B) ea0 []] with (graft (getpos B) [] [mkFrame FTop (getpos B) ea0 []]) at 2.
      apply gr_intro; [discriminate|]. split; [reflexivity|]. split; [constructor|intros ? ? []]. }
    exact (Z _ _ (G Y)). }
  destruct G0 as [_ [G1 G2]]. auto.
Qed.

Definition shift_by (tsA : list text) : pos -> pos :=
  shift (N.of_nat (clen (new_reader tsA))) (N.of_nat (length tsA)) (line_bytes tsA).
Lemma kind_rel_top h h' f f' : frel h h' f f' -> f_kind f = FTop -> f_kind f' = FTop.
Proof. intros H K. apply kind_inv in H. destruct H as [H _]. rewrite K in H. destruct (f_kind f'); cbn [map_kind] in H; try discriminate; auto. Qed.
Lemma digit_word_cells B B' w : map cell_of (view B) = map cell_of (view B') -> digit_word B w -> digit_word B' w.
Proof. intros E [H1 [H2 [r [H3 [pre [post H4]]]]]]. split; auto. split; auto. exists r. split; auto. exists pre, post. rewrite <- E. auto. Qed.
Lemma assoc_none w (ch : list (text * option cmd)) : (forall r, ~ In (w, r) ch) -> assoc_text w ch = None.
Proof.
  induction ch as [|[k r] ch IH]; intros H; [reflexivity|]. rewrite assoc_cons. destruct (text_eqb w k) eqn:E.
  - apply text_eqb_eq in E. subst k. destruct (H r). left; auto.
  - apply IH. intros r' Hr. apply (H r'). right; auto.
Qed.
(** What [vim_parse] does with the state in which its loop ends. *)
Definition parse_end (st : pstate) : outcome vnode :=
  let* f := top_frame st in
  if is_function (f_kind f) then raise (T "E126: Missing :endfunction:    TOPLEVEL") (getpos (cur st))
  else let* _ := check_missing_if_try_loops (T "TOPLEVEL") (getpos (cur st)) f in Ok (VToplevel (f_pos f) (f_body f)).
Lemma rest_sequel neovim h B F p body ch m :
  (forall p0 p' q q', prel h same p0 p' -> prel h same q q' -> (p_i p' =? p_i q' + 1) = (p_i p0 =? p_i q + 1)) ->
  wf F -> sim false (Eof (mkPos 0 0 0 0)) (Eof (mkPos 0 0 0 0)) h same B F -> (clen F < m)%nat -> alike neovim F [] ch ->
  match vim_parse neovim B, bind (cmds_loop neovim m (mkSt F [mkFrame FTop p ea0 body] ch)) parse_end with
  | OutOfFuel, _ | _, OutOfFuel => True
  | Ok v, Ok v' => exists q vs, v = VToplevel q vs /\ v' = VToplevel p (body ++ map (map_pos h) vs)
  | PErr e, PErr e' => exists m q, e = Err_ m q /\ e' = Err_ m (h q)
  | Panic k, Panic k' => k' = k
  | _, _ => False
  end.
Proof.
  intros Hidx WF Sm Lm Al. unfold vim_parse, parse_end.
  set (sB := mkSt B [mkFrame FTop (getpos B) ea0 []] []). set (sF := mkSt F [mkFrame FTop (getpos F) ea0 []] []).
  assert (R : orel false (Eof (mkPos 0 0 0 0)) (Eof (mkPos 0 0 0 0)) h same (srel false (Eof (mkPos 0 0 0 0)) (Eof (mkPos 0 0 0 0)) h same) (cmds_loop neovim (S (clen B)) sB) (cmds_loop neovim m sF)).
  { apply loop_closed; [exact Hidx|]. split; [exact Sm|]. split; [|reflexivity]. cbn [ctx sB sF]. unfold ctxrel. cbn [map]. f_equal.
    unfold map_frame. cbn [f_kind f_pos f_ea f_body map_kind]. rewrite (sim_pos _ _ _ _ _ _ _ Sm). reflexivity. }
  assert (G : gout (grel p body (alike neovim F)) (cmds_loop neovim m sF) (cmds_loop neovim m (mkSt F [mkFrame FTop p ea0 body] ch))).
  { apply (loop_g p body (alike neovim F) neovim F WF (alike_found neovim F)); [apply inv_start|].
    replace [mkFrame FTop p ea0 body] with (graft p body [mkFrame FTop (getpos F) ea0 []]) by (cbn [graft base f_kind f_ea f_body]; unfold base; cbn [f_kind f_ea f_body]; rewrite app_nil_r; reflexivity).
    apply gr_intro; [discriminate|exact Al]. }
  apply orel_closed in R; [|reflexivity].
  pose proof (loop_safe neovim F WF m sF (inv_start neovim F) Lm) as Sf.
  destruct (cmds_loop neovim (S (clen B)) sB) as [a|e|x|]; [| | |exact I];
    destruct (cmds_loop neovim m sF) as [b|e1|x1|]; cbn [csafe] in Sf; try contradiction; cbn [orel] in R; try contradiction; try discriminate R;
    destruct (cmds_loop neovim m (mkSt F [mkFrame FTop p ea0 body] ch)) as [b'|e2|x2|]; cbn [gout] in G; try contradiction; cbn [bind].
  - destruct Sf as [[_ [w [e [Ho _]]]] _]. destruct R as [Sa [Xa _]]. destruct G as [cb fb hb hb' Nb _]. unfold top_frame. cbn [cur ctx] in *.
    destruct a as [ca fa ha]. cbn [cur ctx] in *. destruct fa as [|f fs]; [destruct fb; [congruence|discriminate]|].
    destruct fb as [|f' fs']; [congruence|]. apply ctx_inv in Xa. destruct Xa as [Xf _].
    destruct (graft_cons p body f' fs') as [g [Eg [Kg _]]]. rewrite Eg. cbn [bind]. pose proof (sim_pos _ _ _ _ _ _ _ Sa) as P. unfold prel, same in P.
    assert (Ki : forall kd : fkind -> bool, (forall h0 k0, kd (map_kind h0 k0) = kd k0) -> kd (f_kind g) = kd (f_kind f)).
    { intros kd Hk. rewrite Kg. apply (is_kind_rel _ _ kd _ _ Hk Xf). }
    rewrite (Ki is_function gi_fun).
    destruct (is_function (f_kind f)) eqn:Q1. { cbn. do 2 eexists. split; [reflexivity|]. rewrite <- P. reflexivity. }
    unfold check_missing_if_try_loops. rewrite (Ki is_if_part), (Ki is_try_part), (Ki is_while), (Ki is_for) by (intros ? []; reflexivity).
    destruct (is_if_part (f_kind f)) eqn:Q2. { cbn. do 2 eexists. split; [reflexivity|]. rewrite <- P. reflexivity. }
    destruct (is_try_part (f_kind f)) eqn:Q3. { cbn. do 2 eexists. split; [reflexivity|]. rewrite <- P. reflexivity. }
    destruct (is_while (f_kind f)) eqn:Q4. { cbn. do 2 eexists. split; [reflexivity|]. rewrite <- P. reflexivity. }
    destruct (is_for (f_kind f)) eqn:Q5. { cbn. do 2 eexists. split; [reflexivity|]. rewrite <- P. reflexivity. }
    cbn [bind]. do 2 eexists. split; [reflexivity|].
    assert (Ek : f_kind f = FTop) by (destruct (f_kind f); try discriminate; auto).
    pose proof (kind_rel_top _ _ _ _ Xf Ek) as Ek'. destruct (top_only _ _ _ _ _ _ Ho Ek') as [bd Eb]. injection Eb as -> ->.
    cbn [graft] in Eg. injection Eg as <-. cbn [base f_pos f_body]. f_equal. f_equal.
    apply kind_inv in Xf. destruct Xf as [_ [_ [_ Xb]]]. unfold vsrel in Xb. cbn [f_body] in Xb.
    rewrite Xb. rewrite (map_ext _ (fun v => v)) by (intros v; apply map_pos_same). rewrite map_id. reflexivity.
  - destruct R as [mm [q [q' [P [-> ->]]]]]. exists mm, q. split; auto. subst e2. unfold prel, same in P. rewrite P. reflexivity.
  - rewrite <- G. symmetry. exact R.
Qed.

Lemma vim_sequel0 neovim tsA tsB K p body : 
  wf (new_reader tsB) -> wf (new_reader (tsA ++ tsB)) ->
  (forall w, digit_word (new_reader tsB) w -> ~ stands K w) ->
  (exists k ch, (forall m, cmds_loop neovim (k + m) (mkSt (new_reader (tsA ++ tsB)) [mkFrame FTop (getpos (new_reader (tsA ++ tsB))) ea0 []] []) =
      cmds_loop neovim m (mkSt (after tsA tsB) [mkFrame FTop p ea0 body] ch)) /\
    (k + clen (after tsA tsB) <= clen (new_reader (tsA ++ tsB)))%nat /\ sfx (after tsA tsB) (new_reader (tsA ++ tsB)) /\
    FindBack.cache_ok neovim ch /\ keys_stand K ch) ->
  match vim_parse neovim (new_reader tsB), vim_parse neovim (new_reader (tsA ++ tsB)) with
  | OutOfFuel, _ | _, OutOfFuel => True
  | Ok v, Ok v' => exists q vs, v = VToplevel q vs /\ v' = VToplevel p (body ++ map (map_pos (shift_by tsA)) vs)
  | PErr e, PErr e' => exists m q, e = Err_ m q /\ e' = Err_ m (shift_by tsA q)
  | Panic k, Panic k' => k' = k
  | _, _ => False
  end.
Proof.
  intros WB WAB Hap [k [ch [K1 [K2 [K3 [K4 K5]]]]]].
  set (F := after tsA tsB) in *. pose proof (wf_sfx _ _ K3 WAB) as WF.
  set (AB := new_reader (tsA ++ tsB)) in *. set (m := (S (clen AB) - k)%nat).
  assert (Em : S (clen AB) = (k + m)%nat) by lia. assert (Lm : (clen F < m)%nat) by lia. clearbody m.
  assert (VAB : vim_parse neovim AB = bind (cmds_loop neovim m (mkSt F [mkFrame FTop p ea0 body] ch)) parse_end).
  { rewrite <- K1, <- Em. reflexivity. }
  clear K1. rewrite VAB. clear VAB. set (B := new_reader tsB) in *.
  assert (Sm : sim false (Eof (mkPos 0 0 0 0)) (Eof (mkPos 0 0 0 0)) (shift_by tsA) same B F) by apply shift_reader.
  apply rest_sequel; auto; [apply shift_idx|]. split; [constructor|]. split; auto. intros w Hw. cbn [assoc_text]. apply assoc_none. intros r Hr.
  apply (Hap w). apply (digit_word_cells F); auto. apply (sim_cells _ _ _ _ _ _ _ Sm). apply (K5 _ _ Hr). apply Hw.
Qed.
Lemma vim_sequel neovim tsA tsB p body : tsA <> [] -> starts_line tsB ->
  wf (new_reader tsA) -> wf (new_reader tsB) -> wf (new_reader (tsA ++ tsB)) ->
  (forall w, digit_word (new_reader tsB) w -> ~ stands (new_reader tsA) w) ->
  vim_parse neovim (new_reader tsA) = Ok (VToplevel p body) -> closed_body body ->
  match vim_parse neovim (new_reader tsB), vim_parse neovim (new_reader (tsA ++ tsB)) with
  | OutOfFuel, _ | _, OutOfFuel => True
  | Ok v, Ok v' => exists q vs, v = VToplevel q vs /\ v' = VToplevel p (body ++ map (map_pos (shift_by tsA)) vs)
  | PErr e, PErr e' => exists m q, e = Err_ m q /\ e' = Err_ m (shift_by tsA q)
  | Panic k, Panic k' => k' = k
  | _, _ => False
  end.
Proof.
  intros N SB WA WB WAB Hap E Hc. apply (vim_sequel0 neovim tsA tsB (new_reader tsA)); auto. exact (first_part _ _ _ _ _ N SB WA WAB E Hc).
Qed.

(** ** The first text with a comment line behind it *)

Lemma sim_pair q F1 F2 c c1 : sim true (Eof q) F1 same same c c1 -> forall c2, sim true (Eof q) F2 same same c c2 -> sim true F1 F2 same same c1 c2.
Proof.
  intros H. induction H as [p p' O _|p p' _ P|x p p' c c' P H IH]; intros c2 H2; [discriminate| |].
  - inversion H2 as [|? ? ? P2|? ? ? ? ? P2 H3]; subst; [|inversion H3; discriminate].
    apply sim_last; auto. unfold prel in *. congruence.
  - inversion H2 as [|? ? ? P2|? ? ? ? ? P2 H3]; subst; [inversion H; discriminate|].
    apply sim_cons; auto. unfold prel in *. congruence.
Qed.
Definition quote_line : text := T """".
Lemma quote_starts : starts_line [quote_line].
Proof. intros l r E. injection E as <- <-. intros H. apply continuation_iff in H. discriminate H. Qed.
Lemma quote_probe i l o : exists p1 p2 p3, behind [quote_line] i l o = Cons (R 34) p1 (Cons EOL p2 (Eof p3)).
Proof. do 3 eexists. reflexivity. Qed.
Lemma quote_step neovim n p1 p2 p3 fs ch b : cmds_loop neovim n (mkSt (Cons (R 34) p1 (Cons EOL p2 (Eof p3))) fs ch) = Ok b ->
  exists f r, fs = f :: r /\ b = mkSt (Eof p3) (add_body (VComment p1 []) f :: r) ch.
Proof.
  destruct n as [|n]; [discriminate|]. cbn [cmds_loop cur is_eof]. destruct fs as [|f r]; [discriminate|].
  change (parse_one_cmd neovim (mkSt (Cons (R 34) p1 (Cons EOL p2 (Eof p3))) (f :: r) ch)) with (Ok (mkSt (Eof p3) (add_body (VComment p1 []) f :: r) ch)).
  cbn [bind]. destruct n as [|n]; [discriminate|]. cbn [cmds_loop cur is_eof]. intros E. injection E as <-. eauto.
Qed.
Lemma first_probe neovim tsA tsB p body cp ct : tsA <> [] -> starts_line tsB -> wf (new_reader (tsA ++ [quote_line])) -> wf (new_reader (tsA ++ tsB)) ->
  vim_parse neovim (new_reader (tsA ++ [quote_line])) = Ok (VToplevel p (body ++ [VComment cp ct])) ->
  let c := new_reader (tsA ++ tsB) in
  exists k ch, (forall m, cmds_loop neovim (k + m) (mkSt c [mkFrame FTop (getpos c) ea0 []] []) =
      cmds_loop neovim m (mkSt (after tsA tsB) [mkFrame FTop p ea0 body] ch)) /\
    (k + clen (after tsA tsB) <= clen c)%nat /\ sfx (after tsA tsB) c /\
    FindBack.cache_ok neovim ch /\ keys_stand (new_reader (tsA ++ [quote_line])) ch.
Proof.
  intros N SB WP WAB E. cbv zeta. destruct (parsed_state _ _ _ _ WP E) as [c1 [ch [El Ep]]].
  destruct tsA as [|t ts]; [congruence|]. clear N. pose proof (behind_open t ts tsB SB) as Sm. cbv zeta in Sm. fold (after (t :: ts) tsB) in Sm.
  pose proof (behind_open t ts _ quote_starts) as Sp. cbv zeta in Sp. fold (after (t :: ts) [quote_line]) in Sp.
  assert (Fp : exists p1 p2 p3, after (t :: ts) [quote_line] = Cons (R 34) p1 (Cons EOL p2 (Eof p3))) by apply quote_probe.
  pose proof (sim_pair _ _ _ _ _ Sp _ Sm) as S0. clear Sm Sp. set (F := after (t :: ts) [quote_line]) in *. clearbody F.
  set (P := new_reader ((t :: ts) ++ [quote_line])) in *. set (AB := new_reader ((t :: ts) ++ tsB)) in *.
  pose proof (sim_pos _ _ _ _ _ _ _ S0) as Q. unfold prel, same in Q. destruct Fp as [p1 [p2 [p3 Fp]]].
  destruct (loop_probe neovim same same same_idx F (after (t :: ts) tsB) P AB WP WAB ltac:(rewrite Fp; reflexivity) (S (clen P))
    (mkSt P [mkFrame FTop (getpos P) ea0 []] []) (mkSt AB [mkFrame FTop (getpos AB) ea0 []] []) (mkSt c1 [mkFrame FTop p ea0 (body ++ [VComment cp ct])] ch))
    as [k [n0 [a [a' [K1 [K2 [K3 [K4 [K5 [K6 [K7 [K8 K9]]]]]]]]]]]]; auto using inv_start.
  { split; [exact S0|]. split; [|reflexivity]. cbn [ctx]. rewrite Q. reflexivity. }
  { cbn [ctx comment_tail f_body]. rewrite rev_app_distr. reflexivity. }
  destruct a as [ca fa ha], a' as [ca' fa' ha']. cbn [cur ctx cache] in *. subst ca ca' ha'.
  rewrite Fp in K1. apply quote_step in K1. destruct K1 as [f [r [-> Eb]]].
  pose proof (f_equal ctx Eb) as Ec. pose proof (f_equal cache Eb) as Eh. cbn [ctx cache] in Ec, Eh. subst ha. clear Eb.
  assert (Er : r = []) by (injection Ec; auto). subst r.
  assert (Ef : f = mkFrame FTop p ea0 body).
  { destruct f as [fk fp fe fb]. unfold add_body in Ec. cbn [f_kind f_pos f_ea f_body] in Ec.
    assert (E1 : fk = FTop) by congruence. assert (E2 : fp = p) by congruence. assert (E3 : fe = ea0) by congruence.
    assert (E4 : body ++ [VComment cp ct] = fb ++ [VComment p1 []]) by congruence. apply app_inj_tail in E4. destruct E4 as [<- _]. congruence. }
  subst f. apply same_top in K5. subst fa'. exists k, ch. split; [exact K8|]. split; [exact K9|]. split.
  { clear - S0. induction S0; try discriminate; [apply sfx_cons, sfx_refl|apply sfx_cons; auto]. }
  pose proof (loop_g (getpos P) [] (known neovim P) neovim P WP (known_found neovim P)
    (S (clen P)) _ (mkSt P [mkFrame FTop (getpos P) ea0 []] []) (inv_start neovim P)) as G.
  rewrite El in G. cbn [gout] in G.
  assert (G0 : known neovim P ch ch).
  { assert (Z : forall x y, grel (getpos P) [] (known neovim P) x y -> known neovim P (cache x) (cache y)) by (intros ? ? []; auto).
    assert (Y : grel (getpos P) [] (known neovim P) (mkSt P [mkFrame FTop (getpos P) ea0 []] []) (mkSt P [mkFrame FTop (getpos P) ea0 []] [])).
    { change [mkFrame FTop (getpos P) ea0 []] with (graft (getpos P) [] [mkFrame FTop (getpos P) ea0 []]) at 2.
      apply gr_intro; [discriminate|]. split; [reflexivity|]. split; [constructor|intros ? ? []]. }
    exact (Z _ _ (G Y)). }
  destruct G0 as [_ [G1 G2]]. auto.
Qed.

(** * The functions of the package *)

Lemma sequel_table : forallb (fun x =>
  (negb (text_eqb (c_parser x) (T "parse_cmd_finish")) || text_eqb (c_name x) (T "finish")) &&
  (negb (mem_text (c_parser x) open_parsers) || mem_text (c_name x) line_readers))
  (neovim_additional_commands ++ builtin_commands) = true.
Proof. vm_compute. reflexivity. Qed.
Lemma sequel_named neovim s x : named neovim s x ->
  (c_parser x = T "parse_cmd_finish" -> c_name x = T "finish") /\
  (mem_text (c_parser x) open_parsers = true -> In (c_name x) line_readers).
Proof.
  intros H. destruct (named_table _ _ _ H) as [K|[U ->]].
  - pose proof sequel_table as G. rewrite forallb_forall in G. specialize (G _ K). apply andb_true_iff in G. destruct G as [G1 G2]. split.
    + intros E. rewrite E in G1. apply text_eqb_eq. exact G1.
    + intros E. rewrite E in G2. apply mem_text_In. exact G2.
  - split; intros E; vm_compute in E; discriminate E.
Qed.
Lemma mapM_app {A A'} (g : A -> outcome A') l1 l2 r1 r2 : mapM g l1 = Ok r1 -> mapM g l2 = Ok r2 -> mapM g (l1 ++ l2) = Ok (r1 ++ r2).
Proof.
  revert r1. induction l1 as [|x l1 IH]; cbn [mapM app]; intros r1 H1 H2; [injection H1 as <-; exact H2|].
  destruct (g x) as [y| | |]; try discriminate. cbn [bind] in *. destruct (mapM g l1) as [ys| | |]; try discriminate. cbn [bind] in *.
  injection H1 as <-. rewrite (IH _ eq_refl H2). reflexivity.
Qed.
Lemma mapM_split {A A'} (g : A -> outcome A') l1 l2 r : mapM g (l1 ++ l2) = Ok r -> exists r1 r2, r = r1 ++ r2 /\ mapM g l1 = Ok r1 /\ mapM g l2 = Ok r2.
Proof.
  revert r. induction l1 as [|x l1 IH]; cbn [mapM app]; intros r H; [exists [], r; auto|].
  destruct (g x) as [y| | |]; try discriminate. cbn [bind] in *. destruct (mapM g (l1 ++ l2)) as [ys| | |]; try discriminate. cbn [bind] in *.
  destruct (IH _ eq_refl) as [r1 [r2 [-> [E1 E2]]]]. injection H as <-. exists (y :: r1), r2. rewrite E1. auto.
Qed.
Definition export_stmt (file : list N) (x : vnode) : outcome node := let* y := new_ast file x in assert_node is_stmt y.
Lemma export_excmd file p e s n : export_stmt file (VExcmd p e s) = Ok n -> n = NExcmd (new_pos file p) s (new_exarg file e).
Proof. unfold export_stmt. cbn. intros H. injection H as <-. reflexivity. Qed.
Lemma contained_closed nv B file p body a : script nv B (VToplevel p body) -> mapM (export_stmt file) body = Ok a -> self_contained a -> closed_body body.
Proof.
  intros [vs [c1 [c' [Ev [Hb _]]]]] E [H1 H2]. injection Ev as -> <-.
  pose proof (block_any nv B _ _ _ _ Hb (sfx_refl _)) as Kd. rewrite Forall_forall in Kd.
  assert (Nm : forall q e s x, In (VExcmd q e s) body -> ea_cmd e = Some x -> exists t, named nv t x).
  { intros q e s x Hin Hx. specialize (Kd _ Hin). destruct (derived_command _ _ _ _ _ e Kd eq_refl) as [[p1 [s1 [Z1 Z]]]|[x1 [s1 [K0 [K1 [K2 [K3 K4]]]]]]]; [congruence|].
    rewrite Hx in K0. injection K0 as <-. eauto. }
  split.
  - destruct (existsb fin_node body) eqn:X; auto. exfalso. apply existsb_exists in X. destruct X as [v [Hin Hv]].
    apply in_split in Hin as [l1 [l2 El]]. rewrite El in E. apply mapM_split in E. destruct E as [r1 [r2 [-> [E1 E2]]]]. cbn [mapM] in E2.
    destruct (export_stmt file v) as [n| | |] eqn:En; try discriminate. cbn [bind] in E2. destruct (mapM (export_stmt file) l2); try discriminate. injection E2 as <-.
    assert (exists q e s, v = VExcmd q e s) as [q [e [s ->]]] by (destruct v; try discriminate Hv; eauto). cbn [fin_node] in Hv. destruct (ea_cmd e) as [x|] eqn:Ex; [|discriminate]. apply export_excmd in En.
    destruct (Nm q e s x) as [t Ht]; auto. { rewrite El. apply in_elt. }
    apply (H1 n). { apply in_elt. } subst n. do 4 eexists. split; [reflexivity|]. split; [exact Ex|]. left. symmetry. apply (proj1 (sequel_named _ _ _ Ht)). apply text_eqb_eq; auto.
  - destruct (rev body) as [|v l] eqn:X; auto. apply (f_equal (@rev _)) in X. rewrite rev_involutive in X. cbn [rev] in X.
    destruct (open_node v) eqn:Hv; auto. exfalso. rewrite X in E. apply mapM_split in E. destruct E as [r1 [r2 [-> [E1 E2]]]]. cbn [mapM] in E2.
    destruct (export_stmt file v) as [n| | |] eqn:En; try discriminate. cbn [bind] in E2. injection E2 as <-.
    assert (exists q e s, v = VExcmd q e s) as [q [e [s ->]]] by (destruct v; try discriminate Hv; eauto). cbn [open_node] in Hv. destruct (ea_cmd e) as [x|] eqn:Ex; [|discriminate]. apply export_excmd in En.
    destruct (Nm q e s x) as [t Ht]; auto. { rewrite X. apply in_elt. }
    apply (H2 n r1 eq_refl). subst n. do 4 eexists. split; [reflexivity|]. split; [exact Ex|]. apply (proj2 (sequel_named _ _ _ Ht)); auto.
Qed.
Lemma occurs_stands bs b w : occurs bs w <-> stands (open_source (mkSource bs b)) w.
Proof.
  split.
  - intros [cells [pre [post [H1 H2]]]]. apply (source_view _ b) in H1. subst cells. exists pre, post. exact H2.
  - intros [pre [post H]]. exists (view (open_source (mkSource bs b))), pre, post. split; auto. apply (source_view _ b). reflexivity.
Qed.
Lemma capital_upper w : starts_upper w = true -> forallb isalpha w = true -> capital_word w.
Proof.
  destruct w as [|r w]; [discriminate|]. cbn [starts_upper forallb]. intros U H. apply andb_true_iff in H. destruct H as [_ H].
  exists r, w. split; auto. unfold isupper, between in U. split; [lia|]. apply Forall_forall. rewrite forallb_forall in H. intros x Hx.
  specialize (H x Hx). unfold isalpha, isupper, islower, between in H. lia.
Qed.
Lemma view_length c : length (view c) = clen c.
Proof. induction c; cbn [view clen length]; auto. Qed.

(** What the two runs of the parser give is what the package returns. *)
Lemma sequel_export {U} bsB bs rb r tsA tsB (cells : list U) file opt p vs a :
  seen_lines bsB tsB -> seen_lines bs (tsA ++ tsB) -> length cells = clen (new_reader tsA) -> mapM (export_stmt file) vs = Ok a ->
  match vim_parse (neovim_of opt) (new_reader tsB), vim_parse (neovim_of opt) (new_reader (tsA ++ tsB)) with
  | OutOfFuel, _ | _, OutOfFuel => True
  | Ok v, Ok v' => exists q vb, v = VToplevel q vb /\ v' = VToplevel p (vs ++ map (map_pos (shift_by tsA)) vb)
  | PErr e, PErr e' => exists m q, e = Err_ m q /\ e' = Err_ m (shift_by tsA q)
  | Panic k, Panic k' => k' = k
  | _, _ => False
  end ->
  (forall q b, ParseFile (mkSource bsB rb) file opt = Returned (NFile q b) ->
     ParseFile (mkSource bs r) file opt =
       Returned (NFile (new_pos file p) (a ++ map (map_node (moved (line_bytes tsA) (N.of_nat (length tsA)))) b))) /\
  (forall e, ParseFile (mkSource bsB rb) file opt = Failed e ->
     ParseFile (mkSource bs r) file opt = Failed (moved_error (N.of_nat (length cells)) (N.of_nat (length tsA)) e)).
Proof.
  intros LB L Lc Ea G.
  pose proof (open_source_wf (mkSource bsB rb)) as WB.
  pose proof (ParseFile_returns (mkSource bs r) file opt) as N2.
  pose proof (vim_parse_safe (neovim_of opt) _ WB) as VB.
  unfold ParseFile, parse_to_ast in *. fold (neovim_of opt) in *. rewrite (seen_open _ _ _ LB), (seen_open _ _ _ L) in *.
  rewrite Lc. destruct (vim_parse (neovim_of opt) (new_reader tsB)) as [vB|eB|kB|] eqn:EB;
    destruct (vim_parse (neovim_of opt) (new_reader (tsA ++ tsB))) as [vAB|eAB|kAB|] eqn:EAB; cbn [bind recovered csafe] in *; try contradiction; try congruence.
  - destruct G as [q0 [vb [-> ->]]]. split.
    + intros q b H. cbn [new_ast] in H |- *. fold (export_stmt file) in *. 
      destruct (mapM (export_stmt file) vb) as [b'| | |] eqn:Eb; try discriminate H. cbn [bind recovered] in H. injection H as <- ->.
      assert (Es : mapM (export_stmt file) (map (map_pos (shift_by tsA)) vb) = Ok (map (map_node (moved (line_bytes tsA) (N.of_nat (length tsA)))) b)).
      { unfold export_stmt. rewrite (casts_map file file (shift_by tsA) (moved (line_bytes tsA) (N.of_nat (length tsA)))).
        - fold (export_stmt file). rewrite Eb. reflexivity.
        - intros []; reflexivity.
        - apply Forall_forall. intros v _. apply new_ast_map. intros x. reflexivity. }
      rewrite (mapM_app _ _ _ _ _ Ea Es). reflexivity.
    + intros e H. exfalso. destruct (file_exports file _ _ _ VB) as [q1 [b1 X]]. rewrite X in H. discriminate.
  - split; [discriminate|]. intros e H. destruct G as [mm [q [-> ->]]]. injection H as <-. reflexivity.
  - split; [discriminate|]. intros e H. subst kAB. injection H as <-. reflexivity.
Qed.

Lemma file_sequel bsA bsB bs ra rb r tsA tsB cells file opt p a :
  seen_lines bsA tsA -> tsA <> [] -> source_cells bsA cells -> seen_lines bsB tsB -> starts_line tsB -> seen_lines bs (tsA ++ tsB) -> apart bsA bsB ->
  ParseFile (mkSource bsA ra) file opt = Returned (NFile p a) -> self_contained a ->
  (forall q b, ParseFile (mkSource bsB rb) file opt = Returned (NFile q b) ->
     ParseFile (mkSource bs r) file opt =
       Returned (NFile p (a ++ map (map_node (moved (line_bytes tsA) (N.of_nat (length tsA)))) b))) /\
  (forall e, ParseFile (mkSource bsB rb) file opt = Failed e ->
     ParseFile (mkSource bs r) file opt = Failed (moved_error (N.of_nat (length cells)) (N.of_nat (length tsA)) e)).
Proof.
  intros LA NA CA LB SB L Ap HA HC.
  pose proof (open_source_wf (mkSource bsA ra)) as WA. pose proof (open_source_wf (mkSource bsB rb)) as WB. pose proof (open_source_wf (mkSource bs r)) as W.
  assert (Hap : forall w, digit_word (open_source (mkSource bsB rb)) w -> ~ stands (open_source (mkSource bsA ra)) w).
  { intros w [U [Al [d [Hd Hs]]]] Hw. apply (occurs_stands bsA ra) in Hw. apply (occurs_stands bsB rb) in Hs. revert Hw.
    apply (Ap w d); auto using capital_upper. unfold isdigit, between in Hd. lia. }
  apply (source_view _ ra) in CA. pose proof (view_length (open_source (mkSource bsA ra))) as Lc. rewrite <- CA in Lc. clear CA.
  pose proof (vim_parse_safe (neovim_of opt) _ WA) as V.
  unfold ParseFile, parse_to_ast in HA. fold (neovim_of opt) in HA. rewrite (seen_open _ _ _ LA), (seen_open _ _ _ LB), (seen_open _ _ _ L) in *.
  destruct (vim_parse (neovim_of opt) (new_reader tsA)) as [vA|?|?|] eqn:EA; try discriminate HA. cbn [bind csafe] in *.
  pose proof V as [vs [c1 [c' [-> _]]]].
  assert (Ep : new_ast file (VToplevel (getpos (new_reader tsA)) vs) = Ok (NFile p a)) by (destruct (new_ast file _); try discriminate HA; injection HA as ->; auto).
  cbn [new_ast] in Ep. fold (export_stmt file) in Ep. destruct (mapM (export_stmt file) vs) as [a'| | |] eqn:Ea; try discriminate Ep. cbn [bind] in Ep. injection Ep as <- ->.
  pose proof (contained_closed _ _ _ _ _ _ V Ea HC) as Cl.
  exact (sequel_export bsB bs rb r tsA tsB cells file opt _ vs a LB L Lc Ea (vim_sequel _ _ _ _ _ NA SB WA WB W Hap EA Cl)).
Qed.

(** ** A comment line behind the first text is read as a comment *)

Lemma export_comment file v q s : export_stmt file v = Ok (NComment q s) -> exists p, v = VComment p s.
Proof.
  unfold export_stmt. intros H. destruct (new_ast file v) as [n| | |] eqn:E; try discriminate H. cbn [bind] in H.
  unfold assert_node in H. destruct (is_stmt n); [|discriminate H]. injection H as ->. revert E.
  destruct v; cbn [new_ast]; intros H;
    repeat match type of H with
    | bind ?m _ = Ok _ => destruct m; cbn [bind] in H; try discriminate H
    | match ?m with _ => _ end = Ok _ => destruct m; try discriminate H
    end; try discriminate H.
  all: injection H; intros; subst; eauto.
Qed.
Lemma probe_cells q F c c1 : sim true (Eof q) F same same c c1 -> map cell_of (view c1) = map cell_of (view c) ++ map cell_of (view F).
Proof. intros H. induction H as [? ? O|p p' O P|x p p' c c' P H IH]; [discriminate| |]; cbn [view map app]; f_equal; auto. Qed.
Lemma within {A} (W : list A) pre post X Y : W <> [] -> (forall y, In y Y -> ~ In y W) -> X ++ Y = pre ++ W ++ post -> exists post', X = pre ++ W ++ post'.
Proof.
  intros N H. revert pre. induction X as [|x X IH]; intros pre E; cbn [app] in E.
  - exfalso. destruct W as [|w W]; [congruence|]. apply (H w); [rewrite E; apply in_elt|left; auto].
  - destruct pre as [|y pre]; cbn [app] in E.
    + cut (exists post', x :: X = W ++ post'). { intros [z Hz]. exists z. exact Hz. } clear N. change ((x :: X) ++ Y = W ++ post) in E. revert E. generalize (x :: X) as Z.
      clear IH x X. revert post. induction W as [|w W IW]; intros post Z E; [exists Z; reflexivity|]. destruct Z as [|z Z]; cbn [app] in E.
      * exfalso. apply (H w); [rewrite E; left; auto|left; auto].
      * injection E as -> E. destruct (IW ltac:(intros y Hy Hw; apply (H y Hy); right; exact Hw) post Z E) as [z' Hz]. exists z'. rewrite Hz. reflexivity.
    + injection E as -> E. destruct (IH pre E) as [z Hz]. exists z. rewrite Hz. reflexivity.
Qed.
Lemma probe_stands tsA w : tsA <> [] -> starts_upper w = true -> forallb isalpha w = true -> stands (new_reader (tsA ++ [quote_line])) w -> stands (new_reader tsA) w.
Proof.
  intros N U Al [pre [post E]]. destruct tsA as [|t ts]; [congruence|]. pose proof (behind_open t ts _ quote_starts) as Sp. cbv zeta in Sp.
  rewrite (probe_cells _ _ _ _ Sp) in E. apply within in E.
  - destruct E as [post' E]. exists pre, post'. exact E.
  - destruct w; discriminate.
  - cbn. intros y [<-|[<-|[]]] Hy; apply in_map_iff in Hy; destruct Hy as [c [Ec Hc]]; [|discriminate]. injection Ec as ->. rewrite forallb_forall in Al. apply Al in Hc. discriminate Hc.
Qed.
Lemma file_probe bsP bsA bsB bs ra rb r tsA tsB cells file opt p a q s :
  seen_lines bsA tsA -> tsA <> [] -> source_cells bsA cells -> seen_lines bsP (tsA ++ [quote_line]) ->
  seen_lines bsB tsB -> starts_line tsB -> seen_lines bs (tsA ++ tsB) -> apart bsA bsB ->
  ParseFile (mkSource bsP ra) file opt = Returned (NFile p (a ++ [NComment q s])) ->
  (forall q b, ParseFile (mkSource bsB rb) file opt = Returned (NFile q b) ->
     ParseFile (mkSource bs r) file opt =
       Returned (NFile p (a ++ map (map_node (moved (line_bytes tsA) (N.of_nat (length tsA)))) b))) /\
  (forall e, ParseFile (mkSource bsB rb) file opt = Failed e ->
     ParseFile (mkSource bs r) file opt = Failed (moved_error (N.of_nat (length cells)) (N.of_nat (length tsA)) e)).
Proof.
  intros LA NA CA LP LB SB L Ap HA.
  pose proof (open_source_wf (mkSource bsP ra)) as WP. pose proof (open_source_wf (mkSource bsB rb)) as WB. pose proof (open_source_wf (mkSource bs r)) as W.
  apply (source_view _ false) in CA. pose proof (view_length (open_source (mkSource bsA false))) as Lc. rewrite <- CA in Lc. clear CA.
  assert (Hap : forall w, digit_word (open_source (mkSource bsB rb)) w -> ~ stands (open_source (mkSource bsP ra)) w).
  { intros w [U [Al [d [Hd Hs]]]] Hw. rewrite (seen_open _ _ _ LP) in Hw. apply probe_stands in Hw; auto. rewrite <- (seen_open _ _ false LA) in Hw.
    apply (occurs_stands bsA false) in Hw. apply (occurs_stands bsB rb) in Hs. revert Hw.
    apply (Ap w d); auto using capital_upper. unfold isdigit, between in Hd. lia. }
  pose proof (vim_parse_safe (neovim_of opt) _ WP) as V.
  unfold ParseFile, parse_to_ast in HA. fold (neovim_of opt) in HA. rewrite (seen_open _ _ _ LP), (seen_open _ _ _ LA), (seen_open _ _ _ LB), (seen_open _ _ _ L) in *.
  destruct (vim_parse (neovim_of opt) (new_reader (tsA ++ [quote_line]))) as [vA|?|?|] eqn:EA; try discriminate HA. cbn [bind csafe] in *.
  pose proof V as [vs [c1 [c' [-> _]]]].
  assert (Ep : new_ast file (VToplevel (getpos (new_reader (tsA ++ [quote_line]))) vs) = Ok (NFile p (a ++ [NComment q s]))) by (destruct (new_ast file _); try discriminate HA; injection HA as ->; auto).
  cbn [new_ast] in Ep. fold (export_stmt file) in Ep. destruct (mapM (export_stmt file) vs) as [a'| | |] eqn:Ea; try discriminate Ep. cbn [bind] in Ep. injection Ep as <- ->.
  destruct (exists_last (l := vs)) as [body [v Ev]]. { intros ->. cbn in Ea. injection Ea as Ea. destruct a; discriminate Ea. }
  rewrite Ev in Ea. apply mapM_split in Ea. destruct Ea as [r1 [r2 [Er [E1 E2]]]]. cbn [mapM] in E2.
  destruct (export_stmt file v) as [n| | |] eqn:En; try discriminate E2. cbn [bind] in E2. injection E2 as <-.
  apply app_inj_tail in Er. destruct Er as [<- <-]. apply export_comment in En. destruct En as [cp ->]. rewrite Ev in EA.
  exact (sequel_export bsB bs rb r tsA tsB cells file opt _ body a LB L Lc E1
    (vim_sequel0 _ _ _ (new_reader (tsA ++ [quote_line])) _ _ WB W Hap (first_probe _ _ _ _ _ _ _ NA SB WP W EA))).
Qed.

(** * An error that is not at the end of its text *)

Definition from_line (n : N) (c : cursor) : Prop := forall s, sfx s c -> n <= p_lnum (getpos s).
Lemma from_eof n p : n <= p_lnum p -> from_line n (Eof p).
Proof. intros H s Hs. inversion Hs; subst. exact H. Qed.
Lemma from_cons n x p c : n <= p_lnum p -> from_line n c -> from_line n (Cons x p c).
Proof. intros H H1 s Hs. inversion Hs; subst; auto. Qed.
Lemma from_first n t : forall i l col o k, n <= l -> (forall j, from_line n (k j)) -> from_line n (put_first t i l col o k).
Proof. induction t as [|r t IH]; intros i l col o k H K; cbn [put_first]; auto. apply from_cons; auto. Qed.
Lemma from_cont n t : forall i l col k, n <= l -> (forall j, from_line n (k j)) -> from_line n (put_cont t i l col k).
Proof. induction t as [|r t IH]; intros i l col k H K; cbn [put_cont]; auto. apply from_cons; auto. Qed.
Lemma from_build n ts : forall i l col o, n <= l -> from_line n (build_more ts i l col o).
Proof.
  induction ts as [|t ts IH]; intros i l col o H; cbn [build_more].
  - apply from_cons; [exact H|]. apply from_eof. cbn. lia.
  - destruct (re_continuation t).
    + destruct (skip_backslash t 0) as [u c]. apply from_cont; [lia|]. intros j. apply IH. lia.
    + apply from_cons; [exact H|]. apply from_first; [lia|]. intros j. apply IH. lia.
Qed.
Lemma from_behind ts i l o : from_line l (behind ts i l o).
Proof. destruct ts as [|t ts]; cbn [behind]; [apply from_eof; cbn; lia|]. apply from_first; [lia|]. intros j. apply from_build. lia. Qed.
Lemma sim_rest F F' h h' c c' : sim true F F' h h' c c' -> sfx F' c'.
Proof. intros H. induction H; [discriminate|apply sfx_cons, sfx_refl|apply sfx_cons; auto]. Qed.

(** The answers of two runs: the first error, the second error, or one of the second text. *)
Lemma gone_error {A} q F' (o o' : outcome A) file (lines : list text) : orel true (Eof q) F' same same (fun _ _ => False) o o' -> wf F' -> o' <> OutOfFuel ->
  p_lnum q = 1 + N.of_nat (length lines) -> from_line (1 + N.of_nat (length lines)) F' ->
  match o with
  | PErr e => N.of_nat (length lines) < e_line e \/ o' = PErr e \/
      (about_line_end (ErrVimlParser file (e_off e) (e_line e) (e_col e) (e_msg e)) /\
       exists e', o' = PErr e' /\ N.of_nat (length lines) < e_line e')
  | Panic (PStr2nr s) => o' = Panic (PStr2nr s)
  | _ => True
  end.
Proof.
  intros G W N Q L. destruct o as [a|e|k|]; auto.
  - destruct o' as [a'|e'|k'|]; cbn [orel] in G; [| | |congruence].
    + destruct G as [_ [G|[m ->]]]; [discriminate|]. left. cbn [e_line Err_ getpos]. lia.
    + destruct G as [[m [p [p' [P [-> ->]]]]]|[[_ [G|[m ->]]]|[[_ [m [p [Hm ->]]]] G]]]; [|discriminate| |].
      * unfold prel, same in P. subst p'. auto.
      * left. cbn [e_line Err_ getpos]. lia.
      * right. right. split.
        -- do 5 eexists. split; [reflexivity|]. cbn [e_msg]. destruct Hm as [-> | ->]; [left|right]; vm_compute; reflexivity.
        -- exists e'. split; auto. pose proof (tget_esafe (D := fun _ _ => True) F' F' W (sfx_refl _)) as E. rewrite G in E. cbn [esafe] in E.
           destruct E as [s [Hs [-> _]]]. cbn [e_line Err_]. specialize (L s Hs). lia.
    + destruct G as [[_ [G|[m ->]]]|[_ G]]; [discriminate| |].
      * left. cbn [e_line Err_ getpos]. lia.
      * pose proof (tget_esafe (D := fun _ _ => True) F' F' W (sfx_refl _)) as E. rewrite G in E. destruct E.
  - destruct k as [| | |s| | |]; auto. destruct o' as [a'|e'|k'|]; cbn [orel] in G; [| | |congruence].
    + destruct G as [_ [G|G]]; [discriminate|contradiction].
    + destruct G as [_ [G|G]]; [discriminate|contradiction].
    + destruct G as [<-|[_ [G|G]]]; [reflexivity|discriminate|contradiction].
Qed.
Lemma file_error bsA bs ra r tsA tsB file opt e :
  seen_lines bsA tsA -> starts_line tsB -> seen_lines bs (tsA ++ tsB) ->
  ParseFile (mkSource bsA ra) file opt = Failed e -> before_end tsA e ->
  ParseFile (mkSource bs r) file opt = Failed e \/
  (about_line_end e /\ exists e', ParseFile (mkSource bs r) file opt = Failed e' /\ below tsA e').
Proof.
  intros LA SB L HA HE. pose proof (open_source_wf (mkSource bsA ra)) as WA. pose proof (open_source_wf (mkSource bs r)) as W.
  pose proof (ParseFile_returns (mkSource bs r) file opt) as N2. pose proof (vim_parse_safe (neovim_of opt) _ WA) as VA. pose proof (vim_parse_safe (neovim_of opt) _ W) as V.
  unfold ParseFile, parse_to_ast in *. fold (neovim_of opt) in *. rewrite (seen_open _ _ _ LA), (seen_open _ _ _ L) in *.
  destruct tsA as [|t ts]. { cbn in HA. discriminate HA. }
  pose proof (behind_open t ts tsB SB) as Sm. cbv zeta in Sm. match type of Sm with sim _ _ ?f _ _ _ _ => set (F' := f) in * end.
  assert (WF : wf F') by (eapply wf_sfx; [eapply sim_rest; exact Sm|exact W]).
  assert (N3 : vim_parse (neovim_of opt) (new_reader ((t :: ts) ++ tsB)) <> OutOfFuel) by (intros X; rewrite X in V; destruct V).
  destruct (vim_parse_err (neovim_of opt) same same same_idx _ F' _ _ WA W Sm) as [[v Ev]|G].
  - exfalso. rewrite Ev in *. destruct (file_exports file _ _ _ VA) as [q1 [b1 X]]. cbn [bind] in HA. rewrite X in HA. discriminate.
  - apply (gone_error _ _ _ _ file (t :: ts)) in G; auto; [|apply from_behind].
    destruct (vim_parse (neovim_of opt) (new_reader (t :: ts))) as [v|e1|k1|] eqn:EA; cbn [bind csafe] in *; [| | |destruct VA].
    + exfalso. destruct (file_exports file _ _ _ VA) as [q1 [b1 X]]. rewrite X in HA. discriminate.
    + cbn [recovered] in HA. injection HA as <-. destruct G as [G|[->|[G1 [e' [-> G2]]]]].
      * exfalso. cbn [before_end] in HE. lia.
      * left. reflexivity.
      * right. split; auto. eexists. split; [reflexivity|]. exact G2.
    + destruct VA as [s [? [? [-> _]]]]. rewrite G. left. exact HA.
Qed.
Lemma expr_error bsA bs ra r tsA tsB e :
  seen_lines bsA tsA -> starts_line tsB -> seen_lines bs (tsA ++ tsB) ->
  ParseExpr (mkSource bsA ra) = Failed e -> before_end tsA e ->
  ParseExpr (mkSource bs r) = Failed e \/
  (about_line_end e /\ exists e', ParseExpr (mkSource bs r) = Failed e' /\ below tsA e').
Proof.
  intros LA SB L HA HE. pose proof (open_source_wf (mkSource bsA ra)) as WA. pose proof (open_source_wf (mkSource bs r)) as W.
  pose proof (parse_expr_esafe (D := fun _ _ => True) _ _ WA (sfx_refl _) (or_introl I)) as VA. pose proof (parse_expr_esafe (D := fun _ _ => True) _ _ W (sfx_refl _) (or_introl I)) as V.
  unfold ParseExpr, parse_expr_to_ast in *. rewrite (seen_open _ _ _ LA), (seen_open _ _ _ L) in *.
  destruct tsA as [|t ts]. { exfalso. vm_compute in HA. injection HA as <-. cbn in HE. lia. }
  pose proof (behind_open t ts tsB SB) as Sm. cbv zeta in Sm. match type of Sm with sim _ _ ?f _ _ _ _ => set (F' := f) in * end.
  assert (WF : wf F') by (eapply wf_sfx; [eapply sim_rest; exact Sm|exact W]).
  assert (N3 : parse_expr (new_reader ((t :: ts) ++ tsB)) <> OutOfFuel) by (intros X; rewrite X in V; destruct V).
  match type of Sm with sim _ ?f _ _ _ _ _ => pose proof (parse_expr_sim true f F' same same _ _ Sm) as G end.
  destruct (parse_expr (new_reader (t :: ts))) as [[v c]|e1|k1|] eqn:EA; cbn [bind esafe] in *; try contradiction.
  - exfalso. destruct (dexpr_exports [] _ _ _ _ VA) as [n [Hn Hq]]. rewrite Hn in HA. cbn [bind recovered to_expr] in HA. discriminate HA.
  - cbn [recovered] in HA. injection HA as <-.
    assert (G1 : orel true (Eof (mkPos (N.of_nat (clen (new_reader (t :: ts)))) (1 + N.of_nat (length (t :: ts))) 0 (line_bytes (t :: ts)))) F' same same (fun _ _ => False) (@PErr (vnode * cursor) e1) (parse_expr (new_reader ((t :: ts) ++ tsB)))).
    { destruct (parse_expr (new_reader ((t :: ts) ++ tsB))); exact G. }
    apply (gone_error _ _ _ _ [] (t :: ts)) in G1; auto; [|apply from_behind].
    destruct G1 as [G1|[->|[G1 [e' [-> G2]]]]].
    + exfalso. cbn [before_end] in HE. lia.
    + left. reflexivity.
    + right. split; auto. eexists. split; [reflexivity|]. exact G2.
Qed.

(** * Bytes *)

Lemma split_app lines bs ls : Forall (fun l => ~ has_lf l) lines -> split_lines bs ls -> split_lines (flat_map (fun l => l ++ [10]) lines ++ bs) (lines ++ ls).
Proof.
  intros H S. induction H as [|l lines Hl _ IH]; [exact S|]. cbn [flat_map app]. rewrite <- !app_assoc. cbn [app]. constructor; auto.
Qed.
Lemma until_app lines ls r : Forall short lines -> until_long ls r -> until_long (lines ++ ls) (lines ++ r).
Proof. intros H U. induction H as [|l lines Hl _ IH]; [exact U|]. cbn [app]. constructor; auto. Qed.
Lemma lines_bytes lines tsA bsB tsB : Forall (fun l => ~ has_lf l /\ short l) lines ->
  seen_lines (flat_map (fun l => l ++ [10]) lines) tsA -> seen_lines bsB tsB ->
  seen_lines (flat_map (fun l => l ++ [10]) lines ++ bsB) (tsA ++ tsB).
Proof.
  intros H HA [ls [ls1 [ls2 [H1 [H2 [H3 ->]]]]]].
  assert (Hl : Forall (fun l => ~ has_lf l) lines) by (eapply Forall_impl; [|exact H]; cbn; tauto).
  assert (Hs : Forall short lines) by (eapply Forall_impl; [|exact H]; cbn; tauto).
  assert (E : exists ls0, Forall2 without_cr lines ls0 /\ tsA = map decode ls0).
  { assert (X : exists ls0, Forall2 without_cr lines ls0).
    { clear. induction lines as [|l lines [ls0 IH]]; [exists []; constructor|].
      destruct (rev l) as [|r t] eqn:Er.
      - exists (l :: ls0). constructor; auto. constructor. intros l' ->. rewrite rev_app_distr in Er. discriminate.
      - apply (f_equal (@rev _)) in Er. rewrite rev_involutive in Er. cbn [rev] in Er. destruct (N.eq_dec r 13) as [->|Nr].
        + exists (rev t :: ls0). constructor; auto. rewrite Er. constructor.
        + exists (l :: ls0). constructor; auto. constructor. intros l' E. rewrite Er in E. apply app_inj_tail in E. tauto. }
    destruct X as [ls0 X]. exists ls0. split; auto.
    assert (Y : seen_lines (flat_map (fun l => l ++ [10]) lines) (map decode ls0)).
    { exists lines, lines, ls0. split; [|split; [|split; auto]].
      - pose proof (split_app lines [] [] Hl sl_nil) as Z. rewrite !app_nil_r in Z. exact Z.
      - pose proof (until_app lines [] [] Hs ul_nil) as Z. rewrite !app_nil_r in Z. exact Z. }
    apply (seen_lines_iff _ _ false) in HA. apply (seen_lines_iff _ _ false) in Y. congruence. }
  destruct E as [ls0 [E ->]]. exists (lines ++ ls), (lines ++ ls1), (ls0 ++ ls2).
  split; [apply split_app; auto|]. split; [apply until_app; auto|]. split; [apply Forall2_app; auto|]. rewrite map_app. reflexivity.
Qed.
