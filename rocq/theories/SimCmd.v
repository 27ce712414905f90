(** Two runs of the command parser over texts that agree, up to positions, either everywhere
    or up to the end of some line. *)
From Coq Require Import Lia ZifyBool ZifyNat ZifyN.
From Verif Require Import Base CharClass Reader Vnode Tokenizer ExprParser CmdTable CmdParser Sim.

Definition map_kind (h : pos -> pos) (k : fkind) : fkind :=
  let m := map_pos h in
  match k with
  | FTop => FTop
  | FFunction l rl da at_ => FFunction (m l) (map m rl) (map m da) at_
  | FIf c es el => FIf (m c) (map m es) (option_map m el)
  | FElseif c => FElseif (m c)
  | FElse => FElse
  | FWhile c => FWhile (m c)
  | FFor l ls rs r => FFor (option_map m l) (map m ls) (option_map m rs) (m r)
  | FTry cs fi => FTry (map m cs) (option_map m fi)
  | FCatch s => FCatch s
  | FFinally => FFinally
  end.
Definition map_frame (h : pos -> pos) (f : frame) : frame :=
  mkFrame (map_kind h (f_kind f)) (h (f_pos f)) (map_ea h (f_ea f)) (map (map_pos h) (f_body f)).

(** ** No line reader moves backwards *)

Lemma getall_rem : forall c, (clen (snd (getn_all c)) <= clen c)%nat.
Proof.
  induction c as [p|x p c IH]; cbn [getn_all snd]; [lia|]. destruct x as [|r]; cbn [snd]; [lia|].
  destruct (getn_all c). cbn [snd clen] in *. lia.
Qed.
Lemma get_rem c : (clen (snd (get c)) <= clen c)%nat.
Proof. destruct c; cbn [get snd clen]; lia. Qed.
Lemma until_rem n m : forall c ls d, until_marker n m c = Ok (ls, d) -> (clen d <= clen c)%nat.
Proof.
  induction n as [|n IH]; intros c ls d E; cbn [until_marker] in E; [discriminate|]. destruct (is_eof c); [injection E as <- <-; lia|].
  pose proof (getall_rem c). destruct (getn_all c) as [l c1]. cbn [snd] in *. destruct (text_eqb l m). injection E as <- <-; lia.
  pose proof (get_rem c1). destruct (until_marker n m (snd (get c1))) as [[ls2 c2]| | |] eqn:E2; try discriminate. apply IH in E2. injection E as <- <-. lia.
Qed.
Lemma all_lines_rem n : forall c ls d, read_all_lines n c = Ok (ls, d) -> (clen d <= clen c)%nat.
Proof.
  induction n as [|n IH]; intros c ls d E; cbn [read_all_lines] in E; [discriminate|]. destruct (is_eof c); [injection E as <- <-; lia|].
  unfold readline in E. pose proof (getall_rem c). destruct (getn_all c) as [l c1]. cbn [snd] in *.
  pose proof (get_rem c1). destruct (read_all_lines n (snd (get c1))) as [[ls2 c2]| | |] eqn:E2; try discriminate. apply IH in E2. injection E as <- <-. lia.
Qed.
Lemma heredoc_rem n m : forall c ls d, heredoc_lines n m c = Ok (ls, d) -> (clen d <= clen c)%nat.
Proof.
  induction n as [|n IH]; intros c ls d E; cbn [heredoc_lines] in E; [discriminate|]. destruct (is_eof c); [discriminate|].
  pose proof (getall_rem c). destruct (getn_all c) as [l c1]. cbn [snd] in *. destruct (text_eqb l m). injection E as <- <-; lia.
  pose proof (get_rem c1). destruct (heredoc_lines n m (snd (get c1))) as [[ls2 c2]| | |] eqn:E2; try discriminate. apply IH in E2. injection E as <- <-. lia.
Qed.
Lemma end_rem : forall c, clen (seek_end0 c) = O.
Proof. induction c; auto. Qed.
Lemma add_node_cur n st st1 : add_node n st = Ok st1 -> cur st1 = cur st.
Proof. unfold add_node. destruct (ctx st); [discriminate|]. intros E. injection E as <-. reflexivity. Qed.
Lemma skip_rem f : forall c, (clen (skip_while f c) <= clen c)%nat.
Proof.
  unfold skip_while. induction c as [p|x p c IH]; cbn [read_while snd]; [lia|]. destruct x as [|r]; cbn [snd]; [lia|].
  destruct (f r); cbn [snd]; [|lia]. destruct (read_while f c). cbn [snd clen] in *. lia.
Qed.
Lemma comment_rem st st1 : parse_comment st = Ok st1 -> (clen (cur st1) <= clen (cur st))%nat.
Proof.
  unfold parse_comment. cbv zeta. pose proof (get_rem (cur st)). destruct (get (cur st)) as [x c1]. cbn [snd] in *. destruct (negb _); [discriminate|].
  pose proof (getall_rem c1). destruct (getn_all c1) as [s c2]. cbn [snd] in *. intros E. apply add_node_cur in E. rewrite E. cbn. lia.
Qed.
Lemma trail_rem st st1 : parse_trail st = Ok st1 -> (clen (cur st1) <= clen (cur st))%nat.
Proof.
  unfold parse_trail. cbv zeta. pose proof (skip_rem iswhite (cur st)) as L. fold (skip_white (cur st)) in *.
  pose proof (get_rem (skip_white (cur st))) as L2.
  destruct (peek (skip_white (cur st))) as [| |r].
  - intros E. injection E as <-. cbn. lia.
  - intros E. injection E as <-. cbn [cur with_cur]. lia.
  - destruct (r =? _). intros E. injection E as <-. cbn [cur with_cur]. lia. destruct (r =? _); [|discriminate].
    destruct (parse_comment _) as [st2| | |] eqn:E2; try discriminate. apply comment_rem in E2. cbn [cur with_cur] in E2.
    intros E. injection E as <-. cbn [cur with_cur]. pose proof (get_rem (cur st2)). lia.
Qed.

Section Frames.
Context (neovim : bool) (opn : bool) (F F' : cursor) (h h' : pos -> pos).
Local Notation prel := (Sim.prel h h').
Local Notation sim := (Sim.sim opn F F' h h').
Local Notation sim0 := (Sim.sim0 opn F F' h h').
Local Notation orel := (Sim.orel opn F F' h h').
Local Notation vrel := (Sim.vrel h h').
Local Notation vsrel := (Sim.vsrel h h').
Local Notation vorel := (Sim.vorel h h').
Local Notation vcrel := (Sim.vcrel opn F F' h h').
Local Notation vscrel := (Sim.vscrel opn F F' h h').
Local Notation trel := (Sim.trel h h').
Local Notation tgrel := (Sim.tgrel opn F F' h h').

(** Indices in the two texts are shifted by the same amount. *)
Context (Hidx : forall p p' q q', prel p p' -> prel q q' -> (p_i p' =? p_i q' + 1) = (p_i p =? p_i q + 1)).

Definition earel (e e' : exarg) : Prop := map_ea h e = map_ea h' e'.
Definition ctxrel (l l' : list frame) : Prop := map (map_frame h) l = map (map_frame h') l'.
Definition frel (f f' : frame) : Prop := map_frame h f = map_frame h' f'.
Definition srel (st st' : pstate) : Prop := sim (cur st) (cur st') /\ ctxrel (ctx st) (ctx st') /\ cache st = cache st'.
Definition srel0 (st st' : pstate) : Prop := sim0 (cur st) (cur st') /\ ctxrel (ctx st) (ctx st') /\ cache st = cache st'.
Definition krel (k k' : ectx) : Prop :=
  earel (ec_ea k) (ec_ea k') /\ sim (ec_line k) (ec_line k') /\ sim (ec_cmd k) (ec_cmd k') /\ sim (ec_arg k) (ec_arg k') /\ ec_x k = ec_x k'.

(** Related, or the first run has left the common text. *)
Definition crel {A A'} (mu : A -> nat) (Q : A -> A' -> Prop) (o : outcome A) (o' : outcome A') : Prop :=
  orel Q o o' \/ (opn = true /\ exists a, o = Ok a /\ (mu a <= clen F)%nat).

Lemma crel_o {A A'} (mu : A -> nat) (Q : A -> A' -> Prop) o o' : orel Q o o' -> crel mu Q o o'.
Proof. left; auto. Qed.
Local Notation tame := (Sim.tame opn F).
Lemma crel_out {A A'} (mu : A -> nat) (Q : A -> A' -> Prop) o o' : opn = true -> tame (fun a => (mu a <= clen F)%nat) o -> crel mu Q o o'.
Proof.
  intros O H. destruct o as [a|e|k|]; [right; eauto| | |]; left; apply orel_fail; auto.
Qed.
Lemma crel_bind {A A' B B'} (mu : A -> nat) (nu : B -> nat) (Q : A -> A' -> Prop) (S : B -> B' -> Prop) m m' k k' :
  crel mu Q m m' -> (forall a a', Q a a' -> crel nu S (k a) (k' a')) -> (opn = true -> forall a, (mu a <= clen F)%nat -> tame (fun b => (nu b <= mu a)%nat) (k a)) ->
  crel nu S (bind m k) (bind m' k').
Proof.
  intros [M|[O [a [-> L]]]] K D.
  - destruct m as [a|e|z|], m' as [a'|e'|z'|]; cbn [Sim.orel bind] in *; auto; try contradiction;
      try (left; cbn [Sim.orel]; exact M); try (left; exact I); try (left; apply orel_oof_r);
      left; destruct (k' a'); cbn [Sim.orel]; auto.
  - apply crel_out; auto. cbn [bind]. specialize (D O a L). destruct (k a); cbn [Sim.tame] in *; auto. lia.
Qed.
Lemma crel_obind {A A' B B'} (nu : B -> nat) (Q : A -> A' -> Prop) (S : B -> B' -> Prop) m m' k k' :
  orel Q m m' -> (forall a a', Q a a' -> crel nu S (k a) (k' a')) -> crel nu S (bind m k) (bind m' k').
Proof.
  intros M K. destruct m as [a|e|z|], m' as [a'|e'|z'|]; cbn [Sim.orel bind] in *; auto; try contradiction;
      try (left; cbn [Sim.orel]; exact M); try (left; exact I); try (left; apply orel_oof_r);
      left; destruct (k' a'); cbn [Sim.orel]; auto.
Qed.

Ltac destruct_ea := repeat match goal with e : exarg |- _ => destruct e end.
Ltac eaq E := destruct_ea; cbn in E |- *; injection E; clear E; intros; subst; f_equal; first [assumption | f_equal; assumption | reflexivity].

Lemma ea_line_rel p p' e e' : prel p p' -> earel e e' -> earel (ea_set_line p e) (ea_set_line p' e').
Proof. intros P E. unfold earel, map_ea in *. unfold Sim.prel in P. eaq E. Qed.
Lemma ea_cmdpos_rel p p' e e' : prel p p' -> earel e e' -> earel (ea_set_cmdpos p e) (ea_set_cmdpos p' e').
Proof. intros P E. unfold earel, map_ea in *. unfold Sim.prel in P. eaq E. Qed.
Lemma ea_argpos_rel p p' e e' : prel p p' -> earel e e' -> earel (ea_set_argpos p e) (ea_set_argpos p' e').
Proof. intros P E. unfold earel, map_ea in *. unfold Sim.prel in P. eaq E. Qed.
Ltac eas := intros E; unfold earel, map_ea in *; eaq E.
Lemma ea_mods_rel m e e' : earel e e' -> earel (ea_set_mods m e) (ea_set_mods m e'). Proof. eas. Qed.
Lemma ea_range_rel m e e' : earel e e' -> earel (ea_set_range m e) (ea_set_range m e'). Proof. eas. Qed.
Lemma ea_cmd_rel x b e e' : earel e e' -> earel (ea_set_cmd x b e) (ea_set_cmd x b e'). Proof. eas. Qed.
Lemma ea_bin_rel m e e' : earel e e' -> earel (ea_set_force_bin m e) (ea_set_force_bin m e'). Proof. eas. Qed.
Lemma ea_edit_rel m e e' : earel e e' -> earel (ea_set_read_edit m e) (ea_set_read_edit m e'). Proof. eas. Qed.
Lemma ea_ff_rel m e e' : earel e e' -> earel (ea_set_force_ff m e) (ea_set_force_ff m e'). Proof. eas. Qed.
Lemma ea_enc_rel m e e' : earel e e' -> earel (ea_set_force_enc m e) (ea_set_force_enc m e'). Proof. eas. Qed.
Lemma ea_bad_rel m e e' : earel e e' -> earel (ea_set_bad_char m e) (ea_set_bad_char m e'). Proof. eas. Qed.
Lemma ea_append_rel m e e' : earel e e' -> earel (ea_set_append m e) (ea_set_append m e'). Proof. eas. Qed.
Lemma ea_filter_rel m e e' : earel e e' -> earel (ea_set_filter m e) (ea_set_filter m e'). Proof. eas. Qed.
Lemma ea_amount_rel m e e' : earel e e' -> earel (ea_set_amount m e) (ea_set_amount m e'). Proof. eas. Qed.
Lemma ea_ecmd_rel m e e' : earel e e' -> earel (ea_set_ecmd m e) (ea_set_ecmd m e'). Proof. eas. Qed.
Lemma ea_fields e e' : earel e e' -> ea_forceit e' = ea_forceit e /\ ea_usefilter e' = ea_usefilter e /\ ea_modifiers e' = ea_modifiers e /\ ea_range e' = ea_range e.
Proof. intros E. unfold earel, map_ea in E. destruct_ea. cbn in *. injection E; intros; subst. auto. Qed.

(** ** Frames *)

Lemma kind_inv f f' : frel f f' -> map_kind h (f_kind f) = map_kind h' (f_kind f') /\ prel (f_pos f) (f_pos f') /\ earel (f_ea f) (f_ea f') /\ vsrel (f_body f) (f_body f').
Proof. unfold frel. intros E. repeat split; [exact (f_equal f_kind E)|exact (f_equal f_pos E)|exact (f_equal f_ea E)|exact (f_equal f_body E)]. Qed.
Lemma frel_intro f f' : map_kind h (f_kind f) = map_kind h' (f_kind f') -> prel (f_pos f) (f_pos f') -> earel (f_ea f) (f_ea f') -> vsrel (f_body f) (f_body f') -> frel f f'.
Proof. intros A B G D. unfold frel, map_frame. unfold Sim.prel, earel, Sim.vsrel in *. rewrite A, B, G, D. reflexivity. Qed.
Lemma ctx_inv f r f' r' : ctxrel (f :: r) (f' :: r') -> frel f f' /\ ctxrel r r'.
Proof. unfold ctxrel. cbn [map]. intros E. split; [exact (f_equal (hd (map_frame h f)) E)|exact (f_equal (@tl _) E)]. Qed.
Lemma ctx_cons f r f' r' : frel f f' -> ctxrel r r' -> ctxrel (f :: r) (f' :: r').
Proof. unfold ctxrel, frel. cbn [map]. intros -> ->. reflexivity. Qed.
Ltac kinds f f' K := let a := fresh "ka" in let b := fresh "kb" in destruct (f_kind f) eqn:a, (f_kind f') eqn:b; cbn [map_kind] in K; try discriminate K.
Lemma is_kind_rel (g : fkind -> bool) f f' : (forall h0 k, g (map_kind h0 k) = g k) -> frel f f' -> g (f_kind f') = g (f_kind f).
Proof. intros G E. apply kind_inv in E. destruct E as [K _]. rewrite <- (G h' (f_kind f')), <- (G h (f_kind f)). congruence. Qed.
Lemma top_rel st st' : ctxrel (ctx st) (ctx st') -> orel frel (top_frame st) (top_frame st').
Proof.
  unfold top_frame. destruct (ctx st) as [|f r], (ctx st') as [|f' r']; intros E; try discriminate. cbn; auto. apply ctx_inv in E. cbn. tauto.
Qed.
Lemma vsrel_app l l' m m' : vsrel l l' -> vsrel m m' -> vsrel (l ++ m) (l' ++ m').
Proof. unfold Sim.vsrel. rewrite !map_app. congruence. Qed.
Lemma vsrel_1 v v' : vrel v v' -> vsrel [v] [v'].
Proof. unfold Sim.vsrel, Sim.vrel. cbn. congruence. Qed.
Lemma add_body_rel n n' f f' : vrel n n' -> frel f f' -> frel (add_body n f) (add_body n' f').
Proof. intros V E. apply kind_inv in E. destruct E as [K [P [Q B]]]. apply frel_intro; cbn; auto. apply vsrel_app; auto. apply vsrel_1; auto. Qed.
Lemma add_node_sim n n' st st' : vrel n n' -> srel st st' -> orel srel (add_node n st) (add_node n' st').
Proof.
  intros V [S [E Ec]]. unfold add_node. destruct (ctx st) as [|f r], (ctx st') as [|f' r']; try discriminate. cbn; auto.
  apply ctx_inv in E. destruct E. split; [exact S|]. split; [|exact Ec]. apply ctx_cons; auto. apply add_body_rel; auto.
Qed.
Lemma add_node_crel n n' st st' : vrel n n' -> srel st st' -> crel (fun s => clen (cur s)) srel (add_node n st) (add_node n' st').
Proof. intros. apply crel_o, add_node_sim; auto. Qed.
Lemma srel_cur st st' c c' : srel st st' -> sim c c' -> srel (with_cur c st) (with_cur c' st').
Proof. intros [_ E] S. split; auto. Qed.
Lemma srel0_cur st st' c c' : srel0 st st' -> sim c c' -> srel (with_cur c st) (with_cur c' st').
Proof. intros [_ E] S. split; auto. Qed.
Lemma push_sim k k' p p' e e' st st' : map_kind h k = map_kind h' k' -> prel p p' -> earel e e' -> srel st st' ->
  srel (push_context k p e st) (push_context k' p' e' st').
Proof. intros K P E [S [X Ec]]. split; [exact S|]. split; [|exact Ec]. apply ctx_cons; auto. apply frel_intro; cbn; auto. reflexivity. Qed.
Lemma elseif_rel f f' v v' : prel (f_pos f) (f_pos f') -> earel (f_ea f) (f_ea f') -> vsrel (f_body f) (f_body f') -> vrel v v' ->
  vrel (VElseif (f_pos f) (f_ea f) (f_body f) v) (VElseif (f_pos f') (f_ea f') (f_body f') v').
Proof. unfold Sim.prel, earel, Sim.vsrel, Sim.vrel. intros A B G D. cbn [map_pos]. rewrite A, B, G, D. reflexivity. Qed.
Lemma else_rel f f' : prel (f_pos f) (f_pos f') -> earel (f_ea f) (f_ea f') -> vsrel (f_body f) (f_body f') ->
  vrel (VElse (f_pos f) (f_ea f) (f_body f)) (VElse (f_pos f') (f_ea f') (f_body f')).
Proof. unfold Sim.prel, earel, Sim.vsrel, Sim.vrel. intros A B G. cbn [map_pos]. rewrite A, B, G. reflexivity. Qed.
Lemma catch_rel f f' s : prel (f_pos f) (f_pos f') -> earel (f_ea f) (f_ea f') -> vsrel (f_body f) (f_body f') ->
  vrel (VCatch (f_pos f) (f_ea f) (f_body f) s) (VCatch (f_pos f') (f_ea f') (f_body f') s).
Proof. unfold Sim.prel, earel, Sim.vsrel, Sim.vrel. intros A B G. cbn [map_pos]. rewrite A, B, G. reflexivity. Qed.
Lemma finally_rel f f' : prel (f_pos f) (f_pos f') -> earel (f_ea f) (f_ea f') -> vsrel (f_body f) (f_body f') ->
  vrel (VFinally (f_pos f) (f_ea f) (f_body f)) (VFinally (f_pos f') (f_ea f') (f_body f')).
Proof. unfold Sim.prel, earel, Sim.vsrel, Sim.vrel. intros A B G. cbn [map_pos]. rewrite A, B, G. reflexivity. Qed.
Lemma pop_part_sim st st' : srel st st' -> orel srel (pop_part st) (pop_part st').
Proof.
  intros [S [E Ec]]. unfold pop_part. destruct (ctx st) as [|f [|g r]], (ctx st') as [|f' [|g' r']]; try discriminate; try (cbn; auto; fail).
  apply ctx_inv in E. destruct E as [Kf E]. apply ctx_inv in E. destruct E as [Kg E].
  apply kind_inv in Kf, Kg. destruct Kf as [Kf [Pf [Af Bf]]], Kg as [Kg [Pg [Ag Bg]]].
  kinds f f' Kf; try (cbn; auto; fail); kinds g g' Kg; try (cbn; auto; fail);
    (split; [exact S|split; [|exact Ec]]; apply ctx_cons; [|exact E]; apply frel_intro; cbn [f_kind f_pos f_ea f_body]; auto; cbn [map_kind];
     try (injection Kf; intros); injection Kg; intros; rewrite ?map_app; cbn [map option_map]).
  - erewrite elseif_rel; eauto. congruence.
  - erewrite else_rel; eauto. congruence.
  - match goal with H : pattern = _ |- _ => rewrite H end. erewrite catch_rel; eauto. congruence.
  - erewrite finally_rel; eauto. congruence.
Qed.
Lemma close_rel f f' e e' : frel f f' -> vrel e e' -> option_map (map_pos h) (close_frame f e) = option_map (map_pos h') (close_frame f' e').
Proof.
  intros Kf V. apply kind_inv in Kf. destruct Kf as [Kf [Pf [Af Bf]]]. unfold close_frame, Sim.prel, earel, Sim.vsrel, Sim.vrel in *.
  kinds f f' Kf; try reflexivity; try (injection Kf; intros); cbn [option_map map_pos]; rewrite Pf, Af, Bf, V; congruence.
Qed.
Lemma pop_block_sim n n' st st' : vrel n n' -> srel st st' -> orel srel (pop_block n st) (pop_block n' st').
Proof.
  intros V [S [E Ec]]. unfold pop_block. destruct (ctx st) as [|f [|g r]], (ctx st') as [|f' [|g' r']]; try discriminate; try (cbn; auto; fail).
  apply ctx_inv in E. destruct E as [Kf E]. apply ctx_inv in E. destruct E as [Kg E].
  pose proof (close_rel f f' n n' Kf V) as Cl. destruct (close_frame f n) as [a|], (close_frame f' n') as [a'|]; cbn in Cl; try discriminate; [|cbn; auto].
  split; [exact S|split; [|exact Ec]]. apply ctx_cons; auto. apply add_body_rel; auto. exact (f_equal (fun o => match o with Some x => x | None => map_pos h a end) Cl).
Qed.
Lemma in_context_rel g st st' : (forall h0 k, g (map_kind h0 k) = g k) -> ctxrel (ctx st) (ctx st') -> in_context g st' = in_context g st.
Proof.
  intros G. unfold in_context, ctxrel. generalize (ctx st), (ctx st'). induction l as [|f l IH]; intros [|f' l'] E; try discriminate; [reflexivity|].
  apply ctx_inv in E. destruct E. cbn [existsb]. rewrite (IH l') by auto. f_equal. apply is_kind_rel; auto.
Qed.
Lemma gi_if h0 k : is_if (map_kind h0 k) = is_if k. Proof. destruct k; reflexivity. Qed.
Lemma gi_ifp h0 k : is_if_part (map_kind h0 k) = is_if_part k. Proof. destruct k; reflexivity. Qed.
Lemma gi_try h0 k : is_try (map_kind h0 k) = is_try k. Proof. destruct k; reflexivity. Qed.
Lemma gi_tryp h0 k : is_try_part (map_kind h0 k) = is_try_part k. Proof. destruct k; reflexivity. Qed.
Lemma gi_fun h0 k : is_function (map_kind h0 k) = is_function k. Proof. destruct k; reflexivity. Qed.
Lemma gi_while h0 k : is_while (map_kind h0 k) = is_while k. Proof. destruct k; reflexivity. Qed.
Lemma gi_for h0 k : is_for (map_kind h0 k) = is_for k. Proof. destruct k; reflexivity. Qed.
Lemma check_sim s p p' f f' : prel p p' -> frel f f' -> orel eq (check_missing_if_try_loops s p f) (check_missing_if_try_loops s p' f').
Proof.
  intros P E. unfold check_missing_if_try_loops. rewrite (is_kind_rel _ _ _ gi_ifp E), (is_kind_rel _ _ _ gi_tryp E), (is_kind_rel _ _ _ gi_while E), (is_kind_rel _ _ _ gi_for E).
  destruct (is_if_part _); [apply orel_raise; auto|]. destruct (is_try_part _); [apply orel_raise; auto|]. destruct (is_while _); [apply orel_raise; auto|].
  destruct (is_for _); [apply orel_raise; auto|]. reflexivity.
Qed.

End Frames.
