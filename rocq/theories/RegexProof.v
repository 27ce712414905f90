(** The tests of the model are those of the patterns in the table, and the Go patterns mean
    what the Vim patterns mean. *)
From Coq Require Import Lia ZifyBool ZifyNat ZifyN.
From Verif Require Import Base CharClass CmdParser Regex RegexTable.

Lemma chr_is c d : in_class false [(c, c)] d = (c =? d).
Proof. unfold in_class, in_range. cbn. lia. Qed.

(** * Matching from left to right *)
Section From.
Context (word : N -> bool).

(** [r] matches at the start of [s], behind [a], and [P] holds of what is left. *)
Definition from (r : re) (P : text -> text -> Prop) (a s : text) : Prop :=
  exists m b, s = m ++ b /\ mat word r a m b /\ P (a ++ m) b.

Lemma from_eps P a s : from Eps P a s <-> P a s.
Proof.
  split.
  - intros [m [b [-> [H HP]]]]. inversion H; subst. cbn. rewrite app_nil_r in HP. exact HP.
  - intro H. exists [], s. rewrite app_nil_r. repeat split; auto. constructor.
Qed.
Lemma from_chr neg rs P a s :
  from (Chr neg rs) P a s <->
  match s with c :: t => in_class neg rs c = true /\ P (a ++ [c]) t | [] => False end.
Proof.
  split.
  - intros [m [b [-> [H HP]]]]. inversion H; subst. cbn. auto.
  - destruct s as [|c t]; [tauto|]. intros [Hc HP]. exists [c], t. repeat split; auto. constructor; auto.
Qed.
Lemma from_seq r q P a s : from (Seq r q) P a s <-> from r (from q P) a s.
Proof.
  split.
  - intros [m [b [-> [H HP]]]]. inversion H; subst.
    exists s, (t ++ b). rewrite <- app_assoc. repeat split; auto.
    exists t, b. rewrite <- app_assoc. auto.
  - intros [m [b [-> [H [m' [b' [-> [H' HP]]]]]]]].
    exists (m ++ m'), b'. rewrite <- !app_assoc in *. repeat split; auto. constructor; auto.
Qed.
Lemma from_alt r q P a s : from (Alt r q) P a s <-> from r P a s \/ from q P a s.
Proof.
  split.
  - intros [m [b [-> [H HP]]]]. inversion H; subst; [left|right]; exists m, b; auto.
  - intros [[m [b [-> [H HP]]]]|[m [b [-> [H HP]]]]]; exists m, b; repeat split; auto;
      [apply m_left|apply m_right]; auto.
Qed.
Lemma from_bol P a s : from Bol P a s <-> a = [] /\ P a s.
Proof.
  split.
  - intros [m [b [-> [H HP]]]]. inversion H; subst. auto.
  - intros [-> H]. exists [], s. repeat split; auto. constructor.
Qed.
Lemma from_eol P a s : from Eol P a s <-> s = [] /\ P a s.
Proof.
  split.
  - intros [m [b [-> [H HP]]]]. inversion H; subst. rewrite app_nil_r in HP. auto.
  - intros [-> H]. exists [], []. rewrite !app_nil_r. repeat split; auto. constructor.
Qed.
Lemma from_edge P a s :
  from Edge P a s <-> word_before word a <> word_behind word s /\ P a s.
Proof.
  split.
  - intros [m [b [-> [H HP]]]]. inversion H; subst. rewrite app_nil_r in HP. auto.
  - intros [E H]. exists [], s. rewrite app_nil_r. repeat split; auto. constructor; auto.
Qed.
Lemma from_star_chr neg rs P a s :
  from (Star (Chr neg rs)) P a s <->
  exists m b, s = m ++ b /\ forallb (in_class neg rs) m = true /\ P (a ++ m) b.
Proof.
  split.
  - intros [m [b [-> [H HP]]]]. exists m, b. repeat split; auto. clear HP.
    remember (Star (Chr neg rs)) as r eqn:Er.
    induction H; inversion Er; subst; auto.
    rewrite forallb_app. rewrite IHmat2 by reflexivity.
    match goal with X : mat _ (Chr _ _) _ _ _ |- _ => inversion X; subst end. cbn.
    match goal with X : in_class _ _ _ = true |- _ => rewrite X end. reflexivity.
  - intros [m [b [-> [H HP]]]]. exists m, b. repeat split; auto. clear HP. revert a.
    induction m as [|c m IH]; intro a; [constructor|].
    cbn in H. apply andb_true_iff in H as [Hc Hm].
    change (c :: m) with ([c] ++ m). apply m_more; [constructor; auto|apply IH; auto].
Qed.

Lemma from_ext r P Q a s : (forall x y, P x y <-> Q x y) -> from r P a s <-> from r Q a s.
Proof.
  intro E. split; intros [m [b [-> [H HP]]]]; exists m, b; repeat split; auto; apply E; auto.
Qed.

Definition any (a s : text) : Prop := True.
Lemma matches_from r s : matches word r s <-> exists a t, s = a ++ t /\ from r any a t.
Proof.
  split.
  - intros [a [m [b [-> H]]]]. exists a, (m ++ b). split; auto. exists m, b. repeat split; auto.
  - intros [a [t [-> [m [b [-> [H _]]]]]]]. exists a, m, b. auto.
Qed.
Lemma matches_alt r q s : matches word (Alt r q) s <-> matches word r s \/ matches word q s.
Proof.
  rewrite !matches_from. split.
  - intros [a [t [-> H]]]. apply from_alt in H as [H|H]; [left|right]; exists a, t; auto.
  - intros [[a [t [-> H]]]|[a [t [-> H]]]]; exists a, t; rewrite from_alt; auto.
Qed.
Lemma matches_bol q s : matches word (Seq Bol q) s <-> from q any [] s.
Proof.
  rewrite matches_from. split.
  - intros [a [t [-> H]]]. apply from_seq, from_bol in H as [-> H]. exact H.
  - intro H. exists [], s. split; auto. apply from_seq, from_bol. auto.
Qed.

(** A word. *)
Fixpoint lits (w : text) (q : re) : re :=
  match w with [] => q | c :: w' => Seq (chr c) (lits w' q) end.
Lemma from_lits w : forall q P a s,
  from (lits w q) P a s <-> is_prefix w s = true /\ from q P (a ++ w) (skipn (length w) s).
Proof.
  induction w as [|c w IH]; intros q P a s; cbn [lits is_prefix length skipn].
  - rewrite app_nil_r. tauto.
  - rewrite from_seq. unfold chr. rewrite from_chr. destruct s as [|d s]; [intuition discriminate|].
    rewrite chr_is, IH, andb_true_iff, <- app_assoc. cbn [app].
    split; intros H; intuition; try (replace d with c in * by lia); auto.
    all: replace c with d in * by lia; auto.
Qed.
End From.

(** * The tests *)
Lemma one_class word neg rs f :
  (forall c, f c = in_class neg rs c) ->
  forall s, single f s = true <-> matches word (Seq Bol (Seq (Chr neg rs) (Seq Eol Eps))) s.
Proof.
  intros E s. rewrite matches_bol, from_seq, from_chr. destruct s as [|c [|d s]]; cbn; [intuition discriminate| |].
  - rewrite E, from_seq, from_eol, from_eps. unfold any. tauto.
  - rewrite from_seq, from_eol. intuition discriminate.
Qed.
Lemma two_classes word neg rs neg' rs' f g :
  (forall c, f c = in_class neg rs c) -> (forall c, g c = in_class neg' rs' c) ->
  forall s, pair f g s = true <-> matches word (Seq Bol (Seq (Chr neg rs) (Seq (Chr neg' rs') (Seq Eol Eps)))) s.
Proof.
  intros E E' s. rewrite matches_bol, from_seq, from_chr.
  destruct s as [|c [|d s]]; cbn; [intuition discriminate| |].
  - rewrite from_seq, from_chr. intuition discriminate.
  - rewrite from_seq, from_chr, from_seq, from_eol, from_eps. destruct s; [|intuition discriminate].
    rewrite E, E', andb_true_iff. unfold any. tauto.
Qed.

Ltac classes := intro; unfold isnamec; unfold iswordc, iswordc1; unfold isalnum;
  unfold isalpha, isxdigit; unfold in_class, in_range, isdigit, isodigit, iswhite, isupper, islower, re_space;
  unfold between; cbn; lia.

Lemma go_word_is c : go_word c = iswordc c.
Proof. unfold go_word, letter_or_digit, letters_digits, in_range, iswordc, isalnum, isdigit, isalpha, isupper, islower, between. cbn. lia. Qed.
Lemma behind_is s : word_behind go_word s = word_at s.
Proof. destruct s; cbn; auto. apply go_word_is. Qed.
Lemma before_snoc f a c : word_before f (a ++ [c]) = f c.
Proof. unfold word_before. rewrite rev_app_distr. reflexivity. Qed.

Lemma is_prefix_iff w s : is_prefix w s = true <-> exists t, s = w ++ t.
Proof.
  revert s. induction w as [|c w IH]; intro s; cbn.
  - split; eauto.
  - destruct s as [|d s]; [split; [discriminate|intros [t Ht]; discriminate]|].
    rewrite andb_true_iff, IH. split.
    + intros [E [t ->]]. exists t. f_equal. lia.
    + intros [t Ht]. injection Ht as -> ->. split; [lia|eauto].
Qed.
Lemma skipn_app_len {A} (w t : list A) : skipn (length w) (w ++ t) = t.
Proof. induction w; cbn; auto. Qed.

(** \bW\b *)
Lemma has_word_from_iff w c0 w0 c1 w1 : w = c0 :: w0 -> w = w1 ++ [c1] -> iswordc c0 = true -> iswordc c1 = true ->
  forall s a, has_word_from (word_before go_word a) w s = true <->
    exists m t, s = m ++ t /\ word_before go_word (a ++ m) = false /\ is_prefix w t = true
                /\ word_at (skipn (length w) t) = false.
Proof.
  intros W0 W1 H0 H1. induction s as [|c s IH]; intro a; cbn [has_word_from].
  - rewrite W0 at 1. cbn. rewrite andb_false_r. cbn. split; [discriminate|].
    intros [m [t [E [_ [Hp _]]]]]. symmetry in E. apply app_eq_nil in E as [-> ->]. rewrite W0 in Hp. discriminate.
  - rewrite orb_true_iff. replace (iswordc c) with (word_before go_word (a ++ [c])) by (rewrite before_snoc; apply go_word_is).
    rewrite IH. split.
    + intros [H|[m [t [-> [Hb Hr]]]]].
      * exists [], (c :: s). rewrite app_nil_r. repeat split; auto; lia.
      * exists (c :: m), t. rewrite <- app_assoc in Hb. auto.
    + intros [[|d m] [t [E [Hb [Hp Hw]]]]].
      * left. cbn in E. subst t. rewrite app_nil_r in Hb. rewrite Hb, Hp, Hw. reflexivity.
      * right. injection E as <- ->. exists m, t. rewrite <- app_assoc. auto.
Qed.
Lemma has_word_iff w c0 w0 c1 w1 : w = c0 :: w0 -> w = w1 ++ [c1] -> iswordc c0 = true -> iswordc c1 = true ->
  forall s, has_word w s = true <->
    exists a t, s = a ++ t /\ word_before go_word a = false /\ is_prefix w t = true
                /\ word_at (skipn (length w) t) = false.
Proof. intros W0 W1 H0 H1 s. apply (has_word_from_iff w c0 w0 c1 w1 W0 W1 H0 H1 s []). Qed.

(** An edge before a word: no word before; behind a word: no word behind. *)
Lemma edge_word w c0 w0 c1 w1 : w = c0 :: w0 -> w = w1 ++ [c1] -> iswordc c0 = true -> iswordc c1 = true ->
  forall a s,
  (word_before go_word a <> word_behind go_word s /\ is_prefix w s = true /\
   word_before go_word (a ++ w) <> word_behind go_word (skipn (length w) s)) <->
  (word_before go_word a = false /\ is_prefix w s = true /\ word_at (skipn (length w) s) = false).
Proof.
  intros W0 W1 H0 H1 a s. rewrite !behind_is.
  assert (Hl : word_before go_word (a ++ w) = true) by (rewrite W1, app_assoc, before_snoc, go_word_is; exact H1).
  rewrite Hl.
  assert (is_prefix w s = true -> word_at s = true).
  { rewrite is_prefix_iff. intros [t ->]. rewrite W0. exact H0. }
  destruct (word_at (skipn (length w) s)), (word_before go_word a), (word_at s); intuition congruence.
Qed.
Lemma word_test w c0 w0 c1 w1 : w = c0 :: w0 -> w = w1 ++ [c1] -> iswordc c0 = true -> iswordc c1 = true ->
  forall s, has_word w s = true <-> matches go_word (Seq Edge (lits w (Seq Edge Eps))) s.
Proof.
  intros W0 W1 H0 H1 s. rewrite (has_word_iff w c0 w0 c1 w1 W0 W1 H0 H1), matches_from.
  split; intros [a [t [-> H]]]; exists a, t; split; auto.
  - apply (edge_word w c0 w0 c1 w1 W0 W1 H0 H1) in H as [E [Hp He]].
    rewrite from_seq, from_edge, from_lits, from_seq, from_edge, from_eps. unfold any. auto.
  - rewrite from_seq, from_edge, from_lits, from_seq, from_edge in H.
    apply (edge_word w c0 w0 c1 w1 W0 W1 H0 H1). tauto.
Qed.
(** The same word inside a group. *)
Lemma from_group word w q P a s :
  from word (Seq (lits w Eps) q) P a s <-> from word (lits w q) P a s.
Proof. rewrite from_seq, !from_lits, from_eps. tauto. Qed.
Lemma word_group w c0 w0 c1 w1 : w = c0 :: w0 -> w = w1 ++ [c1] -> iswordc c0 = true -> iswordc c1 = true ->
  forall s, has_word w s = true <-> matches go_word (Seq Edge (Seq (lits w Eps) (Seq Edge Eps))) s.
Proof.
  intros W0 W1 H0 H1 s. rewrite (word_test w c0 w0 c1 w1 W0 W1 H0 H1), !matches_from.
  split; intros [a [t [-> H]]]; exists a, t; split; auto.
  - rewrite from_seq, from_edge in *. rewrite from_group. exact H.
  - rewrite from_seq, from_edge in *. rewrite <- from_group. exact H.
Qed.

(** ^lit\b *)
Lemma lit_b_test w c1 w1 (P : text -> text -> Prop) a s : w = w1 ++ [c1] -> iswordc c1 = true -> (forall x y, P x y) ->
  (re_lit_b w s = true <-> from go_word (lits w (Seq Edge Eps)) P a s).
Proof.
  intros W1 H1 HP. rewrite from_lits, from_seq, from_edge, from_eps, behind_is.
  unfold re_lit_b, not_word_at. rewrite andb_true_iff.
  replace (word_before go_word (a ++ w)) with true by (rewrite W1, app_assoc, before_snoc, go_word_is; auto).
  pose proof (HP (a ++ w) (skipn (length w) s)).
  destruct (word_at _); cbn; intuition congruence.
Qed.
Lemma lits_app w w' q : lits (w ++ w') q = lits w (lits w' q).
Proof. induction w; cbn; congruence. Qed.

(** Names. *)
Lemma body_test word neg rs neg' rs' f g :
  (forall c, f c = in_class neg rs c) -> (forall c, g c = in_class neg' rs' c) ->
  forall a s, match s with [] => false | c :: t => f c && forallb g t end = true <->
  from word (Seq (Chr neg rs) (Seq (Star (Chr neg' rs')) (Seq Eol Eps))) any a s.
Proof.
  intros E E' a s. rewrite from_seq, from_chr. destruct s as [|c t]; [intuition discriminate|].
  rewrite andb_true_iff, E, from_seq, from_star_chr.
  assert (Hf : forall m, forallb g m = forallb (in_class neg' rs') m)
    by (induction m; cbn; congruence).
  split.
  - intros [Hc Ht]. split; auto. exists t, []. rewrite app_nil_r, <- Hf. repeat split; auto.
    rewrite from_seq, from_eol, from_eps. unfold any. auto.
  - intros [Hc [m [b [-> [Hm Hr]]]]]. rewrite from_seq, from_eol in Hr. destruct Hr as [-> _].
    rewrite app_nil_r, Hf. auto.
Qed.
Lemma mem_class c l : mem_N c l = in_class false (map (fun c => (c, c)) l) c.
Proof.
  unfold in_class. induction l as [|d l IH]; [reflexivity|]. cbn [mem_N map existsb]. rewrite IH.
  f_equal. unfold in_range. cbn. lia.
Qed.
Definition scopes : list (N * N) := map (fun c => (c, c)) (T "vgslabwt").
Lemma scope_is c : isscope c = in_class false scopes c.
Proof. apply mem_class. Qed.
Lemma body_is a s : isvarbody s = true <->
  from go_word (Seq (Chr false [(65, 90); (97, 122); (95, 95)])
    (Seq (Star (Chr false [(48, 57); (65, 90); (97, 122); (95, 95); (35, 35)])) (Seq Eol Eps))) any a s.
Proof. unfold isvarbody. apply body_test; classes. Qed.
Lemma colon_not_word : iswordc (C ":") || (C ":" =? C "#") = false. Proof. reflexivity. Qed.

Lemma varname_test s : isvarname s = true <->
  matches go_word (Alt
    (Seq Bol (Seq (Chr false scopes) (Seq (chr (C ":")) (Seq Eol Eps))))
    (Seq Bol (Seq (opt (Seq (Chr false scopes) (Seq (chr (C ":")) Eps)))
       (Seq (Chr false [(65, 90); (97, 122); (95, 95)])
         (Seq (Star (Chr false [(48, 57); (65, 90); (97, 122); (95, 95); (35, 35)])) (Seq Eol Eps)))))) s.
Proof.
  rewrite matches_alt, !matches_bol, (from_seq _ (opt _)). unfold opt. rewrite from_alt, from_eps, <- body_is.
  unfold isvarname. rewrite orb_true_iff.
  rewrite from_seq, from_chr. rewrite (from_seq _ (Chr false scopes)), from_chr.
  destruct s as [|x s]; [intuition discriminate|].
  rewrite from_seq, (from_seq _ (chr _) Eps). unfold chr. rewrite !from_chr.
  destruct s as [|y s]; [intuition discriminate|].
  rewrite !chr_is, from_eps, from_seq, from_eol, from_eps, <- body_is, scope_is.
  replace (C ":" =? y) with (y =? C ":") by lia. unfold any.
  destruct s as [|z s].
  - rewrite andb_true_iff. cbn [isvarbody]. intuition discriminate.
  - rewrite !andb_true_iff. intuition discriminate.
Qed.

(** s repeated *)
Lemma s_repeat_test s : re_s_repeat s = true <->
  matches go_word
    (Seq Bol (Seq (chr (C "s"))
      (Seq (Alt (Seq (chr (C "c")) (Seq (Chr true [(115, 115); (114, 114)]) (Seq (Chr true [(105, 105)]) (Seq (Chr true [(112, 112)]) Eps))))
           (Alt (Seq (chr (C "g")) Eps)
           (Alt (Seq (chr (C "i")) (Seq (Chr true [(109, 109); (108, 108); (103, 103)]) Eps))
           (Alt (Seq (chr (C "I")) Eps)
                (Seq (chr (C "r")) (Seq (Chr true [(101, 101)]) Eps)))))) Eps))) s.
Proof.
  rewrite matches_bol, from_seq. unfold chr. rewrite from_chr.
  destruct s as [|c s]; [cbn; intuition discriminate|]. rewrite chr_is.
  destruct (115 =? c) eqn:E0.
  2:{ split; [|intuition discriminate]. intro H. exfalso.
      unfold re_s_repeat in H. destruct c as [|c]; [discriminate|].
      do 7 (destruct c as [c|c|]; try discriminate). }
  assert (c = 115) by lia. subst c. clear E0. cbn [re_s_repeat].
  rewrite from_seq, !from_alt, !from_seq, !from_chr.
  destruct s as [|d s]; [intuition discriminate|]. rewrite !chr_is, !from_eps, !from_seq, !from_chr.
  unfold any.
  assert (D : d = 99 \/ d = 103 \/ d = 105 \/ d = 73 \/ d = 114 \/ (d <> 99 /\ d <> 103 /\ d <> 105 /\ d <> 73 /\ d <> 114)) by lia.
  destruct D as [->|[->|[->|[->|[->|[D1 [D2 [D3 [D4 D5]]]]]]]]].
  - destruct s as [|x s]; [intuition discriminate|].
    rewrite from_seq, from_chr.
    destruct s as [|y s]; [intuition discriminate|].
    rewrite from_seq, from_chr.
    destruct s as [|z s]; [intuition discriminate|].
    rewrite from_eps, from_eps. unfold in_class, in_range. cbn [existsb fst snd].
    rewrite !andb_true_iff. intuition (try lia).
  - cbn. intuition discriminate.
  - destruct s as [|x s]; [intuition discriminate|].
    rewrite !from_eps. unfold in_class, in_range. cbn [existsb fst snd]. intuition (try lia).
  - cbn. intuition discriminate.
  - destruct s as [|x s]; [intuition discriminate|].
    rewrite !from_eps. unfold in_class, in_range. cbn [existsb fst snd]. intuition (try lia).
  - split.
    + intro H. exfalso. destruct d as [|d]; [discriminate|].
      do 7 (destruct d as [d|d|]; try discriminate; try lia).
    + intuition lia.
Qed.

(** One of some characters. *)
Lemma some_class word neg rs f : (forall c, f c = in_class neg rs c) ->
  forall s, existsb f s = true <-> matches word (Seq (Chr neg rs) Eps) s.
Proof.
  intros E s. rewrite matches_from. split.
  - intro H. apply existsb_exists in H as [c [Hin Hc]]. apply in_split in Hin as [a [b ->]].
    exists a, (c :: b). split; auto. rewrite from_seq, from_chr, from_eps, <- E. unfold any. auto.
  - intros [a [t [-> H]]]. rewrite from_seq, from_chr in H. destruct t as [|c t]; [tauto|].
    rewrite existsb_app. cbn. rewrite E. replace (in_class neg rs c) with true by (symmetry; tauto).
    rewrite orb_true_r. reflexivity.
Qed.

Lemma upper_test s : starts_upper s = true <-> matches go_word (Seq Bol (Seq (Chr false [(65, 90)]) Eps)) s.
Proof.
  rewrite matches_bol, from_seq, from_chr. destruct s as [|c s]; [cbn; intuition discriminate|].
  rewrite from_eps. unfold any. cbn [starts_upper].
  replace (in_class false [(65, 90)] c) with (isupper c) by (revert c; classes). tauto.
Qed.

Lemma prefix_test w s : is_prefix w s = true <-> matches go_word (Seq Bol (lits w Eps)) s.
Proof. rewrite matches_bol, from_lits, from_eps. unfold any. tauto. Qed.

Lemma lit_S_test w s : re_lit_S w s = true <->
  matches go_word (Seq Bol (lits w (Seq (Chr true [(9, 10); (12, 13); (32, 32)]) Eps))) s.
Proof.
  rewrite matches_bol, from_lits, from_seq, from_chr. unfold re_lit_S. rewrite andb_true_iff.
  destruct (skipn (length w) s) as [|c t]; [intuition discriminate|].
  rewrite from_eps. unfold any.
  replace (negb (re_space c)) with (in_class true [(9, 10); (12, 13); (32, 32)] c) by (revert c; classes). tauto.
Qed.

Lemma continuation_test s : re_continuation s = true <->
  matches go_word (Seq Bol (Seq (Star (Chr false [(9, 10); (12, 13); (32, 32)])) (Seq (chr 92) Eps))) s.
Proof.
  rewrite matches_bol, from_seq, from_star_chr.
  assert (E : forall c, re_space c = in_class false [(9, 10); (12, 13); (32, 32)] c) by classes.
  generalize (@nil N) as a. induction s as [|c s IH]; intro a; cbn [re_continuation].
  - split; [discriminate|]. intros [m [b [Eq [_ H]]]]. symmetry in Eq. apply app_eq_nil in Eq as [-> ->].
    rewrite from_seq in H. unfold chr in H. rewrite from_chr in H. tauto.
  - rewrite orb_true_iff, andb_true_iff, (IH (a ++ [c])). split.
    + intros [H|[Hs [m [b [-> [Hm H]]]]]].
      * exists [], (c :: s). split; [reflexivity|]. split; [reflexivity|].
        rewrite from_seq. unfold chr. rewrite from_chr, chr_is, from_eps. unfold any. split; auto. lia.
      * exists (c :: m), b. split; [reflexivity|]. cbn [forallb]. rewrite <- E, Hs. split; auto.
        rewrite <- app_assoc in H. exact H.
    + intros [[|d m] [b [Eq [Hm H]]]].
      * left. cbn in Eq. subst b. rewrite from_seq in H. unfold chr in H. rewrite from_chr, chr_is in H. lia.
      * right. injection Eq as <- ->. cbn [forallb] in Hm. apply andb_true_iff in Hm as [Hd Hm].
        rewrite E. split; auto. exists m, b. rewrite <- app_assoc. auto.
Qed.

(** Behind a prefix. *)
Lemma from_lits_app word w q P a s :
  from word (lits w q) P a s <-> exists t, s = w ++ t /\ from word q P (a ++ w) t.
Proof.
  rewrite from_lits, is_prefix_iff. split.
  - intros [[t ->] H]. rewrite skipn_app_len in H. eauto.
  - intros [t [-> H]]. rewrite skipn_app_len. eauto.
Qed.
Lemma mem_text_iff x l : mem_text x l = true <-> In x l.
Proof.
  assert (E : forall a b, text_eqb a b = true <-> a = b).
  { induction a as [|c a IH]; intros [|d b]; cbn; try (split; congruence).
    rewrite andb_true_iff, IH. split; [intros [H ->]; f_equal; lia|intro H; injection H as -> ->; split; [lia|auto]]. }
  induction l as [|y l IH]; cbn; [intuition discriminate|]. rewrite orb_true_iff, E, IH. intuition.
Qed.
Lemma lp_end word a s :
  from word (Seq (Chr false [(108, 108); (112, 112)]) (Seq Eol Eps)) any a s <-> s = T "l" \/ s = T "p".
Proof.
  rewrite from_seq, from_chr. destruct s as [|c s]; [split; [tauto|intros [H|H]; discriminate]|].
  rewrite from_seq, from_eol, from_eps. unfold any, in_class, in_range. cbn [existsb fst snd]. split.
  - intros [H [-> _]]. assert (c = 108 \/ c = 112) as [-> | ->] by lia; auto.
  - intros [H|H]; injection H as -> ->; auto.
Qed.
Lemma delete_test s : re_delete_lp s = true <->
  matches go_word (Seq Bol (lits (T "d") (Seq
    (Alt (lits (T "elete") Eps) (Alt (lits (T "elet") Eps) (Alt (lits (T "ele") Eps)
      (Alt (lits (T "el") Eps) (lits (T "e") Eps)))))
    (Seq (Chr false [(108, 108); (112, 112)]) (Seq Eol Eps))))) s.
Proof.
  unfold re_delete_lp. rewrite mem_text_iff, in_flat_map, matches_bol, from_lits_app.
  split.
  - intros [x [Hx Hs]].
    assert (Hd : exists w, x = T "d" ++ w /\ In w [T "elete"; T "elet"; T "ele"; T "el"; T "e"]).
    { cbn in Hx. destruct Hx as [<-|[<-|[<-|[<-|[<-|[]]]]]];
        [exists (T "elete")|exists (T "elet")|exists (T "ele")|exists (T "el")|exists (T "e")]; cbn; tauto. }
    destruct Hd as [w [-> Hw]]. rewrite <- !app_assoc in Hs.
    assert (He : exists e, s = T "d" ++ w ++ e /\ (e = T "l" \/ e = T "p")).
    { destruct Hs as [<-|[<-|[]]]; eauto. }
    destruct He as [e [-> He]]. exists (w ++ e). split; [reflexivity|].
    rewrite from_seq, !from_alt.
    assert (F : from go_word (lits w Eps)
                  (from go_word (Seq (Chr false [(108, 108); (112, 112)]) (Seq Eol Eps)) any) (T "d") (w ++ e)).
    { rewrite from_lits_app. exists e. split; [reflexivity|]. rewrite from_eps, lp_end. exact He. }
    destruct Hw as [<-|[<-|[<-|[<-|[<-|[]]]]]]; tauto.
  - intros [t [-> H]]. rewrite from_seq, !from_alt, !from_lits_app in H.
    destruct H as [[e [-> H]]|[[e [-> H]]|[[e [-> H]]|[[e [-> H]]|[e [-> H]]]]]];
      rewrite from_eps, lp_end in H;
      [exists (T "delete")|exists (T "delet")|exists (T "dele")|exists (T "del")|exists (T "de")];
      (split; [cbn; tauto|]); destruct H as [-> | ->]; cbn; auto.
Qed.

(** ^lit(dos|unix|mac)\b *)
Lemma lit_ff_test w s : re_lit_ff w s = true <->
  matches go_word (Seq Bol (lits w (Seq
    (Alt (lits (T "dos") Eps) (Alt (lits (T "unix") Eps) (lits (T "mac") Eps))) (Seq Edge Eps)))) s.
Proof.
  rewrite matches_bol, from_lits_app. unfold re_lit_ff. rewrite !orb_true_iff.
  assert (P : forall x y, any x y) by (intros; exact I).
  rewrite (lit_b_test (w ++ T "dos") (C "s") (w ++ T "do") any [] s) by (rewrite <- ?app_assoc; auto).
  rewrite (lit_b_test (w ++ T "unix") (C "x") (w ++ T "uni") any [] s) by (rewrite <- ?app_assoc; auto).
  rewrite (lit_b_test (w ++ T "mac") (C "c") (w ++ T "ma") any [] s) by (rewrite <- ?app_assoc; auto).
  rewrite !lits_app, !from_lits_app. split.
  - intros [[[t [-> H]]|[t [-> H]]]|[t [-> H]]]; exists t; (split; [reflexivity|]);
      rewrite from_seq, !from_alt, <- !from_seq, !from_group; tauto.
  - intros [t [-> H]]. rewrite from_seq, !from_alt, <- !from_seq, !from_group in H.
    destruct H as [H|[H|H]]; [left; left|left; right|right]; eauto.
Qed.

Lemma lits_nil q : q = lits [] q. Proof. reflexivity. Qed.
Lemma bad_test s : re_bad s = true <->
  matches go_word (Seq Bol (lits (T "++bad=") (Seq
    (Alt (lits (T "keep") Eps) (Alt (lits (T "drop") Eps) (Seq (Chr true [(10, 10)]) Eps))) (Seq Edge Eps)))) s.
Proof.
  rewrite matches_bol, from_lits_app. unfold re_bad. rewrite !orb_true_iff, andb_true_iff.
  assert (P : forall x y, any x y) by (intros; exact I).
  rewrite (lit_b_test (T "++bad=" ++ T "keep") (C "p") (T "++bad=kee") any [] s) by auto.
  rewrite (lit_b_test (T "++bad=" ++ T "drop") (C "p") (T "++bad=dro") any [] s) by auto.
  rewrite !lits_app, !from_lits_app.
  assert (D : forall a t, from go_word (Seq (Seq (Chr true [(10, 10)]) Eps) (Seq Edge Eps)) any a t <->
    match t with r :: t => negb (r =? 10) && xorb (iswordc r) (word_at t) | [] => false end = true).
  { intros a t. rewrite !from_seq, from_chr. destruct t as [|r t]; [intuition discriminate|].
    rewrite from_eps, from_seq, from_edge, from_eps, before_snoc, behind_is, go_word_is.
    replace (in_class true [(10, 10)] r) with (negb (r =? 10)) by (unfold in_class, in_range; cbn; lia).
    unfold any. rewrite andb_true_iff. destruct (iswordc r), (word_at t); cbn; intuition congruence. }
  split.
  - intros [[[t [-> H]]|[t [-> H]]]|[Hp H]].
    1,2: exists t; (split; [reflexivity|]); rewrite from_seq, !from_alt, <- !from_seq, !from_group; tauto.
    apply is_prefix_iff in Hp as [t ->]. exists t. split; [reflexivity|]. cbn [skipn app] in H.
    rewrite from_seq, !from_alt, <- !from_seq. right. right. apply D. exact H.
  - intros [t [-> H]]. rewrite from_seq, !from_alt, <- !from_seq, !from_group in H.
    destruct H as [H|[H|H]]; [left; left|left; right|right]; eauto.
    apply D in H. split; [reflexivity|exact H].
Qed.

Lemma files_test s :
  has_word (T "XFILE") s || has_word (T "FILES") s || has_word (T "FILE1") s = true <->
  matches go_word (Seq Edge (Seq
    (Alt (lits (T "XFILE") Eps) (Alt (lits (T "FILES") Eps) (lits (T "FILE1") Eps))) (Seq Edge Eps))) s.
Proof.
  rewrite !orb_true_iff.
  rewrite (word_group (T "XFILE") (C "X") (T "FILE") (C "E") (T "XFIL")) by reflexivity.
  rewrite (word_group (T "FILES") (C "F") (T "ILES") (C "S") (T "FILE")) by reflexivity.
  rewrite (word_group (T "FILE1") (C "F") (T "ILE1") (C "1") (T "FILE")) by reflexivity.
  rewrite !matches_from. split.
  - intros [[[a [t [-> H]]]|[a [t [-> H]]]]|[a [t [-> H]]]]; exists a, t; (split; [reflexivity|]);
      rewrite from_seq, from_edge in *; rewrite from_seq, !from_alt, <- !from_seq; tauto.
  - intros [a [t [-> H]]]. rewrite from_seq, from_edge, from_seq, !from_alt, <- !from_seq in H.
    destruct H as [E [H|[H|H]]]; [left; left|left; right|right]; exists a, t;
      rewrite from_seq, from_edge; auto.
Qed.

(** Every test of the model is the one that the table gives for the pattern in the code. *)
Definition as_in_table (t : text * (text -> bool)) : Prop :=
  exists v r, pattern_of (fst t) = Some v /\ go_pattern v = Some r /\
              forall s, snd t s = true <-> matches go_word r s.

Ltac looked_up := eexists _, _; split; [vm_compute; reflexivity|split; [vm_compute; reflexivity|]]; cbn [snd].
Ltac a_word w c0 w0 c1 w1 := looked_up; apply (word_test w c0 w0 c1 w1); reflexivity.
Ltac a_lit w c1 w1 := looked_up; intro; rewrite matches_bol; apply (lit_b_test w c1 w1 any []); [reflexivity|reflexivity|intros; exact I].
Theorem tests_as_in_table : Forall as_in_table parser_tests.
Proof.
  unfold parser_tests.
  do 9 (apply Forall_cons; [looked_up; apply one_class; classes|]).
  apply Forall_cons. { looked_up. intro s. rewrite matches_bol. apply body_test; classes. }
  apply Forall_cons. { looked_up. exact varname_test. }
  do 2 (apply Forall_cons; [looked_up; apply one_class; classes|]).
  apply Forall_cons. { a_word (T "BANG") (C "B") (T "ANG") (C "G") (T "BAN"). }
  apply Forall_cons. { a_word (T "USERCMD") (C "U") (T "SERCMD") (C "D") (T "USERCM"). }
  apply Forall_cons. { a_word (T "ARGOPT") (C "A") (T "RGOPT") (C "T") (T "ARGOP"). }
  apply Forall_cons. { a_word (T "EDITCMD") (C "E") (T "DITCMD") (C "D") (T "EDITCM"). }
  apply Forall_cons. { looked_up. exact s_repeat_test. }
  apply Forall_cons. { looked_up. apply some_class. intro c. apply (mem_class c (T "@*!=><&~#")). }
  apply Forall_cons. { looked_up. exact delete_test. }
  apply Forall_cons. { looked_up. exact upper_test. }
  apply Forall_cons. { a_lit (T "++bin") (C "n") (T "++bi"). }
  apply Forall_cons. { a_lit (T "++nobin") (C "n") (T "++nobi"). }
  apply Forall_cons. { a_lit (T "++edit") (C "t") (T "++edi"). }
  apply Forall_cons. { looked_up. exact (lit_ff_test (T "++ff=")). }
  apply Forall_cons. { looked_up. exact (lit_ff_test (T "++fileformat=")). }
  apply Forall_cons. { looked_up. exact (lit_S_test (T "++enc=")). }
  apply Forall_cons. { looked_up. exact (lit_S_test (T "++encoding=")). }
  apply Forall_cons. { looked_up. exact bad_test. }
  apply Forall_cons. { looked_up. exact (prefix_test (T "++bad=keep")). }
  apply Forall_cons. { looked_up. exact (prefix_test (T "++bad=drop")). }
  apply Forall_cons. { looked_up. exact (prefix_test (T "++")). }
  apply Forall_cons. { a_word (T "TRLBAR") (C "T") (T "RLBAR") (C "R") (T "TRLBA"). }
  apply Forall_cons. { looked_up. exact files_test. }
  apply Forall_cons. { a_word (T "NOTRLCOM") (C "N") (T "OTRLCOM") (C "M") (T "NOTRLCO"). }
  apply Forall_cons. { a_word (T "USECTRLV") (C "U") (T "SECTRLV") (C "V") (T "USECTRL"). }
  apply Forall_cons. { looked_up. apply two_classes; classes. }
  apply Forall_cons. { looked_up. apply two_classes; [intro c; rewrite chr_is; reflexivity|classes]. }
  apply Forall_cons. { looked_up. apply two_classes; classes. }
  apply Forall_cons. { looked_up. exact continuation_test. }
  apply Forall_nil.
Qed.
