(** Every full command name is the name of its command; the bang of a command. *)
From Coq Require Import Lia.
From Verif Require Import Base CharClass Reader Vnode CmdTable CmdParser Cursor Head CmdArgs HeadProof.

Definition name_sign (n : text) : bool :=
  match n with [r] => existsb (N.eqb r) (T "@*!=><&~#") | _ => false end.
Definition is_py (n : text) : bool := match n with a :: b :: _ => (a =? C "p") && (b =? C "y") | _ => false end.
Definition no_py (n : text) : bool := match n with a :: b :: _ => negb ((a =? C "p") && (b =? C "y")) | [a] => negb (a =? C "p") | [] => false end.
Definition no_k (n : text) : bool := match n with a :: _ => negb (a =? C "k") | [] => false end.
Definition no_s (n : text) : bool :=
  match n with
  | a :: b :: l =>
      if a =? C "s" then
        if existsb (N.eqb b) (T "gI") then false
        else if b =? C "i" then match l with x :: _ => existsb (N.eqb x) (T "mlg") | [] => false end
        else if b =? C "r" then match l with x :: _ => x =? C "e" | [] => false end
        else if b =? C "c" then match l with x :: _ => existsb (N.eqb x) (T "sr") | [] => false end
        else true
      else true
  | [a] => negb (a =? C "s") | [] => false
  end.
Definition deletes : list text :=
  flat_map (fun d => [d ++ T "l"; d ++ T "p"]) [T "de"; T "del"; T "dele"; T "delet"; T "delete"].
Definition plain_name (n : text) : bool :=
  forallb isalpha n && no_k n && no_py n && no_s n && negb (existsb (text_eqb n) deletes).
Definition whole_name (n : text) : bool :=
  text_eqb n (T "k") || name_sign n || (is_py n && forallb isalnum n) || plain_name n.

Lemma nth_alnum_alpha t : starts_with isalnum t = false -> starts_with isalpha t = false.
Proof.
  destruct t as [|r t]; cbn [starts_with]; auto. intros H. destruct (isalpha r) eqn:E; auto. apply alnum_alpha in E. congruence.
Qed.

Lemma eqbs r (s : text) : existsb (N.eqb r) s = true <-> In r s.
Proof.
  rewrite existsb_exists. split. intros [y [H1 H2]]. apply N.eqb_eq in H2. subst; auto.
  intros H. exists r. split; auto. apply N.eqb_refl.
Qed.

Lemma no_s_ok n t : no_s n = true -> ~ repeats_s (n ++ t).
Proof.
  intros H R. destruct n as [|a [|b l]]; cbn [no_s] in H; [discriminate| |].
  - inversion R; cbn in *; subst; discriminate.
  - destruct (a =? C "s") eqn:Ea; [apply N.eqb_eq in Ea; subst a|inversion R; cbn in *; subst; discriminate].
    destruct (existsb (N.eqb b) (T "gI")) eqn:E1; [discriminate|].
    destruct (b =? C "i") eqn:E2.
    { apply N.eqb_eq in E2. subst b. destruct l as [|x l]; [discriminate|]. apply eqbs in H. cbn [app] in R.
      inversion R as [| |x' t' K E| |]; subst; cbn in *; try discriminate. auto. }
    destruct (b =? C "r") eqn:E3.
    { apply N.eqb_eq in E3. subst b. destruct l as [|x l]; [discriminate|]. apply N.eqb_eq in H. cbn [app] in R.
      inversion R as [| |  |x' t' K E|]; subst; cbn in *; try discriminate. congruence. }
    destruct (b =? C "c") eqn:E4.
    { apply N.eqb_eq in E4. subst b. destruct l as [|x l]; [discriminate|]. apply eqbs in H. cbn [app] in R.
      inversion R as [| |  | |x' y' z' t' K1 K2 K3 E]; subst; cbn in *; try discriminate. auto. }
    inversion R; cbn in *; subst; discriminate.
Qed.

Lemma deletes_ok n : existsb (text_eqb n) deletes = false -> ~ delete_flag n.
Proof.
  intros H [_ [d [Hd K]]]. assert (In n deletes); [|].
  - unfold deletes. apply in_flat_map. exists d. split; auto. cbn [In]. destruct K; auto.
  - assert (existsb (text_eqb n) deletes = true); [|congruence]. apply existsb_exists. exists n. split; auto. apply text_eqb_eq; auto.
Qed.

Lemma whole_word n t : whole_name n = true -> starts_with isalnum t = false -> word_of (n ++ t) n n.
Proof.
  unfold whole_name. rewrite !orb_true_iff. intros [[[H|H]|H]|H] Ht.
  - apply text_eqb_eq in H. subst n. apply wo_k. exists t. auto.
  - destruct n as [|r [|]]; try discriminate. apply eqbs in H. apply wo_sign; auto. exists t; auto.
  - apply andb_true_iff in H. destruct H as [H1 H2]. apply wo_py.
    + destruct n as [|a [|b n]]; try discriminate. cbn [is_py] in H1. apply andb_true_iff in H1. destruct H1 as [A B].
      apply N.eqb_eq in A, B. subst. exists (n ++ t). auto.
    + exists t. auto.
  - unfold plain_name in H. rewrite !andb_true_iff in H. destruct H as [[[[H1 H2] H3] H4] H5].
    apply wo_letters.
    + exists t. split; [|split]; auto. apply nth_alnum_alpha; auto.
    + intros ->. discriminate.
    + intros [r E]. destruct n; [discriminate|]. cbn in E. inversion E; subst. discriminate.
    + apply no_s_ok; auto.
    + intros [r E]. destruct n as [|a [|b n]]; cbn in E; inversion E; subst; discriminate.
    + apply deletes_ok. apply negb_true_iff. auto.
Qed.

(** vim9script contains a digit; the words of the modifiers keepalt, keepjumps, keepmarks
    and keeppatterns start with k. *)
Definition not_written : list text :=
  [T "vim9script"; T "keepalt"; T "keepjumps"; T "keepmarks"; T "keeppatterns"].
Definition name_resolves (nv : bool) (x : cmd) : bool :=
  existsb (text_eqb (c_name x)) not_written || (nv && existsb (cmd_matches (c_name x)) neovim_removed_commands) ||
  (whole_name (c_name x) &&
   match lookup_builtin nv (c_name x) with
   | Some y => text_eqb (c_name y) (c_name x) &&
       (negb (text_eqb (c_name y) (T "Print") && starts_upper (c_name x)) || forallb isalnum (c_name x))
   | None => false end).
Lemma all_names nv : forallb (name_resolves nv) (command_table nv) = true.
Proof. destruct nv; vm_compute; reflexivity. Qed.

Lemma full_name nv x t : In x (command_table nv) -> ~ In (c_name x) not_written ->
  (nv = true -> forall y, In y neovim_removed_commands -> ~ abbreviates (c_name x) y) ->
  starts_with isalnum t = false ->
  exists y, resolves nv (c_name x ++ t) (c_name x) y /\ c_name y = c_name x.
Proof.
  intros Hx Hn Hr Ht. pose proof (all_names nv) as A. rewrite forallb_forall in A. specialize (A _ Hx).
  unfold name_resolves in A. rewrite !orb_true_iff in A. destruct A as [[A|A]|A].
  - exfalso. apply existsb_exists in A. destruct A as [z [A1 A2]]. apply text_eqb_eq in A2. rewrite <- A2 in A1. auto.
  - apply andb_true_iff in A. destruct A as [A1 A2]. apply existsb_exists in A2. destruct A2 as [y [B1 B2]].
    exfalso. apply (Hr A1 y B1). apply matches_iff; auto.
  - apply andb_true_iff in A. destruct A as [A1 A2]. pose proof (whole_word _ t A1 Ht) as W.
    pose proof (user_word_iff nv (c_name x)) as U. destruct (lookup_builtin nv (c_name x)) as [y|] eqn:E; [|discriminate].
    apply andb_true_iff in A2. destruct A2 as [A2 A3]. apply text_eqb_eq in A2. apply lookup_first in E.
    destruct (text_eqb (c_name y) (T "Print") && starts_upper (c_name x)) eqn:Eu.
    + exists (user_command (c_name x)). split; auto. eapply co_user; [exact W|apply U; auto|]. cbn [negb orb] in A3. exists t. auto.
    + exists y. split; auto. eapply co_table; [exact W|auto|]. intros K. apply U in K. congruence.
Qed.

(** The bang. *)
Lemma head_bang nv x e lead w bang white opts rest : head_text nv x e lead w bang white opts rest ->
  hf_forceit e = true <->
  begins (T "!") (bang ++ white ++ opts ++ rest) /\
  ~ In (c_name x) [T "substitute"; T "smagic"; T "snomagic"; T "read"].
Proof.
  intros H. destruct (ht_opts _ _ _ _ _ _ _ _ _ H) as [os [t1 [t2 [t3 [_ [_ [_ [_ [_ [_ [_ [O _]]]]]]]]]]]].
  pose proof (ht_bang _ _ _ _ _ _ _ _ _ H) as B. split.
  - intros F. rewrite F in O. assert (G : bang = T "!" /\ c_name x <> T "read").
    { inversion O; subst; clear O.
      - split. destruct B as [[B _]|[B _]]; subst; [auto|discriminate]. intros E. match goal with K : In (c_name x) _ |- _ => rewrite E in K; destruct K as [K|[K|[]]]; discriminate K end.
      - split. destruct B as [[B _]|[B _]]; subst; [auto|discriminate]. congruence.
      - split. destruct B as [[B _]|[B _]]; subst; [auto|discriminate].
        intros E. match goal with K : c_name x = [_] |- _ => rewrite E in K; discriminate end.
      - split. destruct B as [[B _]|[B _]]; subst; [auto|discriminate]. intros E. match goal with K : c_name x = T "read" -> _ /\ _ |- _ => destruct (K E); congruence end. }
    destruct G as [-> G]. split; [eexists; reflexivity|]. destruct B as [[_ [B _]]|[B _]]; [|discriminate].
    cbn [In] in *. intuition.
  - intros [[r Hb] Hn]. destruct B as [[-> [B _]]|[-> B]].
    + inversion O; subst; auto; exfalso; apply Hn; cbn [In]; auto 6.
    + exfalso. cbn [app] in *. assert (I : In (c_name x) [T "substitute"; T "smagic"; T "snomagic"]) by (apply B; exists r; auto).
      apply Hn. cbn [In] in *. intuition.
Qed.
Lemma head_bang_flag nv x e lead w bang white opts rest : head_text nv x e lead w bang white opts rest ->
  hf_forceit e = true -> flag (T "BANG") x = true \/ flag (T "USERCMD") x = true.
Proof.
  intros H F. pose proof F as F2. apply (head_bang _ _ _ _ _ _ _ _ _ H) in F2. destruct F2 as [F2 F3].
  destruct (ht_bang _ _ _ _ _ _ _ _ _ H) as [[_ [_ B]]|[-> B]]; auto. exfalso. cbn [app] in *. apply B in F2. apply F3. cbn [In] in *. intuition.
Qed.
