(** The command parser with the node store gives what the one with frames gives. *)
From Verif Require Import Base CharClass Reader Vnode Tokenizer ExprParser CmdTable CmdParser
  HeapParser.
From Coq Require Import Lia ZifyBool ZifyNat ZifyN Permutation.

(** * Following pointers within a set of addresses *)

(** [follow], which stops at an address outside [q]. *)
Fixpoint gfollow (q : nat -> bool) (n : nat) (s : list hnode) (a : nat) : option vnode :=
  match n with
  | O => None
  | S n' =>
    if q a then
      match nth_error s a with
      | None => None
      | Some d =>
        match follow_body (gfollow q n' s) (n_body d), follow_list (gfollow q n' s) (n_elseif d),
              follow_opt (gfollow q n' s) (n_else d), follow_list (gfollow q n' s) (n_catch d),
              follow_opt (gfollow q n' s) (n_finally d) with
        | Some body, Some es, Some el, Some cs, Some fi => Some (assemble d body es el cs fi)
        | _, _, _, _, _ => None
        end
      end
    else None
  end.

Definition sub (f g : nat -> option vnode) : Prop := forall a v, f a = Some v -> g a = Some v.

Lemma follow_body_sub f g : sub f g -> forall l vs, follow_body f l = Some vs -> follow_body g l = Some vs.
Proof.
  intros H l. induction l as [|x t IH]; cbn [follow_body]; intros vs E; [exact E|].
  destruct x as [v|a].
  - destruct (follow_body f t) as [ws|]; [|discriminate E]. rewrite (IH _ eq_refl). exact E.
  - destruct (f a) as [v|] eqn:Ef; [|discriminate E].
    destruct (follow_body f t) as [ws|]; [|discriminate E].
    rewrite (H _ _ Ef), (IH _ eq_refl). exact E.
Qed.

Lemma follow_list_sub f g : sub f g -> forall l vs, follow_list f l = Some vs -> follow_list g l = Some vs.
Proof.
  intros H l. induction l as [|a t IH]; cbn [follow_list]; intros vs E; [exact E|].
  destruct (f a) as [v|] eqn:Ef; [|discriminate E].
  destruct (follow_list f t) as [ws|]; [|discriminate E].
  rewrite (H _ _ Ef), (IH _ eq_refl). exact E.
Qed.

Lemma follow_opt_sub f g : sub f g -> forall o v, follow_opt f o = Some v -> follow_opt g o = Some v.
Proof.
  intros H [a|] v; cbn [follow_opt]; intros E; [|exact E].
  destruct (f a) as [w|] eqn:Ef; [|discriminate E]. rewrite (H _ _ Ef). exact E.
Qed.

Lemma follow_body_app f l vs x v : follow_body f l = Some vs ->
  (match x with Leaf w => Some w | Ptr a => f a end) = Some v ->
  follow_body f (l ++ [x]) = Some (vs ++ [v]).
Proof.
  revert vs. induction l as [|y t IH]; cbn [follow_body app]; intros vs E Ex.
  - injection E as <-. rewrite Ex. reflexivity.
  - destruct (match y with Leaf w => Some w | Ptr a => f a end) as [w|]; [|discriminate E].
    destruct (follow_body f t) as [ws|]; [|discriminate E]. injection E as <-.
    rewrite (IH _ eq_refl Ex). reflexivity.
Qed.

Lemma follow_list_app f l vs x v : follow_list f l = Some vs -> f x = Some v ->
  follow_list f (l ++ [x]) = Some (vs ++ [v]).
Proof.
  revert vs. induction l as [|y t IH]; cbn [follow_list app]; intros vs E Ex.
  - injection E as <-. rewrite Ex. reflexivity.
  - destruct (f y) as [w|]; [|discriminate E].
    destruct (follow_list f t) as [ws|]; [|discriminate E]. injection E as <-.
    rewrite (IH _ eq_refl Ex). reflexivity.
Qed.

(** What is reached stays the same when only addresses that are not reached change. *)
Lemma gfollow_mono q s q' s' :
  (forall b d, q b = true -> nth_error s b = Some d -> q' b = true /\ nth_error s' b = Some d) ->
  forall n n', (n <= n')%nat -> sub (gfollow q n s) (gfollow q' n' s').
Proof.
  intros H n. induction n as [|n IH]; intros n' L a v E; [discriminate E|].
  destruct n' as [|n']; [lia|].
  pose proof (IH n' ltac:(lia)) as I.
  cbn [gfollow] in E |- *.
  destruct (q a) eqn:Eq; [|discriminate E].
  destruct (nth_error s a) as [d|] eqn:Ed; [|discriminate E].
  destruct (H _ _ Eq Ed) as [-> ->].
  destruct (follow_body _ (n_body d)) as [x1|] eqn:E1; [|discriminate E].
  destruct (follow_list _ (n_elseif d)) as [x2|] eqn:E2; [|discriminate E].
  destruct (follow_opt _ (n_else d)) as [x3|] eqn:E3; [|discriminate E].
  destruct (follow_list _ (n_catch d)) as [x4|] eqn:E4; [|discriminate E].
  destruct (follow_opt _ (n_finally d)) as [x5|] eqn:E5; [|discriminate E].
  rewrite (follow_body_sub _ _ I _ _ E1), (follow_list_sub _ _ I _ _ E2),
    (follow_opt_sub _ _ I _ _ E3), (follow_list_sub _ _ I _ _ E4), (follow_opt_sub _ _ I _ _ E5).
  exact E.
Qed.

Lemma gfollow_follow q s n : sub (gfollow q n s) (follow n s).
Proof.
  induction n as [|n IH]; intros a v E; [discriminate E|].
  cbn [gfollow follow] in E |- *.
  destruct (q a); [|discriminate E].
  destruct (nth_error s a) as [d|]; [|discriminate E].
  destruct (follow_body _ (n_body d)) as [x1|] eqn:E1; [|discriminate E].
  destruct (follow_list _ (n_elseif d)) as [x2|] eqn:E2; [|discriminate E].
  destruct (follow_opt _ (n_else d)) as [x3|] eqn:E3; [|discriminate E].
  destruct (follow_list _ (n_catch d)) as [x4|] eqn:E4; [|discriminate E].
  destruct (follow_opt _ (n_finally d)) as [x5|] eqn:E5; [|discriminate E].
  rewrite (follow_body_sub _ _ IH _ _ E1), (follow_list_sub _ _ IH _ _ E2),
    (follow_opt_sub _ _ IH _ _ E3), (follow_list_sub _ _ IH _ _ E4), (follow_opt_sub _ _ IH _ _ E5).
  exact E.
Qed.

Lemma follow_mono s : forall n n', (n <= n')%nat -> sub (follow n s) (follow n' s).
Proof.
  intros n. induction n as [|n IH]; intros n' L a v E; [discriminate E|].
  destruct n' as [|n']; [lia|].
  pose proof (IH n' ltac:(lia)) as I.
  cbn [follow] in E |- *.
  destruct (nth_error s a) as [d|]; [|discriminate E].
  destruct (follow_body _ (n_body d)) as [x1|] eqn:E1; [|discriminate E].
  destruct (follow_list _ (n_elseif d)) as [x2|] eqn:E2; [|discriminate E].
  destruct (follow_opt _ (n_else d)) as [x3|] eqn:E3; [|discriminate E].
  destruct (follow_list _ (n_catch d)) as [x4|] eqn:E4; [|discriminate E].
  destruct (follow_opt _ (n_finally d)) as [x5|] eqn:E5; [|discriminate E].
  rewrite (follow_body_sub _ _ I _ _ E1), (follow_list_sub _ _ I _ _ E2),
    (follow_opt_sub _ _ I _ _ E3), (follow_list_sub _ _ I _ _ E4), (follow_opt_sub _ _ I _ _ E5).
  exact E.
Qed.

(** A complete block below the node at [a]. *)
Definition kid (q : nat -> bool) (s : list hnode) (a c : nat) : option vnode :=
  if Nat.ltb a c then gfollow q (length s - c) s c else None.

Lemma kid_mono q s q' s' a : (length s <= length s')%nat ->
  (forall b d, q b = true -> nth_error s b = Some d -> q' b = true /\ nth_error s' b = Some d) ->
  sub (kid q s a) (kid q' s' a).
Proof.
  intros L H c v. unfold kid. destruct (Nat.ltb a c); [|discriminate].
  apply gfollow_mono; [exact H|lia].
Qed.

(** * The store *)

Lemma change_length a f s : length (change a f s) = length s.
Proof. revert a. induction s as [|n t IH]; intros [|a]; cbn [change length]; auto. Qed.

Lemma change_other a f s b : b <> a -> nth_error (change a f s) b = nth_error s b.
Proof.
  revert a b. induction s as [|n t IH]; intros [|a] [|b] N; cbn [change nth_error]; auto; try congruence.
Qed.

Lemma change_same a f s d : nth_error s a = Some d -> nth_error (change a f s) a = Some (f d).
Proof.
  revert a. induction s as [|n t IH]; intros [|a]; cbn [change nth_error]; intros E; try discriminate E.
  - injection E as ->. reflexivity.
  - apply IH, E.
Qed.

Definition outside (l : list nat) (a : nat) : bool := negb (existsb (Nat.eqb a) l).

Lemma outside_in l a : In a l -> outside l a = false.
Proof.
  intros H. unfold outside. replace (existsb (Nat.eqb a) l) with true; [reflexivity|].
  symmetry. apply existsb_exists. exists a. split; [exact H|apply Nat.eqb_refl].
Qed.
Lemma outside_cons l a b : outside (b :: l) a = negb (Nat.eqb a b) && outside l a.
Proof. unfold outside. cbn [existsb]. now rewrite Bool.negb_orb. Qed.

(** * A node and its frame *)

(** The field in which the node waits for the block that is open below it. *)
Inductive slot := SNone | SBody (a : nat) | SElseif (a : nat) | SElse (a : nat)
| SCatch (a : nat) | SFinally (a : nat).

Definition slot_of (k : fkind) (a : nat) : slot :=
  match k with
  | FElseif _ => SElseif a | FElse => SElse a | FCatch _ => SCatch a | FFinally => SFinally a
  | _ => SBody a
  end.

Definition kind_rel (k : hkind) (fk : fkind) (es : list vnode) (el : option vnode)
  (cs : list vnode) (fi : option vnode) : Prop :=
  match k with
  | HTop => fk = FTop
  | HFunction l rl da at_ => fk = FFunction l rl da at_
  | HIf c => fk = FIf c es el
  | HElseif c => fk = FElseif c
  | HElse => fk = FElse
  | HWhile c => fk = FWhile c
  | HFor l ls rs r => fk = FFor l ls rs r
  | HTry => fk = FTry cs fi
  | HCatch p => fk = FCatch p
  | HFinally => fk = FFinally
  end.

Record node_rel (g : nat -> option vnode) (sl : slot) (d : hnode) (f : frame) : Prop := {
  nr_pos : n_pos d = f_pos f;
  nr_ea : n_ea d = f_ea f;
  nr_rest : exists body es el cs fi ves vel vcs vfi,
    n_body d = body ++ (match sl with SBody a => [Ptr a] | _ => [] end) /\
    n_elseif d = es ++ (match sl with SElseif a => [a] | _ => [] end) /\
    n_else d = (match sl with SElse a => Some a | _ => el end) /\
    n_catch d = cs ++ (match sl with SCatch a => [a] | _ => [] end) /\
    n_finally d = (match sl with SFinally a => Some a | _ => fi end) /\
    follow_body g body = Some (f_body f) /\ follow_list g es = Some ves /\
    follow_opt g el = Some vel /\ follow_list g cs = Some vcs /\ follow_opt g fi = Some vfi /\
    kind_rel (n_kind d) (f_kind f) ves vel vcs vfi }.

Lemma node_rel_sub g g' sl d f : sub g g' -> node_rel g sl d f -> node_rel g' sl d f.
Proof.
  intros I [P E (body & es & el & cs & fi & ves & vel & vcs & vfi & A1 & A2 & A3 & A4 & A5 & B1 & B2 & B3 & B4 & B5 & K)].
  constructor; [exact P|exact E|].
  exists body, es, el, cs, fi, ves, vel, vcs, vfi.
  repeat split; eauto using follow_body_sub, follow_list_sub, follow_opt_sub.
Qed.

(** Which block may be open directly below which. *)
Definition fits (k g : fkind) : Prop :=
  match k with
  | FTop => False
  | FElseif _ | FElse => exists c es el, g = FIf c es el
  | FCatch _ | FFinally => exists cs fi, g = FTry cs fi
  | _ => True
  end.

Fixpoint stack_rel (q : nat -> bool) (s : list hnode) (sl : slot) (l : list nat) (fs : list frame)
  : Prop :=
  match l, fs with
  | a :: l', f :: fs' =>
    (exists d, nth_error s a = Some d /\ node_rel (kid q s a) sl d f) /\
    match l', fs' with
    | [], [] => a = O /\ f_kind f = FTop
    | b :: _, g :: _ =>
      (b < a)%nat /\ fits (f_kind f) (f_kind g) /\ stack_rel q s (slot_of (f_kind f) a) l' fs'
    | _, _ => False
    end
  | _, _ => False
  end.

Lemma stack_below q s : forall l sl a fs, stack_rel q s sl (a :: l) fs -> forall b, In b l -> (b < a)%nat.
Proof.
  induction l as [|c l IH]; intros sl a fs H b I; [destruct I|].
  destruct fs as [|f fs]; [destruct H|]. destruct H as [_ H].
  destruct fs as [|g fs]; [destruct H|]. destruct H as [L [_ H]].
  destruct I as [->|I]; [exact L|]. pose proof (IH _ _ _ H b I). lia.
Qed.

Lemma stack_bound q s : forall l sl fs, stack_rel q s sl l fs -> forall b, In b l -> (b < length s)%nat.
Proof.
  induction l as [|c l IH]; intros sl fs H b I; [destruct I|].
  destruct fs as [|f fs]; [destruct H|]. destruct H as [[d [Ed _]] H].
  destruct I as [<-|I]; [apply nth_error_Some; congruence|].
  destruct l as [|c' l]; [destruct I|]. destruct fs as [|g fs]; [destruct H|].
  destruct H as [_ [_ H]]. exact (IH _ _ H b I).
Qed.

Lemma stack_sub q s q' s' : (forall a, sub (kid q s a) (kid q' s' a)) ->
  forall l sl fs, (forall b, In b l -> nth_error s' b = nth_error s b) ->
  stack_rel q s sl l fs -> stack_rel q' s' sl l fs.
Proof.
  intros I. induction l as [|a l IH]; intros sl fs Hn H; [destruct fs; exact H|].
  destruct fs as [|f fs]; [destruct H|]. cbn [stack_rel] in H |- *.
  destruct H as [[d [Ed Nd]] H]. split.
  - exists d. rewrite Hn by now left. split; [exact Ed|]. exact (node_rel_sub _ _ _ _ _ (I a) Nd).
  - destruct l as [|b l]; destruct fs as [|g fs]; try exact H.
    destruct H as [L [F H]]. split; [exact L|]. split; [exact F|]. refine (IH _ _ _ H).
    intros c Ic. apply Hn. now right.
Qed.

(** * Which object points to which *)

(** An :else or :finally field is empty unless the block that it is for is open: [above]
    is the kind of the block directly above. *)
Definition vacant (above : option hkind) (d : hnode) : Prop :=
  (above <> Some HElse -> n_else d = None) /\ (above <> Some HFinally -> n_finally d = None).

Fixpoint rooms (s : list hnode) (above : option hkind) (l : list nat) : Prop :=
  match l with
  | [] => True
  | a :: r => exists d, nth_error s a = Some d /\ vacant above d /\ rooms s (Some (n_kind d)) r
  end.

(** Every object but the first is pointed to once, by an earlier one. *)
Record tree_shape (s : list hnode) : Prop := {
  ts_once : Permutation (flat_map targets s) (seq 1 (length s - 1));
  ts_later : forall a d, nth_error s a = Some d -> Forall (lt a) (targets d) }.

Lemma rooms_other s s' : forall l above, (forall b, In b l -> nth_error s' b = nth_error s b) ->
  rooms s above l -> rooms s' above l.
Proof.
  induction l as [|a l IH]; intros above H R; [exact I|]. destruct R as [d [Ed [V R]]].
  exists d. rewrite H by now left. split; [exact Ed|]. split; [exact V|].
  apply IH; [intros b Ib; apply H; now right|exact R].
Qed.

Lemma targets_change F x a : forall s d, nth_error s a = Some d ->
  Permutation (targets (F d)) (x ++ targets d) ->
  Permutation (flat_map targets (change a F s)) (x ++ flat_map targets s).
Proof.
  induction a as [|a IH]; intros [|n s] d E H; try discriminate E; cbn [nth_error change flat_map] in *.
  - injection E as ->. rewrite app_assoc. apply Permutation_app_tail, H.
  - rewrite (IH s d E H). rewrite !app_assoc. apply Permutation_app_tail, Permutation_app_comm.
Qed.

Lemma shape_change F a s d : tree_shape s -> nth_error s a = Some d -> targets (F d) = targets d ->
  tree_shape (change a F s).
Proof.
  intros [O L] E H. constructor.
  - rewrite change_length. rewrite (targets_change F [] a s d E); [exact O|]. rewrite H. reflexivity.
  - intros b n En. destruct (Nat.eq_dec b a) as [->|N].
    + rewrite (change_same _ _ _ _ E) in En. injection En as <-. rewrite H. exact (L _ _ E).
    + rewrite change_other in En by exact N. exact (L _ _ En).
Qed.

Lemma shape_open (put : nat -> hnode -> hnode) a s d n : tree_shape s -> nth_error s a = Some d ->
  targets n = [] -> Permutation (targets (put (length s) d)) (length s :: targets d) ->
  tree_shape (change a (put (length s)) (s ++ [n])).
Proof.
  intros [O L] E Hn H.
  assert (La : (a < length s)%nat) by (apply nth_error_Some; congruence).
  assert (E1 : nth_error (s ++ [n]) a = Some d) by (rewrite nth_error_app1; assumption).
  constructor.
  - rewrite change_length, app_length. cbn [length].
    rewrite (targets_change _ [length s] a _ d E1 H).
    rewrite flat_map_app. cbn [flat_map]. rewrite Hn, !app_nil_r.
    replace (length s + 1 - 1)%nat with (S (length s - 1)) by lia.
    rewrite seq_S. replace (1 + (length s - 1))%nat with (length s) by lia.
    rewrite Permutation_app_comm. apply Permutation_app_tail, O.
  - intros b m Em. destruct (Nat.eq_dec b a) as [->|N].
    + rewrite (change_same _ _ _ _ E1) in Em. injection Em as <-.
      rewrite H. constructor; [exact La|exact (L _ _ E)].
    + rewrite change_other in Em by exact N.
      destruct (Nat.ltb b (length s)) eqn:Eb.
      * apply Nat.ltb_lt in Eb. rewrite nth_error_app1 in Em by exact Eb. exact (L _ _ Em).
      * apply Nat.ltb_ge in Eb. rewrite nth_error_app2 in Em by exact Eb.
        destruct (b - length s)%nat as [|k]; cbn [nth_error] in Em; [|destruct k; discriminate Em].
        injection Em as <-. rewrite Hn. constructor.
Qed.

(** The relation of the two states; [above] is the kind of the part that was just left. *)
Record R_at (above : option hkind) (st : pstate) (hs : hstate) : Prop := {
  r_cur : h_cur hs = cur st;
  r_cache : h_cache hs = cache st;
  r_stack : stack_rel (outside (h_ctx hs)) (h_store hs) SNone (h_ctx hs) (ctx st);
  r_rooms : rooms (h_store hs) above (h_ctx hs);
  r_shape : tree_shape (h_store hs) }.
Definition R_st := R_at None.

Definition rel_out {A B} (P : A -> B -> Prop) (o : outcome A) (p : outcome B) : Prop :=
  match o, p with
  | Ok a, Ok b => P a b
  | PErr e, PErr e' => e = e'
  | Panic k, Panic k' => k = k'
  | OutOfFuel, OutOfFuel => True
  | _, _ => False
  end.

Lemma rel_cur st hs c : R_st st hs -> R_st (with_cur c st) (h_with_cur c hs).
Proof. intros [A B D E F]. constructor; [reflexivity|exact B|exact D|exact E|exact F]. Qed.

(** * The operations *)

(** A change of the innermost node. *)
Lemma change_top q s (F : hnode -> hnode) (a : nat) l f fs (f' : frame) sl :
  stack_rel q s SNone (a :: l) (f :: fs) -> q a = false -> f_kind f' = f_kind f ->
  (forall g d, node_rel g SNone d f -> node_rel g sl (F d) f') ->
  stack_rel q (change a F s) sl (a :: l) (f' :: fs).
Proof.
  intros D Qa Ek H.
  pose proof (stack_below _ _ _ _ _ _ D) as Lo.
  assert (I : forall x, sub (kid q s x) (kid q (change a F s) x)).
  { intros x. apply kid_mono; [rewrite change_length; lia|]. intros b d Hb Eb. split; [exact Hb|].
    rewrite change_other; [exact Eb|]. congruence. }
  cbn [stack_rel] in D |- *. destruct D as [[d [Ed Nd]] D]. split.
  - exists (F d). split; [apply change_same, Ed|]. apply H. exact (node_rel_sub _ _ _ _ _ (I a) Nd).
  - destruct l as [|b l]; destruct fs as [|g fs]; try exact D.
    + now rewrite Ek.
    + destruct D as [L [Fi D]]. rewrite Ek. split; [exact L|]. split; [exact Fi|].
      apply (stack_sub _ _ _ _ I (b :: l)); [|exact D].
      intros c Ic. apply change_other. intros ->. specialize (Lo a Ic). lia.
Qed.

Lemma rel_ctx above st hs : R_at above st hs -> exists a l f fs d, h_ctx hs = a :: l /\ ctx st = f :: fs /\
  nth_error (h_store hs) a = Some d /\ node_rel (kid (outside (h_ctx hs)) (h_store hs) a) SNone d f.
Proof.
  intros [_ _ D _ _]. destruct (h_ctx hs) as [|a l]; [destruct D|].
  destruct (ctx st) as [|f fs]; [destruct D|]. destruct D as [[d [Ed Nd]] _].
  exists a, l, f, fs, d. auto.
Qed.

Lemma rel_add_node v st hs : R_st st hs -> rel_out R_st (add_node v st) (h_add_node v hs).
Proof.
  intros H. destruct (rel_ctx _ _ _ H) as (a & l & f & fs & d & El & Ef & Ed & Nd).
  unfold add_node, h_add_node, h_change_top. rewrite El, Ef. cbn [rel_out].
  constructor; cbn [with_ctx ctx cur cache h_cur h_ctx h_store h_cache].
  - apply (r_cur _ _ _ H).
  - apply (r_cache _ _ _ H).
  - pose proof (r_stack _ _ _ H) as D. rewrite El, Ef in D. apply (change_top _ _ _ a l f fs _ SNone D); [apply outside_in; now left|reflexivity|].
    intros g n [P E (body & es & el & cs & fi & ves & vel & vcs & vfi & A1 & A2 & A3 & A4 & A5 & B1 & B2 & B3 & B4 & B5 & K)].
    constructor; [exact P|exact E|].
    exists (body ++ [Leaf v]), es, el, cs, fi, ves, vel, vcs, vfi.
    rewrite app_nil_r in A1. cbn [put_body n_body n_elseif n_else n_catch n_finally n_kind add_body f_body f_kind].
    repeat split; auto.
    + rewrite A1, app_nil_r. reflexivity.
    + apply follow_body_app; [exact B1|reflexivity].
  - pose proof (r_rooms _ _ _ H) as Rm. rewrite El in Rm. destruct Rm as [d1 [Ed1 [V Rm]]].
    pose proof (r_stack _ _ _ H) as D. rewrite El, Ef in D. pose proof (stack_below _ _ _ _ _ _ D) as Lo.
    exists (put_body (Leaf v) d1). split; [apply change_same, Ed1|]. split; [exact V|].
    apply (rooms_other (h_store hs)); [|exact Rm].
    intros b Ib. apply change_other. specialize (Lo b Ib). lia.
  - apply (shape_change _ _ _ d (r_shape _ _ _ H) Ed).
    unfold targets. cbn [put_body n_body n_elseif n_else n_catch n_finally].
    rewrite flat_map_app. cbn [flat_map]. rewrite app_nil_r. reflexivity.
Qed.

(** The kind of a new block. *)
Definition fresh_kind (k : hkind) : fkind :=
  match k with
  | HTop => FTop
  | HFunction l rl da at_ => FFunction l rl da at_
  | HIf c => FIf c [] None
  | HElseif c => FElseif c
  | HElse => FElse
  | HWhile c => FWhile c
  | HFor l ls rs r => FFor l ls rs r
  | HTry => FTry [] None
  | HCatch p => FCatch p
  | HFinally => FFinally
  end.

Lemma rel_open put k p e st hs f fs : R_st st hs -> ctx st = f :: fs ->
  fits (fresh_kind k) (f_kind f) ->
  (forall g a d, node_rel g SNone d f -> node_rel g (slot_of (fresh_kind k) a) (put a d) f) ->
  (forall a d, vacant None d -> n_kind (put a d) = n_kind d /\ vacant (Some k) (put a d) /\
     Permutation (targets (put a d)) (a :: targets d)) ->
  rel_out R_st (Ok (push_context (fresh_kind k) p e st)) (h_open_part put k p e hs).
Proof.
  intros H Ef Fi Hp Hv. destruct (rel_ctx _ _ _ H) as (a & l & f1 & fs1 & d & El & Ef1 & Ed & Nd).
  rewrite Ef in Ef1. injection Ef1 as <- <-.
  unfold h_open_part, h_new, h_change_top. cbn [h_ctx h_store h_cur h_cache]. rewrite El. cbn [bind rel_out].
  set (m := length (h_store hs)). set (s0 := h_store hs) in *.
  assert (Hm : forall b, In b (h_ctx hs) -> (b < m)%nat) by (apply (stack_bound _ _ _ _ _ (r_stack _ _ _ H))).
  set (s1 := s0 ++ [new_node k p e]).
  pose proof (r_stack _ _ _ H) as D. fold s0 in D. rewrite Ef in D.
  assert (D1 : stack_rel (outside (m :: h_ctx hs)) s1 SNone (h_ctx hs) (f :: fs)).
  { apply (stack_sub (outside (h_ctx hs)) s0); [| |exact D].
    - intros x. apply kid_mono; [unfold s1; rewrite app_length; lia|].
      intros b n Hb Eb. assert (Lb : (b < m)%nat) by (apply nth_error_Some; congruence). split.
      + rewrite outside_cons, Hb. replace (Nat.eqb b m) with false; [reflexivity|]. symmetry. apply Nat.eqb_neq. lia.
      + unfold s1. rewrite nth_error_app1; [exact Eb|exact Lb].
    - intros b Ib. unfold s1. apply nth_error_app1. apply Hm, Ib. }
  rewrite El in D1.
  apply (change_top _ _ (put m) a l f fs f (slot_of (fresh_kind k) m)) in D1;
    [|apply outside_in; right; now left|reflexivity|intros g n; apply Hp].
  constructor; cbn [push_context with_ctx h_push ctx cur cache h_cur h_ctx h_store h_cache].
  - apply (r_cur _ _ _ H).
  - apply (r_cache _ _ _ H).
  - rewrite Ef.
    assert (Em : nth_error (change a (put m) s1) m = Some (new_node k p e)).
    { rewrite change_other.
      - unfold s1. rewrite nth_error_app2 by (unfold m, s0; lia). unfold m, s0. rewrite Nat.sub_diag. reflexivity.
      - intros E. specialize (Hm a ltac:(rewrite El; now left)). lia. }
    split.
    + exists (new_node k p e). split; [exact Em|].
      constructor; [reflexivity|reflexivity|].
      exists [], [], None, [], None, [], None, [], None. cbn. repeat split; auto.
      destruct k; reflexivity.
    + split; [apply Hm; rewrite El; now left|]. split; [exact Fi|]. exact D1.
  - pose proof (r_rooms _ _ _ H) as Rm. rewrite El in Rm. destruct Rm as [d1 [Ed1 [V Rm]]].
    fold s0 in Ed1. rewrite Ed in Ed1. injection Ed1 as <-.
    destruct (Hv m d V) as [Kp [Vp _]].
    rewrite El in D. pose proof (stack_below _ _ _ _ _ _ D) as Lo.
    assert (La : (a < m)%nat) by (apply Hm; rewrite El; now left).
    exists (new_node k p e). split.
    { rewrite change_other by lia. unfold s1. rewrite nth_error_app2 by (unfold m, s0; lia).
      unfold m, s0. rewrite Nat.sub_diag. reflexivity. }
    split; [split; reflexivity|]. cbn [new_node n_kind rooms].
    exists (put m d). split.
    { apply change_same. unfold s1. rewrite nth_error_app1 by exact La. exact Ed. }
    split; [exact Vp|]. rewrite Kp. apply (rooms_other s0); [|exact Rm].
    intros b Ib. specialize (Lo b Ib). rewrite change_other by lia. apply nth_error_app1. fold m. lia.
  - pose proof (r_rooms _ _ _ H) as Rm. rewrite El in Rm. destruct Rm as [d1 [Ed1 [V Rm]]].
    fold s0 in Ed1. rewrite Ed in Ed1. injection Ed1 as <-.
    destruct (Hv m d V) as [_ [_ Pp]].
    apply (shape_open put a s0 d); [apply (r_shape _ _ _ H)|exact Ed|reflexivity|exact Pp].
Qed.

(** The value of a node that is complete. *)
Definition finished (f : frame) (e : option vnode) : vnode :=
  match f_kind f with
  | FTop => VToplevel (f_pos f) (f_body f)
  | FFunction l rl da at_ => VFunction (f_pos f) (f_ea f) (f_body f) l rl da at_ e
  | FIf c es el => VIf (f_pos f) (f_ea f) (f_body f) c es el e
  | FElseif c => VElseif (f_pos f) (f_ea f) (f_body f) c
  | FElse => VElse (f_pos f) (f_ea f) (f_body f)
  | FWhile c => VWhile (f_pos f) (f_ea f) (f_body f) c e
  | FFor l ls rs r => VFor (f_pos f) (f_ea f) (f_body f) l ls rs r e
  | FTry cs fi => VTry (f_pos f) (f_ea f) (f_body f) cs fi e
  | FCatch p => VCatch (f_pos f) (f_ea f) (f_body f) p
  | FFinally => VFinally (f_pos f) (f_ea f) (f_body f)
  end.

Lemma complete q s a d f q' s' : (length s <= length s')%nat ->
  (forall b d, q b = true -> nth_error s b = Some d -> q' b = true /\ nth_error s' b = Some d) ->
  nth_error s' a = Some d -> q' a = true -> node_rel (kid q s a) SNone d f ->
  gfollow q' (length s' - a) s' a = Some (finished f (n_end d)).
Proof.
  intros Ls I Ed Qa [P E (body & es & el & cs & fi & ves & vel & vcs & vfi & A1 & A2 & A3 & A4 & A5 & B1 & B2 & B3 & B4 & B5 & K)].
  assert (La : (a < length s')%nat) by (apply nth_error_Some; congruence).
  destruct (length s' - a)%nat as [|n] eqn:En; [lia|]. cbn [gfollow]. rewrite Qa, Ed.
  assert (S1 : sub (kid q s a) (gfollow q' n s')).
  { intros c v. unfold kid. destruct (Nat.ltb a c) eqn:Ec; [|discriminate].
    apply gfollow_mono; [exact I|]. apply Nat.ltb_lt in Ec. lia. }
  rewrite app_nil_r in A1, A2, A4. rewrite A1, A2, A3, A4, A5.
  rewrite (follow_body_sub _ _ S1 _ _ B1), (follow_list_sub _ _ S1 _ _ B2), (follow_opt_sub _ _ S1 _ _ B3),
    (follow_list_sub _ _ S1 _ _ B4), (follow_opt_sub _ _ S1 _ _ B5).
  unfold assemble, finished. rewrite P, E. destruct (n_kind d); cbn [kind_rel] in K; rewrite K; reflexivity.
Qed.

(** Leaving the innermost block: the node below it takes the finished one. *)
Lemma leave s s' a b l f g fs d' g' :
  stack_rel (outside (a :: b :: l)) s SNone (a :: b :: l) (f :: g :: fs) ->
  length s' = length s -> (forall x, x <> a -> nth_error s' x = nth_error s x) ->
  nth_error s' a = Some d' ->
  (forall h d, node_rel h SNone d f -> nth_error s a = Some d -> node_rel h SNone d' f) ->
  (forall y, fits (f_kind g) y -> fits (f_kind g') y) -> (f_kind g = FTop -> f_kind g' = FTop) ->
  (forall x, slot_of (f_kind g') x = slot_of (f_kind g) x) ->
  (forall h d, h a = Some (finished f (n_end d')) -> node_rel h (slot_of (f_kind f) a) d g ->
     node_rel h SNone d g') ->
  stack_rel (outside (b :: l)) s' SNone (b :: l) (g' :: fs).
Proof.
  intros D Ls Hs Ea Hd K1 K2 K3 Hg.
  pose proof (stack_below _ _ _ _ _ _ D) as Lo.
  set (q := outside (a :: b :: l)) in *. set (q' := outside (b :: l)).
  assert (I : forall x n, q x = true -> nth_error s x = Some n -> q' x = true /\ nth_error s' x = Some n).
  { intros x n Hx Ex. unfold q in Hx. rewrite outside_cons in Hx. apply andb_prop in Hx. destruct Hx as [H1 H2].
    split; [exact H2|]. rewrite Hs; [exact Ex|]. intros ->. rewrite Nat.eqb_refl in H1. discriminate H1. }
  assert (J : forall x, sub (kid q s x) (kid q' s' x)) by (intros x; apply kid_mono; [lia|exact I]).
  assert (Qa : q' a = true).
  { unfold q', outside. destruct (existsb (Nat.eqb a) (b :: l)) eqn:Ex; [|reflexivity].
    apply existsb_exists in Ex. destruct Ex as [x [Ix Ex]]. apply Nat.eqb_eq in Ex. subst x.
    specialize (Lo a Ix). lia. }
  destruct D as [[d [Ed Nd]] [Lb [Fi D]]].
  pose proof (complete q s a d' f q' s' ltac:(lia) I Ea Qa (Hd _ _ Nd Ed)) as Fin.
  assert (Hb : b <> a) by lia.
  cbn [stack_rel] in D |- *. destruct D as [[n [En Nn]] D]. split.
  - exists n. split; [rewrite Hs; [exact En|exact Hb]|]. apply Hg; [|exact (node_rel_sub _ _ _ _ _ (J b) Nn)].
    unfold kid. replace (Nat.ltb b a) with true by (symmetry; apply Nat.ltb_lt; exact Lb). exact Fin.
  - destruct l as [|c l]; destruct fs as [|k fs]; try exact D.
    + destruct D as [-> Ek]. split; [reflexivity|auto].
    + destruct D as [L [F D]]. split; [exact L|]. split; [apply K1, F|]. rewrite K3.
      apply (stack_sub _ _ _ _ J (c :: l)); [|exact D].
      intros x Ix. apply Hs. intros ->. assert (In a (b :: c :: l)) as Ia by (right; exact Ix).
      specialize (Lo a Ia). lia.
Qed.

Definition is_part (k : fkind) : bool :=
  match k with FElseif _ | FElse | FCatch _ | FFinally => true | _ => false end.

Lemma rel_pop_part st hs f fs d : R_st st hs -> ctx st = f :: fs -> is_part (f_kind f) = true ->
  h_top hs = Ok d -> rel_out (R_at (Some (n_kind d))) (pop_part st) (h_pop hs).
Proof.
  intros H Ef Kf Ht. pose proof (r_stack _ _ _ H) as D. rewrite Ef in D. unfold h_top in Ht.
  pose proof (r_rooms _ _ _ H) as Rm.
  destruct (h_ctx hs) as [|a l] eqn:El; [destruct D|].
  assert (Hf : f_kind f <> FTop) by (destruct (f_kind f); discriminate).
  destruct l as [|b l]; destruct fs as [|g fs];
    [destruct D as [_ [_ D]]; congruence|destruct D as [_ []]|destruct D as [_ []]|].
  pose proof D as [[d1 [Ed Nd]] [Lb [Fi _]]].
  rewrite Ed in Ht. injection Ht as ->.
  destruct Rm as [d1 [Ed1 [_ Rm]]]. rewrite Ed in Ed1. injection Ed1 as <-.
  unfold pop_part, h_pop. rewrite El, Ef.
  assert (G : forall g', (forall y, fits (f_kind g) y -> fits (f_kind g') y) -> (f_kind g = FTop -> f_kind g' = FTop) ->
    (forall x, slot_of (f_kind g') x = slot_of (f_kind g) x) ->
    (forall h n, h a = Some (finished f (n_end d)) -> node_rel h (slot_of (f_kind f) a) n g -> node_rel h SNone n g') ->
    rel_out (R_at (Some (n_kind d))) (Ok (with_ctx (g' :: fs) st)) (Ok (mkHs (h_cur hs) (b :: l) (h_store hs) (h_cache hs)))).
  { intros g' K1 K2 K3 Hg. cbn [rel_out]. constructor;
      [apply (r_cur _ _ _ H)|apply (r_cache _ _ _ H)| |exact Rm|exact (r_shape _ _ _ H)].
    cbn [h_ctx h_store with_ctx ctx].
    apply (leave (h_store hs) (h_store hs) a b l f g fs d g' D eq_refl (fun _ _ => eq_refl) Ed); auto.
    intros h n Nn En. rewrite Ed in En. injection En as <-. exact Nn. }
  destruct (f_kind f) eqn:Ek; try discriminate Kf; cbn [fits] in Fi.
  - destruct Fi as (c & es & el & Eg). rewrite Eg in G |- *. apply G; auto; try discriminate.
    intros h n Ha [P E (body & xs & xl & cs & fi & ves & vel & vcs & vfi & A1 & A2 & A3 & A4 & A5 & B1 & B2 & B3 & B4 & B5 & K)].
    cbn [slot_of] in A1, A2, A3, A4, A5. rewrite Eg in K.
    constructor; [exact P|exact E|].
    exists body, (xs ++ [a]), xl, cs, fi, (ves ++ [finished f (n_end d)]), vel, vcs, vfi.
    rewrite app_nil_r in A1, A4. rewrite !app_nil_r. repeat split; auto.
    + apply follow_list_app; assumption.
    + unfold finished. rewrite Ek. cbn [f_kind]. destruct (n_kind n); try discriminate K. cbn [kind_rel] in K |- *. congruence.
  - destruct Fi as (c & es & el & Eg). rewrite Eg in G |- *. apply G; auto; try discriminate.
    intros h n Ha [P E (body & xs & xl & cs & fi & ves & vel & vcs & vfi & A1 & A2 & A3 & A4 & A5 & B1 & B2 & B3 & B4 & B5 & K)].
    cbn [slot_of] in A1, A2, A3, A4, A5. rewrite Eg in K.
    constructor; [exact P|exact E|].
    exists body, xs, (Some a), cs, fi, ves, (Some (finished f (n_end d))), vcs, vfi.
    repeat split; auto.
    + cbn [follow_opt]. rewrite Ha. reflexivity.
    + unfold finished. rewrite Ek. cbn [f_kind]. destruct (n_kind n); try discriminate K. cbn [kind_rel] in K |- *. congruence.
  - destruct Fi as (cs0 & fi0 & Eg). rewrite Eg in G |- *. apply G; auto; try discriminate.
    intros h n Ha [P E (body & xs & xl & cs & fi & ves & vel & vcs & vfi & A1 & A2 & A3 & A4 & A5 & B1 & B2 & B3 & B4 & B5 & K)].
    cbn [slot_of] in A1, A2, A3, A4, A5. rewrite Eg in K.
    constructor; [exact P|exact E|].
    exists body, xs, xl, (cs ++ [a]), fi, ves, vel, (vcs ++ [finished f (n_end d)]), vfi.
    rewrite app_nil_r in A1, A2. rewrite !app_nil_r. repeat split; auto.
    + apply follow_list_app; assumption.
    + unfold finished. rewrite Ek. cbn [f_kind]. destruct (n_kind n); try discriminate K. cbn [kind_rel] in K |- *. congruence.
  - destruct Fi as (cs0 & fi0 & Eg). rewrite Eg in G |- *. apply G; auto; try discriminate.
    intros h n Ha [P E (body & xs & xl & cs & fi & ves & vel & vcs & vfi & A1 & A2 & A3 & A4 & A5 & B1 & B2 & B3 & B4 & B5 & K)].
    cbn [slot_of] in A1, A2, A3, A4, A5. rewrite Eg in K.
    constructor; [exact P|exact E|].
    exists body, xs, xl, cs, (Some a), ves, vel, vcs, (Some (finished f (n_end d))).
    repeat split; auto.
    + cbn [follow_opt]. rewrite Ha. reflexivity.
    + unfold finished. rewrite Ek. cbn [f_kind]. destruct (n_kind n); try discriminate K. cbn [kind_rel] in K |- *. congruence.
Qed.

Definition is_block (k : fkind) : bool :=
  match k with FTop | FElseif _ | FElse | FCatch _ | FFinally => false | _ => true end.

Lemma node_rel_end h v d f sl : node_rel h sl d f -> node_rel h sl (put_end v d) f.
Proof. intros [P E K]. constructor; [exact P|exact E|exact K]. Qed.

Lemma rel_end_block above e st hs f fs : R_at above st hs -> ctx st = f :: fs -> is_block (f_kind f) = true ->
  rel_out R_st (pop_block e st) (h_end_block e hs).
Proof.
  intros H Ef Kf. pose proof (r_stack _ _ _ H) as D. rewrite Ef in D.
  destruct (h_ctx hs) as [|a l] eqn:El; [destruct D|].
  assert (Hf : f_kind f <> FTop) by (destruct (f_kind f); discriminate).
  destruct l as [|b l]; destruct fs as [|g fs];
    [destruct D as [_ [_ D]]; congruence|destruct D as [_ []]|destruct D as [_ []]|].
  pose proof D as [[d [Ed Nd]] [Lb [Fi _]]].
  unfold pop_block, h_end_block, h_change_top, h_pop. rewrite El, Ef. cbn [bind h_ctx h_cur h_store h_cache].
  assert (Ec : close_frame f e = Some (finished f (Some e))).
  { unfold close_frame, finished. destruct (f_kind f); try discriminate Kf; reflexivity. }
  rewrite Ec. cbn [rel_out].
  pose proof (stack_below _ _ _ _ _ _ D) as Lo.
  constructor; [apply (r_cur _ _ _ H)|apply (r_cache _ _ _ H)| | |].
  2:{ pose proof (r_rooms _ _ _ H) as Rm. rewrite El in Rm. destruct Rm as [d1 [Ed1 [_ Rm]]].
      rewrite Ed in Ed1. injection Ed1 as <-. cbn [h_ctx h_store].
      assert (Rm0 : rooms (h_store hs) None (b :: l)).
      { destruct Rm as [d2 [Ed2 [[V1 V2] Rm]]]. exists d2. split; [exact Ed2|]. split; [|exact Rm].
        destruct Nd as [_ _ (? & ? & ? & ? & ? & ? & ? & ? & ? & _ & _ & _ & _ & _ & _ & _ & _ & _ & _ & K)].
        split; intros _; [apply V1|apply V2]; intros Ek; injection Ek as Ek; rewrite Ek in K;
          cbn [kind_rel] in K; rewrite K in Kf; discriminate Kf. }
      apply (rooms_other (h_store hs)); [|exact Rm0].
      intros x Ix. apply change_other. specialize (Lo x Ix). lia. }
  2:{ apply (shape_change _ _ _ d (r_shape _ _ _ H) Ed). reflexivity. }
  cbn [h_ctx h_store with_ctx ctx].
  apply (leave (h_store hs) _ a b l f g fs (put_end e d) _ D); auto.
  - apply change_length.
  - intros x Hx. apply change_other, Hx.
  - apply change_same, Ed.
  - intros h n Nn En. rewrite Ed in En. injection En as <-. apply node_rel_end, Nn.
  - intros h n Ha [P E (body & xs & xl & cs & fi & ves & vel & vcs & vfi & A1 & A2 & A3 & A4 & A5 & B1 & B2 & B3 & B4 & B5 & K)].
    assert (Es : slot_of (f_kind f) a = SBody a) by (destruct (f_kind f); try discriminate Kf; reflexivity).
    rewrite Es in A1, A2, A3, A4, A5.
    constructor; [exact P|exact E|].
    exists (body ++ [Ptr a]), xs, xl, cs, fi, ves, vel, vcs, vfi.
    rewrite app_nil_r in A2, A4. rewrite !app_nil_r. repeat split; auto.
    apply follow_body_app; [exact B1|]. exact Ha.
Qed.

(** The kind of the innermost block. *)
Lemma rel_top above st hs : R_at above st hs ->
  exists f fs d, top_frame st = Ok f /\ ctx st = f :: fs /\ h_top hs = Ok d /\
    exists ves vel vcs vfi, kind_rel (n_kind d) (f_kind f) ves vel vcs vfi.
Proof.
  intros H. destruct (rel_ctx _ _ _ H) as (a & l & f & fs & d & El & Ef & Ed & [P E (body & xs & xl & cs & fi & ves & vel & vcs & vfi & A1 & A2 & A3 & A4 & A5 & B1 & B2 & B3 & B4 & B5 & K)]).
  exists f, fs, d. unfold top_frame, h_top. rewrite El, Ef, Ed. repeat split; auto.
  exists ves, vel, vcs, vfi. exact K.
Qed.

Lemma in_stack q s (t : fkind -> bool) (u : hkind -> bool) :
  (forall k fk ves vel vcs vfi, kind_rel k fk ves vel vcs vfi -> u k = t fk) ->
  forall l sl fs, stack_rel q s sl l fs ->
  existsb (fun a => match nth_error s a with Some n => u (n_kind n) | None => false end) l =
  existsb (fun x => t (f_kind x)) fs.
Proof.
  intros Hk. induction l as [|a l IH]; intros sl fs H; [destruct fs; [reflexivity|destruct H]|].
  destruct fs as [|f fs]; [destruct H|]. cbn [existsb]. destruct H as [[d [Ed Nd]] H]. rewrite Ed.
  destruct Nd as [P E (body & xs & xl & cs & fi & ves & vel & vcs & vfi & A1 & A2 & A3 & A4 & A5 & B1 & B2 & B3 & B4 & B5 & K)].
  rewrite (Hk _ _ _ _ _ _ K). f_equal.
  destruct l as [|b l]; destruct fs as [|g fs]; try reflexivity; try destruct H as [].
  destruct H0 as [_ H0]. exact (IH _ _ H0).
Qed.

Lemma rel_in st hs (t : fkind -> bool) (u : hkind -> bool) :
  (forall k fk ves vel vcs vfi, kind_rel k fk ves vel vcs vfi -> u k = t fk) ->
  R_st st hs -> h_in_context u hs = in_context t st.
Proof. intros Hk H. exact (in_stack _ _ t u Hk _ _ _ (r_stack _ _ _ H)). Qed.

(** * The commands *)

Lemma rel_block k p e st hs : R_st st hs -> is_block (fresh_kind k) = true ->
  rel_out R_st (Ok (push_context (fresh_kind k) p e st)) (h_open_block k p e hs).
Proof.
  intros H Kb. destruct (rel_ctx _ _ _ H) as (a & l & f & fs & d & El & Ef & Ed & Nd).
  apply (rel_open (fun a => put_body (Ptr a)) k p e st hs f fs H Ef).
  - destruct k; try discriminate Kb; exact I.
  - intros g x n [P E (body & xs & xl & cs & fi & ves & vel & vcs & vfi & A1 & A2 & A3 & A4 & A5 & B1 & B2 & B3 & B4 & B5 & K)].
    rewrite app_nil_r in A1, A2, A4.
    constructor; [exact P|exact E|].
    exists body, xs, xl, cs, fi, ves, vel, vcs, vfi.
    cbn [put_body n_body n_elseif n_else n_catch n_finally n_kind].
    rewrite A1. destruct k; try discriminate Kb; cbn [fresh_kind slot_of]; rewrite ?app_nil_r; repeat split; auto.
  - intros x n V. split; [reflexivity|]. split.
    + destruct V as [V1 V2]. split; intros _; [apply V1|apply V2]; discriminate.
    + unfold targets. cbn [put_body n_body n_elseif n_else n_catch n_finally].
      rewrite flat_map_app. cbn [flat_map app]. rewrite <- !app_assoc. cbn [app].
      symmetry. apply Permutation_middle.
Qed.

(** Brings an element to the front. *)
Lemma perm_front {A} (x : A) p l m : Permutation l (x :: m) -> Permutation (p ++ l) (x :: p ++ m).
Proof. intros H. rewrite H. symmetry. apply Permutation_middle. Qed.

Lemma rel_elseif v p e st hs f fs : R_st st hs -> ctx st = f :: fs -> is_if (f_kind f) = true ->
  rel_out R_st (Ok (push_context (FElseif v) p e st)) (h_open_part put_elseif (HElseif v) p e hs).
Proof.
  intros H Ef Ki. apply (rel_open put_elseif (HElseif v) p e st hs f fs H Ef).
  - destruct (f_kind f); try discriminate Ki. cbn. eauto.
  - intros g x n [P E (body & xs & xl & cs & fi & ves & vel & vcs & vfi & A1 & A2 & A3 & A4 & A5 & B1 & B2 & B3 & B4 & B5 & K)].
    rewrite app_nil_r in A1, A2, A4. constructor; [exact P|exact E|].
    exists body, xs, xl, cs, fi, ves, vel, vcs, vfi.
    cbn [put_elseif n_body n_elseif n_else n_catch n_finally n_kind fresh_kind slot_of].
    rewrite A2, ?app_nil_r. repeat split; auto.
  - intros x n [V1 V2]. split; [reflexivity|]. split.
    + split; intros _; [apply V1|apply V2]; discriminate.
    + unfold targets. cbn [put_elseif n_body n_elseif n_else n_catch n_finally]. 
      rewrite <- ?app_assoc. cbn [app]. repeat apply perm_front; apply Permutation_refl.
Qed.

Lemma rel_else p e st hs f fs : R_st st hs -> ctx st = f :: fs -> is_if (f_kind f) = true ->
  rel_out R_st (Ok (push_context FElse p e st)) (h_open_part put_else HElse p e hs).
Proof.
  intros H Ef Ki. apply (rel_open put_else HElse p e st hs f fs H Ef).
  - destruct (f_kind f); try discriminate Ki. cbn. eauto.
  - intros g x n [P E (body & xs & xl & cs & fi & ves & vel & vcs & vfi & A1 & A2 & A3 & A4 & A5 & B1 & B2 & B3 & B4 & B5 & K)].
    rewrite app_nil_r in A1, A2, A4. constructor; [exact P|exact E|].
    exists body, xs, xl, cs, fi, ves, vel, vcs, vfi.
    cbn [put_else n_body n_elseif n_else n_catch n_finally n_kind fresh_kind slot_of].
    rewrite ?app_nil_r. repeat split; auto.
  - intros x n [V1 V2]. split; [reflexivity|]. split.
    + split; [now intros []|intros _; apply V2; discriminate].
    + unfold targets. cbn [put_else n_body n_elseif n_else n_catch n_finally]. rewrite (V1 ltac:(discriminate)). cbn [app].
      rewrite <- ?app_assoc. cbn [app]. repeat apply perm_front; apply Permutation_refl.
Qed.

Lemma rel_catch s p e st hs f fs : R_st st hs -> ctx st = f :: fs -> is_try (f_kind f) = true ->
  rel_out R_st (Ok (push_context (FCatch s) p e st)) (h_open_part put_catch (HCatch s) p e hs).
Proof.
  intros H Ef Ki. apply (rel_open put_catch (HCatch s) p e st hs f fs H Ef).
  - destruct (f_kind f); try discriminate Ki. cbn. eauto.
  - intros g x n [P E (body & xs & xl & cs & fi & ves & vel & vcs & vfi & A1 & A2 & A3 & A4 & A5 & B1 & B2 & B3 & B4 & B5 & K)].
    rewrite app_nil_r in A1, A2, A4. constructor; [exact P|exact E|].
    exists body, xs, xl, cs, fi, ves, vel, vcs, vfi.
    cbn [put_catch n_body n_elseif n_else n_catch n_finally n_kind fresh_kind slot_of].
    rewrite A4, ?app_nil_r. repeat split; auto.
  - intros x n [V1 V2]. split; [reflexivity|]. split.
    + split; intros _; [apply V1|apply V2]; discriminate.
    + unfold targets. cbn [put_catch n_body n_elseif n_else n_catch n_finally]. 
      rewrite <- ?app_assoc. cbn [app]. repeat apply perm_front; apply Permutation_refl.
Qed.

Lemma rel_finally p e st hs f fs : R_st st hs -> ctx st = f :: fs -> is_try (f_kind f) = true ->
  rel_out R_st (Ok (push_context FFinally p e st)) (h_open_part put_finally HFinally p e hs).
Proof.
  intros H Ef Ki. apply (rel_open put_finally HFinally p e st hs f fs H Ef).
  - destruct (f_kind f); try discriminate Ki. cbn. eauto.
  - intros g x n [P E (body & xs & xl & cs & fi & ves & vel & vcs & vfi & A1 & A2 & A3 & A4 & A5 & B1 & B2 & B3 & B4 & B5 & K)].
    rewrite app_nil_r in A1, A2, A4. constructor; [exact P|exact E|].
    exists body, xs, xl, cs, fi, ves, vel, vcs, vfi.
    cbn [put_finally n_body n_elseif n_else n_catch n_finally n_kind fresh_kind slot_of].
    rewrite ?app_nil_r. repeat split; auto.
  - intros x n [V1 V2]. split; [reflexivity|]. split.
    + split; [intros _; apply V1; discriminate|now intros []].
    + unfold targets. cbn [put_finally n_body n_elseif n_else n_catch n_finally]. rewrite (V2 ltac:(discriminate)).
      rewrite <- ?app_assoc. cbn [app]. repeat apply perm_front; apply Permutation_refl.
Qed.

(** Both go through the same step first. *)
Lemma rel_same {X A B} (P : A -> B -> Prop) (o : outcome X) (k : X -> outcome A) (h : X -> outcome B) :
  (forall x, rel_out P (k x) (h x)) -> rel_out P (bind o k) (bind o h).
Proof. intros H. destruct o; cbn [bind rel_out]; auto. Qed.

Lemma rel_bind {X Y A B} (Q : X -> Y -> Prop) (P : A -> B -> Prop) (o : outcome X) (u : outcome Y)
  (k : X -> outcome A) (h : Y -> outcome B) :
  rel_out Q o u -> (forall x y, Q x y -> rel_out P (k x) (h y)) -> rel_out P (bind o k) (bind u h).
Proof.
  intros H G. destruct o, u; cbn [rel_out bind] in H |- *; try contradiction; auto.
Qed.

Lemma rel_raise {A B} (P : A -> B -> Prop) m p : rel_out P (raise m p) (raise m p).
Proof. reflexivity. Qed.

(** One step of the comparison of two bodies that are the same but for the state. *)
Ltac rs :=
  match goal with
  | |- rel_out _ (raise _ _) (raise _ _) => apply rel_raise
  | |- rel_out _ (Panic _) (Panic _) => reflexivity
  | |- rel_out _ (bind ?x _) (bind ?x _) => apply rel_same; let y := fresh "y" in intros y
  | |- rel_out R_st (add_node _ _) (h_add_node _ _) => apply rel_add_node; auto using rel_cur
  | |- rel_out R_st (Ok (push_context _ _ _ _)) (h_open_block ?k _ _ _) =>
    apply (rel_block k); [auto using rel_cur|reflexivity]
  | |- rel_out R_st (Ok _) (Ok _) => cbn [rel_out]; auto using rel_cur
  | |- rel_out _ (let '(_, _) := ?x in _) (let '(_, _) := ?x in _) => destruct x
  | |- rel_out _ (if ?b then _ else _) (if ?b then _ else _) => destruct b
  | |- rel_out _ (match ?x with _ => _ end) (match ?x with _ => _ end) => destruct x
  end.

Ltac sim H := let Hc := fresh "Hc" in pose proof (r_cur _ _ _ H) as Hc; cbv zeta; rewrite ?Hc; repeat rs.

Lemma s_comment st hs : R_st st hs -> rel_out R_st (parse_comment st) (h_parse_comment hs).
Proof. intros H. unfold parse_comment, h_parse_comment. sim H. Qed.

Lemma s_trail st hs : R_st st hs -> rel_out R_st (parse_trail st) (h_parse_trail hs).
Proof.
  intros H. unfold parse_trail, h_parse_trail. sim H.
  apply (rel_bind R_st); [apply s_comment; auto using rel_cur|]. intros x y Hx. sim Hx.
Qed.

Lemma s_find neovim st hs : R_st st hs ->
  fst (find_command neovim st) = fst (h_find_command neovim hs) /\
  R_st (snd (find_command neovim st)) (snd (h_find_command neovim hs)).
Proof.
  intros H. unfold find_command, h_find_command. pose proof H as [Hc Hk Hs Hr Ht]. rewrite Hc, Hk.
  destruct (read_cmd_name (cur st)) as [name c1].
  destruct (is_nil name); [cbn [fst snd]; auto using rel_cur|].
  destruct (assoc_text name (cache st)) as [r|]; [cbn [fst snd]; auto using rel_cur|].
  match goal with |- context [if ?b then _ else _] => destruct b end.
  - destruct (read_alnum c1) as [s c2]. cbn [fst snd]. split; [reflexivity|].
    constructor; [reflexivity|reflexivity|exact Hs|exact Hr|exact Ht].
  - cbn [fst snd]. split; [reflexivity|]. constructor; [reflexivity|reflexivity|exact Hs|exact Hr|exact Ht].
Qed.

Definition sims (f : ectx -> pstate -> outcome pstate) (h : ectx -> hstate -> outcome hstate) : Prop :=
  forall k st hs, R_st st hs -> rel_out R_st (f k st) (h k hs).

Lemma s_common : sims parse_cmd_common h_parse_cmd_common.
Proof. intros k st hs H. unfold parse_cmd_common, h_parse_cmd_common. sim H. Qed.
Lemma s_append : sims parse_cmd_append h_parse_cmd_append.
Proof. intros k st hs H. unfold parse_cmd_append, h_parse_cmd_append. sim H. Qed.
Lemma s_loadkeymap : sims parse_cmd_loadkeymap h_parse_cmd_loadkeymap.
Proof. intros k st hs H. unfold parse_cmd_loadkeymap, h_parse_cmd_loadkeymap. sim H. Qed.
Lemma s_lua : sims parse_cmd_lua h_parse_cmd_lua.
Proof. intros k st hs H. unfold parse_cmd_lua, h_parse_cmd_lua. sim H. Qed.

(** The innermost block in both. *)
Ltac top H := let f := fresh "f" in let fs := fresh "fs" in let d := fresh "d" in
  let E1 := fresh "Et" in let Ef := fresh "Ef" in let E2 := fresh "Eh" in let K := fresh "K" in
  destruct (rel_top _ _ _ H) as (f & fs & d & E1 & Ef & E2 & ? & ? & ? & ? & K);
  rewrite E1, E2; cbn [bind]; destruct (n_kind d) eqn:?; cbn [kind_rel] in K; rewrite ?K.

Lemma s_finish : sims parse_cmd_finish h_parse_cmd_finish.
Proof.
  intros k st hs H. unfold parse_cmd_finish, h_parse_cmd_finish.
  apply (rel_bind R_st); [apply s_common, H|]. intros x y Hx.
  top Hx; sim Hx.
Qed.

Lemma s_function : sims parse_cmd_function h_parse_cmd_function.
Proof.
  intros k st hs H. unfold parse_cmd_function, h_parse_cmd_function. sim H; try (apply s_common, H).
Qed.

Lemma s_endfunction : sims parse_cmd_endfunction h_parse_cmd_endfunction.
Proof.
  intros k st hs H. unfold parse_cmd_endfunction, h_parse_cmd_endfunction, check_missing_if_try_loops, h_check_missing.
  pose proof (r_cur _ _ _ H) as Hc. rewrite Hc.
  top H; rewrite ?Heqh; try reflexivity.
  cbn. eapply (rel_end_block None); [apply rel_cur, H|exact Ef|rewrite K; reflexivity].
Qed.

Lemma s_delfunction : sims parse_cmd_delfunction h_parse_cmd_delfunction.
Proof. intros k st hs H. unfold parse_cmd_delfunction, h_parse_cmd_delfunction. sim H. Qed.

Lemma in_function st hs : R_st st hs -> h_in_context hk_function hs = in_context is_function st.
Proof. apply rel_in. intros k fk ves vel vcs vfi K. destruct k; cbn [kind_rel] in K; rewrite K; reflexivity. Qed.
Lemma in_while st hs : R_st st hs -> h_in_context hk_while hs = in_context is_while st.
Proof. apply rel_in. intros k fk ves vel vcs vfi K. destruct k; cbn [kind_rel] in K; rewrite K; reflexivity. Qed.
Lemma in_for st hs : R_st st hs -> h_in_context hk_for hs = in_context is_for st.
Proof. apply rel_in. intros k fk ves vel vcs vfi K. destruct k; cbn [kind_rel] in K; rewrite K; reflexivity. Qed.

Lemma s_return : sims parse_cmd_return h_parse_cmd_return.
Proof.
  intros k st hs H. unfold parse_cmd_return, h_parse_cmd_return. rewrite (in_function _ _ H). sim H.
Qed.
Lemma s_call : sims parse_cmd_call h_parse_cmd_call.
Proof. intros k st hs H. unfold parse_cmd_call, h_parse_cmd_call. sim H. Qed.

Lemma s_heredoc k st hs : R_st st hs ->
  rel_out (fun a b => fst a = fst b /\ R_st (snd a) (snd b)) (parse_heredoc k st) (h_parse_heredoc k hs).
Proof.
  intros H. unfold parse_heredoc, h_parse_heredoc. pose proof (r_cur _ _ _ H) as Hc. rewrite Hc.
  apply rel_same. intros [[ws m] c1]. destruct (is_nil m); [reflexivity|].
  apply (rel_bind R_st); [apply s_trail; auto using rel_cur|]. intros x y Hx.
  pose proof (r_cur _ _ _ Hx) as Hd. rewrite Hd. apply rel_same. intros [ls c2]. cbn [rel_out fst snd]. auto using rel_cur.
Qed.

Lemma s_let : sims parse_cmd_let h_parse_cmd_let.
Proof.
  intros k st hs H. unfold parse_cmd_let, h_parse_cmd_let. sim H; try (apply s_common, H).
  all: (eapply rel_bind; [apply s_heredoc; auto using rel_cur|]); intros [a x] [b y] [E Hx]; cbn [fst snd] in E, Hx; rewrite E; sim Hx.
Qed.
Lemma s_const : sims parse_cmd_const h_parse_cmd_const.
Proof. intros k st hs H. unfold parse_cmd_const, h_parse_cmd_const. sim H; try (apply s_common, H). Qed.
Lemma s_unlet : sims parse_cmd_unlet h_parse_cmd_unlet.
Proof. intros k st hs H. unfold parse_cmd_unlet, h_parse_cmd_unlet. sim H. Qed.
Lemma s_lock mk : sims (parse_cmd_lock mk) (h_parse_cmd_lock mk).
Proof. intros k st hs H. unfold parse_cmd_lock, h_parse_cmd_lock. sim H. Qed.
Lemma s_if : sims parse_cmd_if h_parse_cmd_if.
Proof.
  intros k st hs H. unfold parse_cmd_if, h_parse_cmd_if. pose proof (r_cur _ _ _ H) as Hc. rewrite Hc.
  apply rel_same. intros [v c1]. apply (rel_block (HIf v)); [auto using rel_cur|reflexivity].
Qed.
Lemma s_while : sims parse_cmd_while h_parse_cmd_while.
Proof.
  intros k st hs H. unfold parse_cmd_while, h_parse_cmd_while. pose proof (r_cur _ _ _ H) as Hc. rewrite Hc.
  apply rel_same. intros [v c1]. apply (rel_block (HWhile v)); [auto using rel_cur|reflexivity].
Qed.

(** The state at the :if (or :try) whose part was left. *)
Definition at_kind (above : option hkind) (t : fkind -> bool) (x : pstate) (y : hstate) : Prop :=
  R_at above x y /\ exists f fs, ctx x = f :: fs /\ t (f_kind f) = true.

Lemma pop_if st hs f fs d : R_st st hs -> ctx st = f :: fs -> h_top hs = Ok d ->
  (is_if_part (f_kind f) = true /\ is_if (f_kind f) = false) ->
  rel_out (at_kind (Some (n_kind d)) is_if) (pop_part st) (h_pop hs).
Proof.
  intros H Ef Ht [K1 K2].
  assert (Kp : is_part (f_kind f) = true) by (destruct (f_kind f); try discriminate K1; try discriminate K2; reflexivity).
  pose proof (rel_pop_part _ _ _ _ _ H Ef Kp Ht) as P.
  destruct (pop_part st) as [x| | |] eqn:Ex, (h_pop hs) as [y| | |]; cbn [rel_out] in P |- *; auto.
  split; [exact P|]. unfold pop_part in Ex. rewrite Ef in Ex. destruct fs as [|g fs]; [discriminate Ex|].
  destruct (f_kind f); try discriminate K1; try discriminate K2; destruct (f_kind g); try discriminate Ex;
    injection Ex as <-; cbn; eauto.
Qed.

Lemma pop_try st hs f fs d : R_st st hs -> ctx st = f :: fs -> h_top hs = Ok d ->
  (is_try_part (f_kind f) = true /\ is_try (f_kind f) = false) ->
  rel_out (at_kind (Some (n_kind d)) is_try) (pop_part st) (h_pop hs).
Proof.
  intros H Ef Ht [K1 K2].
  assert (Kp : is_part (f_kind f) = true) by (destruct (f_kind f); try discriminate K1; try discriminate K2; reflexivity).
  pose proof (rel_pop_part _ _ _ _ _ H Ef Kp Ht) as P.
  destruct (pop_part st) as [x| | |] eqn:Ex, (h_pop hs) as [y| | |]; cbn [rel_out] in P |- *; auto.
  split; [exact P|]. unfold pop_part in Ex. rewrite Ef in Ex. destruct fs as [|g fs]; [discriminate Ex|].
  destruct (f_kind f); try discriminate K1; try discriminate K2; destruct (f_kind g); try discriminate Ex;
    injection Ex as <-; cbn; eauto.
Qed.

Lemma at_top above st hs : R_at above st hs -> above <> Some HElse /\ above <> Some HFinally -> R_st st hs.
Proof.
  intros [A B D E F] [N1 N2]. constructor; auto.
  destruct (h_ctx hs) as [|a l]; [exact I|]. destruct E as [d [Ed [[V1 V2] E]]].
  exists d. split; [exact Ed|]. split; [|exact E]. split; intros _; auto.
Qed.

(** Getting to the :if from the innermost part. *)
Lemma to_if st hs f fs d : R_st st hs -> ctx st = f :: fs -> h_top hs = Ok d -> is_if_part (f_kind f) = true ->
  hk_if (n_kind d) = is_if (f_kind f) ->
  rel_out (at_kind (if hk_if (n_kind d) then None else Some (n_kind d)) is_if) (if is_if (f_kind f) then Ok st else pop_part st)
    (if hk_if (n_kind d) then Ok hs else h_pop hs).
Proof.
  intros H Ef Ht K E. rewrite E. destruct (is_if (f_kind f)) eqn:Ei.
  - split; [exact H|]. exists f, fs. auto.
  - exact (pop_if _ _ _ _ _ H Ef Ht (conj K Ei)).
Qed.
Lemma to_try st hs f fs d : R_st st hs -> ctx st = f :: fs -> h_top hs = Ok d -> is_try_part (f_kind f) = true ->
  hk_try (n_kind d) = is_try (f_kind f) ->
  rel_out (at_kind (if hk_try (n_kind d) then None else Some (n_kind d)) is_try) (if is_try (f_kind f) then Ok st else pop_part st)
    (if hk_try (n_kind d) then Ok hs else h_pop hs).
Proof.
  intros H Ef Ht K E. rewrite E. destruct (is_try (f_kind f)) eqn:Ei.
  - split; [exact H|]. exists f, fs. auto.
  - exact (pop_try _ _ _ _ _ H Ef Ht (conj K Ei)).
Qed.

Lemma s_elseif : sims parse_cmd_elseif h_parse_cmd_elseif.
Proof.
  intros k st hs H. unfold parse_cmd_elseif, h_parse_cmd_elseif.
  destruct (rel_top _ _ _ H) as (f & fs & d & E1 & Ef & E2 & ves & vel & vcs & vfi & K).
  rewrite E1, E2. cbn [bind].
  pose proof (to_if st hs f fs d H Ef E2) as G.
  destruct (n_kind d) eqn:Ed; cbn [kind_rel] in K; rewrite K in G |- *; try reflexivity;
  (eapply rel_bind; [apply G; reflexivity|]); intros x y [Hx [g [gs [Eg Kg]]]]; (apply at_top in Hx; [|cbn; split; discriminate]);
  rewrite (r_cur _ _ _ Hx); apply rel_same; intros [v c1];
  (eapply rel_elseif; [apply rel_cur, Hx|exact Eg|exact Kg]).
Qed.

Lemma s_else : sims parse_cmd_else h_parse_cmd_else.
Proof.
  intros k st hs H. unfold parse_cmd_else, h_parse_cmd_else.
  destruct (rel_top _ _ _ H) as (f & fs & d & E1 & Ef & E2 & ves & vel & vcs & vfi & K).
  rewrite E1, E2. cbn [bind].
  pose proof (to_if st hs f fs d H Ef E2) as G.
  destruct (n_kind d) eqn:Ed; cbn [kind_rel] in K; rewrite K in G |- *; try reflexivity;
  (eapply rel_bind; [apply G; reflexivity|]); intros x y [Hx [g [gs [Eg Kg]]]]; (apply at_top in Hx; [|cbn; split; discriminate]);
  (eapply rel_else; [exact Hx|exact Eg|exact Kg]).
Qed.

Lemma s_endif : sims parse_cmd_endif h_parse_cmd_endif.
Proof.
  intros k st hs H. unfold parse_cmd_endif, h_parse_cmd_endif.
  destruct (rel_top _ _ _ H) as (f & fs & d & E1 & Ef & E2 & ves & vel & vcs & vfi & K).
  rewrite E1, E2. cbn [bind].
  pose proof (to_if st hs f fs d H Ef E2) as G.
  destruct (n_kind d) eqn:Ed; cbn [kind_rel] in K; rewrite K in G |- *; try reflexivity;
  cbn [negb hk_if_part is_if_part];
  (eapply rel_bind; [apply G; reflexivity|]); intros x y [Hx [g [gs [Eg Kg]]]];
  (eapply rel_end_block; [exact Hx|exact Eg|destruct (f_kind g); try discriminate Kg; reflexivity]).
Qed.

Lemma s_endwhile : sims parse_cmd_endwhile h_parse_cmd_endwhile.
Proof.
  intros k st hs H. unfold parse_cmd_endwhile, h_parse_cmd_endwhile.
  top H; try reflexivity. cbn [negb hk_while is_while].
  eapply (rel_end_block None); [exact H|exact Ef|rewrite K; reflexivity].
Qed.

Lemma s_for : sims parse_cmd_for h_parse_cmd_for.
Proof. intros k st hs H. unfold parse_cmd_for, h_parse_cmd_for. sim H. Qed.

Lemma s_endfor : sims parse_cmd_endfor h_parse_cmd_endfor.
Proof.
  intros k st hs H. unfold parse_cmd_endfor, h_parse_cmd_endfor.
  top H; try reflexivity. cbn [negb hk_for is_for].
  eapply (rel_end_block None); [exact H|exact Ef|rewrite K; reflexivity].
Qed.

Lemma s_continue : sims parse_cmd_continue h_parse_cmd_continue.
Proof.
  intros k st hs H. unfold parse_cmd_continue, h_parse_cmd_continue.
  rewrite (in_while _ _ H), (in_for _ _ H). sim H.
Qed.
Lemma s_break : sims parse_cmd_break h_parse_cmd_break.
Proof.
  intros k st hs H. unfold parse_cmd_break, h_parse_cmd_break.
  rewrite (in_while _ _ H), (in_for _ _ H). sim H.
Qed.
Lemma s_try : sims parse_cmd_try h_parse_cmd_try.
Proof. intros k st hs H. apply (rel_block HTry); [exact H|reflexivity]. Qed.

Lemma s_catch : sims parse_cmd_catch h_parse_cmd_catch.
Proof.
  intros k st hs H. unfold parse_cmd_catch, h_parse_cmd_catch.
  destruct (rel_top _ _ _ H) as (f & fs & d & E1 & Ef & E2 & ves & vel & vcs & vfi & K).
  rewrite E1, E2. cbn [bind].
  pose proof (to_try st hs f fs d H Ef E2) as G.
  destruct (n_kind d) eqn:Ed; cbn [kind_rel] in K; rewrite K in G |- *; try reflexivity;
  (eapply rel_bind; [apply G; reflexivity|]); intros x y [Hx [g [gs [Eg Kg]]]]; (apply at_top in Hx; [|cbn; split; discriminate]);
  cbv zeta; rewrite (r_cur _ _ _ Hx); apply rel_same; intros [v c1];
  (eapply rel_catch; [apply rel_cur, Hx|exact Eg|exact Kg]).
Qed.

Lemma s_finally : sims parse_cmd_finally h_parse_cmd_finally.
Proof.
  intros k st hs H. unfold parse_cmd_finally, h_parse_cmd_finally.
  destruct (rel_top _ _ _ H) as (f & fs & d & E1 & Ef & E2 & ves & vel & vcs & vfi & K).
  rewrite E1, E2. cbn [bind].
  pose proof (to_try st hs f fs d H Ef E2) as G.
  destruct (n_kind d) eqn:Ed; cbn [kind_rel] in K; rewrite K in G |- *; try reflexivity;
  (eapply rel_bind; [apply G; reflexivity|]); intros x y [Hx [g [gs [Eg Kg]]]]; (apply at_top in Hx; [|cbn; split; discriminate]);
  (eapply rel_finally; [exact Hx|exact Eg|exact Kg]).
Qed.

Lemma s_endtry : sims parse_cmd_endtry h_parse_cmd_endtry.
Proof.
  intros k st hs H. unfold parse_cmd_endtry, h_parse_cmd_endtry.
  destruct (rel_top _ _ _ H) as (f & fs & d & E1 & Ef & E2 & ves & vel & vcs & vfi & K).
  rewrite E1, E2. cbn [bind].
  pose proof (to_try st hs f fs d H Ef E2) as G.
  destruct (n_kind d) eqn:Ed; cbn [kind_rel] in K; rewrite K in G |- *; try reflexivity;
  cbn [negb hk_try_part is_try_part];
  (eapply rel_bind; [apply G; reflexivity|]); intros x y [Hx [g [gs [Eg Kg]]]];
  (eapply rel_end_block; [exact Hx|exact Eg|destruct (f_kind g); try discriminate Kg; reflexivity]).
Qed.

Lemma s_throw : sims parse_cmd_throw h_parse_cmd_throw.
Proof. intros k st hs H. unfold parse_cmd_throw, h_parse_cmd_throw. sim H. Qed.
Lemma s_eval : sims parse_cmd_eval h_parse_cmd_eval.
Proof. intros k st hs H. unfold parse_cmd_eval, h_parse_cmd_eval. sim H. Qed.
Lemma s_echo e : sims (parse_cmd_echo e) (h_parse_cmd_echo e).
Proof. intros k st hs H. unfold parse_cmd_echo, h_parse_cmd_echo. sim H. Qed.
Lemma s_echohl : sims parse_cmd_echohl h_parse_cmd_echohl.
Proof. intros k st hs H. unfold parse_cmd_echohl, h_parse_cmd_echohl. sim H. Qed.
Lemma s_execute : sims parse_cmd_execute h_parse_cmd_execute.
Proof. intros k st hs H. unfold parse_cmd_execute, h_parse_cmd_execute. sim H. Qed.
Lemma s_wincmd : sims parse_wincmd h_parse_wincmd.
Proof. intros k st hs H. unfold parse_wincmd, h_parse_wincmd. sim H. Qed.
Lemma s_syntax : sims parse_cmd_syntax h_parse_cmd_syntax.
Proof. intros k st hs H. unfold parse_cmd_syntax, h_parse_cmd_syntax. sim H. Qed.

Create HintDb heap_cmds discriminated.
#[local] Hint Constants Opaque : heap_cmds.
#[local] Hint Resolve s_append s_break s_call s_catch s_common s_continue s_delfunction s_echo s_echohl s_else s_elseif s_endfor s_endfunction s_endif s_endtry s_endwhile s_execute s_finally s_finish s_for s_function s_if s_let s_const s_loadkeymap s_lock s_lua s_return s_throw s_eval s_try s_unlet s_while s_wincmd s_syntax : heap_cmds.

Lemma s_table : Forall2 (fun a b => fst a = fst b /\ sims (snd a) (snd b)) parser_table h_parser_table.
Proof.
  unfold parser_table, h_parser_table.
  repeat (constructor; [split; [reflexivity|cbn [snd]]|]); [..|constructor].
  all: auto with heap_cmds nocore.
Qed.

Lemma assoc_rel {A B} (Q : A -> B -> Prop) s l l' :
  Forall2 (fun a b => fst a = fst b /\ Q (snd a) (snd b)) l l' ->
  match assoc_text s l, assoc_text s l' with
  | Some a, Some b => Q a b
  | None, None => True
  | _, _ => False
  end.
Proof.
  intros H. induction H as [|[k a] [k' b] l l' [E Hq] H IH]; cbn [assoc_text]; [exact I|].
  cbn [fst snd] in E, Hq. subst k'. destruct (text_eqb s k); [exact Hq|exact IH].
Qed.

Lemma s_dispatch : sims dispatch h_dispatch.
Proof.
  intros k st hs H. unfold dispatch, h_dispatch.
  pose proof (assoc_rel sims (c_parser (ec_x k)) _ _ s_table) as G.
  destruct (assoc_text _ parser_table), (assoc_text _ h_parser_table); try contradiction; [|reflexivity].
  apply G, H.
Qed.

Lemma s_command neovim e line st hs : R_st st hs ->
  rel_out R_st (parse_command neovim e line st) (h_parse_command neovim e line hs).
Proof.
  intros H. unfold parse_command, h_parse_command, parse_cmd_modifier_range, h_parse_cmd_modifier_range.
  pose proof (r_cur _ _ _ H) as Hc. cbv zeta. rewrite Hc. cbn [with_cur h_with_cur cur h_cur].
  set (c0 := skip_white_and_colon (cur st)).
  assert (H1 : R_st (with_cur c0 st) (h_with_cur c0 hs)) by (apply rel_cur, H).
  destruct (peek1 c0) as [r|]; [|repeat rs; apply (rel_add_node _ _ _ H1)].
  destruct (r =? C """"); [repeat rs; apply (rel_add_node _ _ _ H1)|].
  pose proof (s_find neovim _ _ H1) as [F1 F2]. unfold with_cur, h_with_cur in F1, F2.
  destruct (find_command neovim _) as [x st2], (h_find_command neovim _) as [x' hs2].
  cbn [fst snd] in F1, F2. subst x'.
  destruct x as [x|]; [|reflexivity]. rewrite (r_cur _ _ _ F2).
  repeat rs.
  all: apply s_dispatch; apply rel_cur, F2.
Qed.

Lemma s_one neovim st hs : R_st st hs ->
  rel_out R_st (parse_one_cmd neovim st) (h_parse_one_cmd neovim hs).
Proof.
  intros H. unfold parse_one_cmd, h_parse_one_cmd. sim H.
  - apply (rel_bind R_st); [apply s_comment; auto using rel_cur|]. intros x y Hx. sim Hx.
  - apply (rel_bind R_st); [apply s_command; auto using rel_cur|]. intros x z Hx. apply s_trail, Hx.
Qed.

Lemma s_loop neovim : forall n st hs, R_st st hs ->
  rel_out R_st (cmds_loop neovim n st) (h_cmds_loop neovim n hs).
Proof.
  induction n as [|n IH]; intros st hs H; [exact I|]. cbn [cmds_loop h_cmds_loop].
  rewrite (r_cur _ _ _ H). destruct (is_eof (cur st)); [exact H|].
  apply (rel_bind R_st); [apply s_one, H|]. exact IH.
Qed.

Lemma heap_start c : R_st (mkSt c [mkFrame FTop (getpos c) ea0 []] [])
                         (mkHs c [0%nat] [new_node HTop (getpos c) ea0] []).
Proof.
  constructor; [reflexivity|reflexivity| | |].
  - cbn [h_ctx h_store ctx stack_rel nth_error].
    split; [|split; reflexivity]. eexists. split; [reflexivity|].
    constructor; [reflexivity|reflexivity|].
    exists [], [], None, [], None, [], None, [], None. cbn. repeat split; auto.
  - cbn [h_ctx h_store rooms nth_error]. eexists. split; [reflexivity|]. split; [split; reflexivity|exact I].
  - constructor; [apply perm_nil|]. intros [|a] d E; [|destruct a; discriminate E].
    injection E as <-. constructor.
Qed.

(** The run of the parser with the store, and what is in the store at its end. *)
Lemma heap_run neovim c :
  match vim_parse neovim c, h_parse neovim c with
  | Ok v, Ok s => tree_at s 0 = Ok v /\ tree_shape s
  | PErr e, PErr e' => e = e'
  | Panic k, Panic k' => k = k'
  | OutOfFuel, OutOfFuel => True
  | _, _ => False
  end.
Proof.
  pose proof (s_loop neovim (S (clen c)) _ _ (heap_start c)) as L.
  unfold vim_parse, h_parse.
  destruct (cmds_loop _ _ _) as [st| | |], (h_cmds_loop _ _ _) as [hs| | |]; cbn [rel_out] in L;
    try contradiction; cbn [bind]; try exact L; try exact I.
  destruct (rel_ctx _ _ _ L) as (a & l & f & fs & d & El & Ef & Ed & Nd).
  unfold top_frame, h_top. rewrite El, Ef, Ed. cbn [bind]. rewrite (r_cur _ _ _ L).
  pose proof (r_stack _ _ _ L) as D. rewrite El, Ef in D.
  pose proof Nd as [P E (body & xs & xl & cs & fi & ves & vel & vcs & vfi & _ & _ & _ & _ & _ & _ & _ & _ & _ & _ & K)].
  unfold check_missing_if_try_loops, h_check_missing.
  destruct (n_kind d); cbn [kind_rel] in K; rewrite K; try reflexivity.
  cbn [is_function hk_function is_if_part hk_if_part is_try_part hk_try_part is_while hk_while is_for hk_for bind].
  destruct D as [_ D]. destruct l as [|b l]; destruct fs as [|g fs]; try contradiction;
    [|destruct D as [_ [Fi _]]; rewrite K in Fi; destruct Fi].
  destruct D as [-> _]. unfold h_pop, tree_at. rewrite El. cbn [bind h_store].
  split; [|exact (r_shape _ _ _ L)].
  assert (G : gfollow (fun _ => true) (length (h_store hs) - 0) (h_store hs) 0 = Some (finished f (n_end d))).
  { apply (complete (outside (h_ctx hs)) (h_store hs) 0 d f); auto. }
  apply gfollow_follow in G.
  apply (follow_mono _ _ (S (length (h_store hs)))) in G; [|lia]. rewrite G.
  unfold finished. rewrite K. reflexivity.
Qed.
