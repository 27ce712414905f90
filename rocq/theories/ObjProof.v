(** The Compiler with its state does what the function [comp] says, and a call that returns
    leaves the indentation as it was. *)
From Coq Require Import Lia.
From Verif Require Import Base Utf8 Vnode Token Ast Export Nodes Places Compiler Printer CompilerObj Walk WalkProof LayoutProof ConcatProof.

Definition agree {A} (ind : nat) (r : cstate * outcome A) (o : outcome (text * A)) : Prop :=
  match o with
  | Ok (b, x) => r = (mkCState ind b, Ok x)
  | PErr e => snd r = PErr e
  | Panic k => snd r = Panic k
  | OutOfFuel => snd r = OutOfFuel
  end.
Definition flat {A} (r : text * bool * A) : text * (bool * A) := match r with (b, e, x) => (b, (e, x)) end.

Lemma agree_bind {A B} i1 i2 (m : M A) (f : A -> M B) s o (k : text * A -> outcome (text * B)) :
  agree i1 (m s) o -> (forall b x, o = Ok (b, x) -> agree i2 (f x (mkCState i1 b)) (k (b, x))) ->
  agree i2 (andthen m f s) (bind o k).
Proof.
  intros H K. unfold andthen. destruct o as [[b x]|e|p|]; cbn [agree] in H.
  - rewrite H. cbn [bind]. apply K. reflexivity.
  - destruct (m s) as [s' r]. cbn [snd] in H. subst r. reflexivity.
  - destruct (m s) as [s' r]. cbn [snd] in H. subst r. reflexivity.
  - destruct (m s) as [s' r]. cbn [snd] in H. subst r. reflexivity.
Qed.

Section Obj.
Context (unit : text).

Lemma list_agree f g ind l : (forall x, In x l -> forall buf, agree ind (f x (mkCState ind buf)) (oc_map flat (g x buf))) ->
  forall buf, agree ind (m_list f l (mkCState ind buf)) (oc_map flat (compile_list g l buf)).
Proof.
  induction l as [|x l IH]; intros H buf; cbn [m_list compile_list]; [reflexivity|].
  pose proof (H x (or_introl eq_refl) buf) as Hx. unfold andthen at 1.
  destruct (g x buf) as [[[b e] x']|e|k|]; cbn [oc_map flat agree] in Hx; cbn [bind oc_map agree].
  2-4: destruct (f x _) as [s' r]; cbn [snd] in Hx; subst r; reflexivity.
  rewrite Hx. destruct e; [reflexivity|]. pose proof (IH (fun y Hy => H y (or_intror Hy)) b) as Hl. unfold andthen.
  destruct (compile_list g l b) as [[[b' e'] l']|e'|k|]; cbn [oc_map flat agree] in Hl; cbn [bind oc_map flat agree].
  2-4: destruct (m_list f l _) as [s' r]; cbn [snd] in Hl; subst r; reflexivity.
  rewrite Hl. reflexivity.
Qed.
Lemma body_agree f g ind l : (forall x, In x l -> forall buf, agree ind (f x (mkCState ind buf)) (oc_map flat (g x buf))) ->
  forall buf, agree ind ((do* '(_, l') := m_list f l in ret l') (mkCState ind buf)) (compile_body g l buf).
Proof.
  intros H buf. pose proof (list_agree f g ind l H buf) as K. unfold compile_body, andthen.
  destruct (compile_list g l buf) as [[[b e] l']|e|k|]; cbn [oc_map flat agree] in K; cbn [bind agree].
  2-4: destruct (m_list f l _) as [s' r]; cbn [snd] in K; subst r; reflexivity.
  rewrite K. reflexivity.
Qed.
Lemma parts_agree f g ind l : (forall x, In x l -> forall buf, agree ind (f x (mkCState ind buf)) (oc_map (fun r => match r with (b, _, x) => (b, x) end) (g x buf))) ->
  forall buf, agree ind (m_parts f l (mkCState ind buf)) (compile_parts g l buf).
Proof.
  induction l as [|x l IH]; intros H buf; cbn [m_parts compile_parts]; [reflexivity|].
  pose proof (H x (or_introl eq_refl) buf) as Hx. unfold andthen at 1.
  destruct (g x buf) as [[[b e] x']|e|k|]; cbn [oc_map agree] in Hx; cbn [bind oc_map agree].
  2-4: destruct (f x _) as [s' r]; cbn [snd] in Hx; subst r; reflexivity.
  rewrite Hx. eapply agree_bind; [exact (IH (fun y Hy => H y (or_intror Hy)) b)|]. intros b' l' _. reflexivity.
Qed.
Lemma lift_agree {A B} ind i2 (o : outcome A) (f : A -> M B) buf k :
  (forall x, o = Ok x -> agree i2 (f x (mkCState ind buf)) (k x)) -> agree i2 (andthen (lift o) f (mkCState ind buf)) (bind o k).
Proof. intros H. unfold andthen, lift. destruct o; cbn [bind agree]; auto. Qed.

Definition good (n : node) : Prop := forall ind buf, agree ind (m_comp unit n (mkCState ind buf)) (oc_map flat (comp unit ind n buf)).

Lemma at_pl {B} s (f : Datatypes.unit -> M B) i b : andthen (m_fprintln unit s) f (mkCState i b) = f tt (mkCState i (fprintln unit i s b)).
Proof. reflexivity. Qed.
Lemma at_p {B} s (f : Datatypes.unit -> M B) i b : andthen (m_fprint unit s) f (mkCState i b) = f tt (mkCState i (fprint unit i s b)).
Proof. reflexivity. Qed.
Lemma at_inc {B} (f : Datatypes.unit -> M B) i b : andthen m_inc f (mkCState i b) = f tt (mkCState (S i) b).
Proof. reflexivity. Qed.
Lemma at_dec {B} (f : Datatypes.unit -> M B) i b : andthen m_dec f (mkCState (S i) b) = f tt (mkCState i b).
Proof. reflexivity. Qed.
Lemma at_close {B} (f : Datatypes.unit -> M B) i b : andthen m_close f (mkCState i b) = f tt (mkCState i (close_paren b)).
Proof. reflexivity. Qed.
Lemma oc_map_bind {A B D} (f : B -> D) (m : outcome A) k : oc_map f (bind m k) = bind m (fun x => oc_map f (k x)).
Proof. destruct m; reflexivity. Qed.

Lemma comp_good n : good n /\ forall x, In x (fields n) -> good x.
Proof.
  induction n as [n IH] using fields_ind. split; [|intros x Hx; exact (proj1 (IH x Hx))].
  assert (LS : forall k l, (forall x, In x l -> In x (fields n)) -> forall buf,
    agree k (m_list (m_comp unit) l (mkCState k buf)) (oc_map flat (compile_list (comp unit k) l buf))).
  { intros k l H. apply list_agree. intros x Hx. exact (proj1 (IH x (H x Hx)) k). }
  assert (L1 : forall k l, (forall x, In x l -> In x (fields n)) -> forall buf,
    agree k ((do* '(_, l') := m_list (m_comp unit) l in ret l') (mkCState k buf)) (compile_body (comp unit k) l buf)).
  { intros k l H. apply body_agree. intros x Hx. exact (proj1 (IH x (H x Hx)) k). }
  assert (L2 : forall c, In c (fields n) -> forall k l, (forall x, In x l -> In x (fields c)) -> forall buf,
    agree k ((do* '(_, l') := m_list (m_comp unit) l in ret l') (mkCState k buf)) (compile_body (comp unit k) l buf)).
  { intros c Hc k l H. apply body_agree. intros x Hx. exact (proj2 (IH c Hc) x (H x Hx) k). }
  intros ind buf.
  destruct n; try (unfold agree; cbn [m_comp k_indent k_buffer]; destruct (comp unit ind _ buf) as [[[? ?] ?]|?|?|]; reflexivity);
    cbn [m_comp comp]; cbn [fields] in LS, L1, L2.
  - rewrite oc_map_bind. pose proof (LS ind body (fun _ H => H) buf) as K. unfold andthen.
    destruct (compile_list (comp unit ind) body buf) as [[[b e] l']|e|k|]; cbn [oc_map flat agree] in K; cbn [bind oc_map flat agree].
    2-4: destruct (m_list (m_comp unit) body _) as [s' r]; cbn [snd] in K; subst r; reflexivity.
    rewrite K. reflexivity.
  - rewrite oc_map_bind, at_p. body_step.
    assert (R : forall b1, agree ind ((do* _ := m_fprintln unit (T ")") in do* _ := m_inc in do* b' := (do* '(_, l') := m_list (m_comp unit) body in ret l') in
        do* _ := m_close in do* _ := m_dec in ret (false, NFunction p ea b' name (cut_dots params) default_args attr endfunction)) (mkCState ind b1))
      (bind (compile_body (comp unit (S ind)) body (fprintln unit ind [41] b1)) (fun x => oc_map flat (let '(buf4, b') := x in Ok (close_paren buf4, false, NFunction p ea b' name (cut_dots params) default_args attr endfunction))))).
    { intros b1. rewrite at_pl, at_inc. eapply agree_bind; [apply L1; inside|]. intros b x _. rewrite at_close, at_dec. reflexivity. }
    destruct (is_nil params); [exact (R _)|]. exact (R _).
  - rewrite oc_map_bind. apply lift_agree. intros cn _. rewrite at_pl, at_inc. body_step.
    rewrite oc_map_bind. eapply agree_bind; [apply L1; inside|]. intros b1 l1 _. rewrite at_dec.
    rewrite oc_map_bind. eapply agree_bind.
    + apply parts_agree. intros x Hx b0. destruct x; try reflexivity. rewrite oc_map_bind. apply lift_agree. intros cn' _.
      rewrite at_pl, at_inc. body_step. rewrite oc_map_bind. eapply agree_bind; [eapply L2; [rewrite ?in_app_iff; right; right; left; exact Hx|inside]|].
      intros b2 l2 _. rewrite at_dec. reflexivity.
    + intros b2 eis' _. rewrite oc_map_bind. eapply agree_bind with (i1 := ind).
      * destruct else_ as [x|]; [|reflexivity]. destruct x; try reflexivity. apply lift_agree. intros cn' _.
        rewrite at_pl, at_inc. body_step. eapply agree_bind; [eapply L2; [rewrite ?in_app_iff; right; right; right; left; left; reflexivity|inside]|].
        intros b3 l3 _. rewrite at_dec. reflexivity.
      * intros b3 el' _. rewrite at_close. reflexivity.
  - rewrite oc_map_bind. apply lift_agree. intros cn _. rewrite at_pl, at_inc. body_step.
    rewrite oc_map_bind. eapply agree_bind; [apply L1; inside|]. intros b1 l1 _. rewrite at_close, at_dec. reflexivity.
  - rewrite oc_map_bind. apply lift_agree. intros cn _. rewrite at_pl, at_inc. body_step.
    rewrite oc_map_bind. eapply agree_bind; [apply L1; inside|]. intros b1 l1 _. rewrite at_close, at_dec. reflexivity.
  - rewrite oc_map_bind. apply lift_agree. intros cn _. rewrite at_pl, at_inc. body_step.
    rewrite oc_map_bind. eapply agree_bind; [apply L1; inside|]. intros b1 l1 _.
    rewrite oc_map_bind. eapply agree_bind with (i1 := S ind).
    + apply parts_agree. intros x Hx b0. destruct x; try reflexivity. rewrite oc_map_bind, at_dec. apply lift_agree. intros cn' _.
      rewrite at_pl, at_inc. body_step. rewrite oc_map_bind. eapply agree_bind; [eapply L2; [rewrite ?in_app_iff; right; left; exact Hx|inside]|].
      intros b2 l2 _. reflexivity.
    + intros b2 cs' _. rewrite oc_map_bind. eapply agree_bind with (i1 := S ind).
      * destruct finally as [x|]; [|reflexivity]. destruct x; try reflexivity. rewrite at_dec. apply lift_agree. intros cn' _.
        rewrite at_pl, at_inc. body_step. eapply agree_bind; [eapply L2; [rewrite ?in_app_iff; right; right; left; left; reflexivity|inside]|].
        intros b3 l3 _. reflexivity.
      * intros b3 el' _. rewrite at_close, at_dec. reflexivity.
Qed.
End Obj.

(** One call. *)
Lemma call_result c w n : let r := compiler_compile c w n in
  match comp (o_unit c) (k_indent (o_state c)) n [] with
  | Ok (buf, err, _) => r = (mkCompiler (o_unit c) (mkCState (k_indent (o_state c)) buf), if err then ([], NodeError) else write_to w (encode buf))
  | Panic k => snd r = ([], Panicked k)
  | _ => snd r = ([], Endless)
  end.
Proof.
  cbv zeta. unfold compiler_compile. pose proof (proj1 (comp_good (o_unit c) n) (k_indent (o_state c)) []) as K.
  destruct (comp _ _ n []) as [[[b e] x]|e|k|]; cbn [oc_map flat agree] in K.
  - rewrite K. reflexivity.
  - destruct (m_comp _ _ _) as [s r]. cbn [snd] in K. subst r. reflexivity.
  - destruct (m_comp _ _ _) as [s r]. cbn [snd] in K. subst r. reflexivity.
  - destruct (m_comp _ _ _) as [s r]. cbn [snd] in K. subst r. reflexivity.
Qed.
