(** A JSON text denotes one value. *)
From Coq Require Import Lia ZifyBool ZifyNat ZifyN.
From Verif Require Import Base JsonSpec.

(** * A reader of JSON texts, only used in the proofs *)

Definition rcons (c : N) (o : option (text * text)) : option (text * text) :=
  match o with Some (s, r) => Some (c :: s, r) | None => None end.
Definition rshort (e : N) : option N :=
  match find (fun p => fst p =? e) short_escapes with Some p => Some (snd p) | None => None end.
Definition surrogate (u : N) : bool := (55296 <=? u) && (u <=? 57343).
Fixpoint rchars (t : text) : option (text * text) :=
  match t with
  | [] => None
  | c :: t1 =>
    if c =? C """" then Some ([], t1)
    else if c =? C "\" then
      match t1 with
      | [] => None
      | e :: t2 =>
        if e =? C "u" then
          match t2 with
          | a :: b :: c :: d :: t3 =>
            match hex4 a b c d with
            | None => None
            | Some u =>
              if surrogate u then
                match t3 with
                | _ :: _ :: a' :: b' :: c' :: d' :: t4 =>
                  match hex4 a' b' c' d' with
                  | None => None
                  | Some lo => rcons (65536 + 1024 * (u - 55296) + (lo - 56320)) (rchars t4)
                  end
                | _ => None
                end
              else rcons u (rchars t3)
            end
          | _ => None
          end
        else match rshort e with None => None | Some x => rcons x (rchars t2) end
      end
    else rcons c (rchars t1)
  end.
Lemma rchars_spelled s t : spelled s t -> forall r, rchars (t ++ C """" :: r) = Some (s, r).
Proof.
  induction 1 as [|c s t H1 H2 H3 _ IH|e c s t H _ IH|a b c d u s t H1 H2 _ IH|a b c d hi a' b' c' d' lo s t H1 H2 H3 H4 _ IH];
    intros r.
  - reflexivity.
  - cbn [app rchars]. destruct (N.eqb_spec c (C """")); [congruence|]. destruct (N.eqb_spec c (C "\")); [congruence|].
    rewrite IH. reflexivity.
  - unfold short_escapes in H. cbn [In] in H.
    repeat (destruct H as [H|H]; [injection H; intros; subst; cbn [app rchars]; rewrite IH; reflexivity|]). destruct H.
  - cbn [app rchars]. cbn [N.eqb Pos.eqb]. rewrite H1.
    assert (E : surrogate u = false) by (unfold surrogate; lia). rewrite E, IH. reflexivity.
  - cbn [app rchars]. cbn [N.eqb Pos.eqb]. rewrite H1.
    assert (E : surrogate hi = true) by (unfold surrogate; lia). rewrite E, H3, IH. reflexivity.
Qed.

Definition blankc (c : N) : bool := (c =? 32) || (c =? 9) || (c =? 10) || (c =? 13).
Fixpoint skip (t : text) : text := match t with c :: r => if blankc c then skip r else t | [] => [] end.
Definition numc (c : N) : bool :=
  ((C "0" <=? c) && (c <=? C "9")) || (c =? C "-") || (c =? C "+") || (c =? C ".") || (c =? C "e") || (c =? C "E").
Fixpoint span (t : text) : text * text :=
  match t with
  | c :: r => if numc c then let '(a, b) := span r in (c :: a, b) else ([], t)
  | [] => ([], [])
  end.

Fixpoint rvalue (k : nat) (t : text) : option (jv * text) :=
  match k with
  | O => None
  | S k =>
    match skip t with
    | [] => None
    | c :: r =>
      if c =? C """" then match rchars r with Some (s, r') => Some (JStr s, r') | None => None end
      else if c =? C "[" then
        match skip r with
        | c' :: r' => if c' =? C "]" then Some (JArr [], r')
                      else match relems k r with Some (l, r') => Some (JArr l, r') | None => None end
        | [] => None
        end
      else if c =? C "{" then
        match skip r with
        | c' :: r' => if c' =? C "}" then Some (JObj [], r')
                      else match rmembers k r with Some (l, r') => Some (JObj l, r') | None => None end
        | [] => None
        end
      else if c =? C "n" then Some (JNull, skipn 3 r)
      else if c =? C "t" then Some (JBool true, skipn 3 r)
      else if c =? C "f" then Some (JBool false, skipn 4 r)
      else let '(a, b) := span (c :: r) in Some (JNum a, b)
    end
  end
with relems (k : nat) (t : text) : option (list jv * text) :=
  match k with
  | O => None
  | S k =>
    match rvalue k t with
    | None => None
    | Some (v, r) =>
      match skip r with
      | c :: r' =>
        if c =? C "," then match relems k r' with Some (l, r'') => Some (v :: l, r'') | None => None end
        else Some ([v], r')
      | [] => None
      end
    end
  end
with rmembers (k : nat) (t : text) : option (list (text * jv) * text) :=
  match k with
  | O => None
  | S k =>
    match rchars (skipn 1 (skip t)) with
    | None => None
    | Some (key, r) =>
      match rvalue k (skipn 1 (skip r)) with
      | None => None
      | Some (v, r) =>
        match skip r with
        | c :: r' =>
          if c =? C "," then match rmembers k r' with Some (l, r'') => Some ((key, v) :: l, r'') | None => None end
          else Some ([(key, v)], r')
        | [] => None
        end
      end
    end
  end.

Lemma skip_ws w t : ws w -> skip (w ++ t) = skip t.
Proof.
  induction 1 as [|c w H _ IH]; [reflexivity|]. cbn [app skip]. cbn [In] in H. unfold blankc at 1.
  destruct H as [H|[H|[H|[H|[]]]]]; subst c; cbn; exact IH.
Qed.
(** What can follow a number. *)
Definition stops (r : text) : Prop := match r with [] => True | c :: _ => numc c = false end.
Lemma stops_ws w r : ws w -> stops r -> stops (w ++ r).
Proof. intros H Hr. destruct H as [|c w H _]; [exact Hr|]. cbn [In] in H. destruct H as [H|[H|[H|[H|[]]]]]; subst c; reflexivity. Qed.
Lemma span_all s r : Forall (fun c => numc c = true) s -> stops r -> span (s ++ r) = (s, r).
Proof.
  intros H Hr. induction H as [|c s H _ IH].
  - destruct r as [|c r]; [reflexivity|]. cbn [app span]. cbn in Hr. rewrite Hr. reflexivity.
  - cbn [app span]. rewrite H, IH. reflexivity.
Qed.
Lemma digits_numc s : digits s -> Forall (fun c => numc c = true) s.
Proof. apply Forall_impl. unfold numc. intros. lia. Qed.
Lemma number_numc s : number s -> Forall (fun c => numc c = true) s.
Proof.
  intros [mi [int [fr [ex [-> [Hm [Hi [Hf He]]]]]]]]. rewrite !Forall_app. repeat split.
  - destruct Hm as [->| ->]; repeat constructor.
  - destruct Hi as [->|[d [ds [-> [Hd Hs]]]]]; [repeat constructor|]. constructor; [unfold numc; lia|apply digits_numc; auto].
  - destruct Hf as [->|[ds [-> [Hd _]]]]; [constructor|]. constructor; [reflexivity|apply digits_numc; auto].
  - destruct He as [->|[e [sg [ds [-> [H1 [H2 [H3 _]]]]]]]]; [constructor|]. constructor.
    + cbn [In] in H1. unfold numc. lia.
    + apply Forall_app. split; [|apply digits_numc; auto]. destruct H2 as [->|[->| ->]]; repeat constructor.
Qed.
Lemma number_head s : number s -> exists c r, s = c :: r /\ (c = C "-" \/ C "0" <= c <= C "9").
Proof.
  intros [mi [int [fr [ex [-> [Hm [Hi _]]]]]]]. destruct Hm as [->| ->]; [|do 2 eexists; split; [reflexivity|auto]].
  destruct Hi as [->|[d [ds [-> [Hd Hs]]]]]; do 2 eexists; (split; [reflexivity|]); right; lia.
Qed.
(** How a value begins. *)
Lemma value_head v s : value v s -> exists c r, s = c :: r /\ blankc c = false /\ c <> C "]" /\ c <> C "}".
Proof.
  destruct 1; try (do 2 eexists; split; [reflexivity|]; split; [reflexivity|]; split; discriminate).
  apply number_head in H. destruct H as [c [r [-> H]]]. exists c, r. unfold blankc. repeat split; lia.
Qed.
Lemma skip_value v s r : value v s -> skip (s ++ r) = s ++ r.
Proof. intros H. apply value_head in H. destruct H as [c [s' [-> [H _]]]]. cbn [app skip]. rewrite H. reflexivity. Qed.

Scheme value_mut := Minimality for value Sort Prop
  with elements_mut := Minimality for elements Sort Prop
  with members_mut := Minimality for members Sort Prop.
Combined Scheme json_mut from value_mut, elements_mut, members_mut.

Definition reads_value (v : jv) (s : text) : Prop :=
  forall r, stops r -> exists k0, forall k, (k0 <= k)%nat -> rvalue k (s ++ r) = Some (v, r).
Lemma reads_value_ws v s w r : reads_value v s -> value v s -> ws w -> stops r ->
  exists k0, forall k, (k0 <= k)%nat -> rvalue k (w ++ s ++ r) = Some (v, r).
Proof.
  intros H Hv Hw Hr. destruct (H r Hr) as [k0 H0]. exists k0. intros k Hk. rewrite <- (H0 k Hk).
  destruct k as [|k]; [reflexivity|]. cbn [rvalue]. rewrite skip_ws by auto. reflexivity.
Qed.
Lemma elements_head l t : elements l t -> forall r, exists c r', skip (t ++ r) = c :: r' /\ c <> C "]".
Proof.
  destruct 1; intros rr; apply value_head in H0; destruct H0 as [c [s' [-> [Hb [Hc _]]]]];
    exists c; eexists; (split; [|exact Hc]); rewrite <- app_assoc, skip_ws by auto; cbn [app skip]; rewrite Hb; reflexivity.
Qed.
Lemma members_head l t : members l t -> forall r, exists c r', skip (t ++ r) = c :: r' /\ c <> C "}".
Proof.
  destruct 1; intros rr; exists (C """"); eexists; (split; [|discriminate]); rewrite <- app_assoc, skip_ws by auto; reflexivity.
Qed.

Lemma json_read :
  (forall v s, value v s -> reads_value v s) /\
  (forall l t, elements l t -> forall r, exists k0, forall k, (k0 <= k)%nat -> relems k (t ++ C "]" :: r) = Some (l, r)) /\
  (forall l t, members l t -> forall r, exists k0, forall k, (k0 <= k)%nat -> rmembers k (t ++ C "}" :: r) = Some (l, r)).
Proof.
  apply json_mut; unfold reads_value.
  - intros r _. exists 1%nat. intros [|k] Hk; [lia|reflexivity].
  - intros r _. exists 1%nat. intros [|k] Hk; [lia|reflexivity].
  - intros r _. exists 1%nat. intros [|k] Hk; [lia|reflexivity].
  - intros s H r Hr. exists 1%nat. intros [|k] Hk; [lia|]. cbn [rvalue].
    rewrite (skip_value (JNum s)) by (constructor; auto).
    pose proof (number_numc _ H) as Hn. destruct (number_head _ H) as [c [s' [-> Hc]]]. cbn [app].
    repeat match goal with |- context [c =? ?x] => destruct (N.eqb_spec c x); [exfalso; lia|] end.
    change (c :: s' ++ r) with ((c :: s') ++ r). rewrite span_all by auto. reflexivity.
  - intros s t H r Hr. exists 1%nat. intros [|k] Hk; [lia|]. cbn [rvalue app skip]. cbn [blankc N.eqb Pos.eqb orb].
    rewrite <- app_assoc. cbn [app]. rewrite (rchars_spelled _ _ H). reflexivity.
  - intros w H r Hr. exists 1%nat. intros [|k] Hk; [lia|]. cbn [rvalue app skip]. cbn [blankc N.eqb Pos.eqb orb].
    rewrite <- app_assoc, skip_ws by auto. reflexivity.
  - intros l t H IH r Hr. destruct (IH r) as [k0 H0]. exists (S k0). intros [|k] Hk; [lia|]. cbn [rvalue app skip].
    cbn [blankc N.eqb Pos.eqb orb]. rewrite <- app_assoc. cbn [app].
    destruct (elements_head _ _ H (C "]" :: r)) as [c [r' [E Hc]]]. rewrite E.
    destruct (N.eqb_spec c (C "]")); [congruence|]. rewrite H0 by lia. reflexivity.
  - intros w H r Hr. exists 1%nat. intros [|k] Hk; [lia|]. cbn [rvalue app skip]. cbn [blankc N.eqb Pos.eqb orb].
    rewrite <- app_assoc, skip_ws by auto. reflexivity.
  - intros l t H IH r Hr. destruct (IH r) as [k0 H0]. exists (S k0). intros [|k] Hk; [lia|]. cbn [rvalue app skip].
    cbn [blankc N.eqb Pos.eqb orb]. rewrite <- app_assoc. cbn [app].
    destruct (members_head _ _ H (C "}" :: r)) as [c [r' [E Hc]]]. rewrite E.
    destruct (N.eqb_spec c (C "}")); [congruence|]. rewrite H0 by lia. reflexivity.
  - intros w v s w' Hw Hv IH Hw' r.
    destruct (reads_value_ws v s w (w' ++ C "]" :: r) IH Hv Hw) as [k0 H0]; [apply stops_ws; auto; reflexivity|].
    exists (S k0). intros [|k] Hk; [lia|]. cbn [relems]. rewrite <- !app_assoc, H0 by lia. rewrite skip_ws by auto. reflexivity.
  - intros w v s w' l t Hw Hv IH Hw' Hl IHl r.
    destruct (reads_value_ws v s w (w' ++ T "," ++ t ++ C "]" :: r) IH Hv Hw) as [k0 H0]; [apply stops_ws; auto; reflexivity|].
    destruct (IHl r) as [k1 H1]. exists (S (k0 + k1)). intros [|k] Hk; [lia|]. cbn [relems]. rewrite <- !app_assoc, H0 by lia.
    rewrite skip_ws by auto. cbn [app skip blankc N.eqb Pos.eqb orb]. rewrite H1 by lia. reflexivity.
  - intros w key kt w1 w2 v s w' Hw Hs Hw1 Hw2 Hv IH Hw' r.
    destruct (reads_value_ws v s w2 (w' ++ C "}" :: r) IH Hv Hw2) as [k0 H0]; [apply stops_ws; auto; reflexivity|].
    exists (S k0). intros [|k] Hk; [lia|]. cbn [rmembers]. rewrite <- !app_assoc, skip_ws by auto.
    cbn [app skip blankc N.eqb Pos.eqb orb skipn]. rewrite (rchars_spelled _ _ Hs). rewrite skip_ws by auto.
    cbn [app skip blankc N.eqb Pos.eqb orb skipn]. rewrite H0 by lia. rewrite skip_ws by auto. reflexivity.
  - intros w key kt w1 w2 v s w' l t Hw Hs Hw1 Hw2 Hv IH Hw' Hl IHl r.
    destruct (reads_value_ws v s w2 (w' ++ T "," ++ t ++ C "}" :: r) IH Hv Hw2) as [k0 H0]; [apply stops_ws; auto; reflexivity|].
    destruct (IHl r) as [k1 H1]. exists (S (k0 + k1)). intros [|k] Hk; [lia|]. cbn [rmembers]. rewrite <- !app_assoc, skip_ws by auto.
    cbn [app skip blankc N.eqb Pos.eqb orb skipn]. rewrite (rchars_spelled _ _ Hs). rewrite skip_ws by auto.
    cbn [app skip blankc N.eqb Pos.eqb orb skipn]. rewrite H0 by lia. rewrite skip_ws by auto.
    cbn [app skip blankc N.eqb Pos.eqb orb]. rewrite H1 by lia. reflexivity.
Qed.

(** A text denotes at most one value. *)
Lemma json_text_unique v v' t : json_text v t -> json_text v' t -> v = v'.
Proof.
  intros [w [s [w1 [-> [Hw [Hv Hw1]]]]]] [w' [s' [w1' [E [Hw' [Hv' Hw1']]]]]].
  assert (Hs : forall x, ws x -> stops x). { intros x Hx. rewrite <- (app_nil_r x). apply stops_ws; auto. exact I. }
  destruct (reads_value_ws v s w w1 (proj1 json_read _ _ Hv) Hv Hw (Hs _ Hw1)) as [k H].
  destruct (reads_value_ws v' s' w' w1' (proj1 json_read _ _ Hv') Hv' Hw' (Hs _ Hw1')) as [k' H'].
  specialize (H (k + k')%nat ltac:(lia)). specialize (H' (k + k')%nat ltac:(lia)). rewrite E in H. congruence.
Qed.
