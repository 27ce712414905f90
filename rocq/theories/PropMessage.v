(** Property theorems: what positions and errors look like as strings. *)
From Coq Require Import Lia.
From Verif Require Import Base Utf8 CharClass Reader Vnode Token Ast ExprParser Api ApiFile JsonSpec JsonProof.

(** ast/pos.go:20-27  Pos.String, as bytes. *)
Definition file_part (f : list N) : list N := match f with [] => [] | _ => f ++ [58] end.
Definition pos_string (p : apos) : list N :=
  file_part (ap_filename p) ++ dec (ap_line p) ++ [58] ++ dec (ap_column p).

Lemma split_at (c : N) a : forall a' r r', ~ In c a -> ~ In c a' -> a ++ c :: r = a' ++ c :: r' -> a = a' /\ r = r'.
Proof.
  induction a as [|x a IH]; intros [|y a'] r r' H H' E; cbn [app] in E.
  - injection E as ->. auto.
  - injection E as <- E. exfalso. apply H'. left; reflexivity.
  - injection E as -> E. exfalso. apply H. left; reflexivity.
  - injection E as <- E. destruct (IH a' r r') as [-> ->]; auto; intros K; [apply H|apply H']; right; exact K.
Qed.
Lemma split_last (c : N) a a' r r' : ~ In c r -> ~ In c r' -> a ++ c :: r = a' ++ c :: r' -> a = a' /\ r = r'.
Proof.
  intros H H' E. apply (f_equal (@rev N)) in E. rewrite !rev_app_distr in E. cbn [rev] in E. rewrite <- !app_assoc in E. cbn [app] in E.
  apply split_at in E; [|rewrite <- in_rev; assumption..]. destruct E as [E1 E2].
  apply (f_equal (@rev N)) in E1, E2. rewrite !rev_involutive in E1, E2. auto.
Qed.
Lemma dec_plain n c : c < 48 \/ 57 < c -> ~ In c (dec n).
Proof.
  intros H K. destruct (dec_shape n) as [E|[d [ds [E [D F]]]]]; rewrite E in K.
  - destruct K as [<-|[]]. lia.
  - destruct K as [<-|K]; [lia|]. unfold digits in F. rewrite Forall_forall in F. specialize (F c K). cbn in F. lia.
Qed.

(** C67: the string of a position tells file, line and column. *)
Theorem C67_position : forall p q, pos_string p = pos_string q ->
  ap_filename p = ap_filename q /\ ap_line p = ap_line q /\ ap_column p = ap_column q.
Proof.
  intros p q E. unfold pos_string in E.
  assert (K : forall f l c, file_part f ++ dec l ++ [58] ++ dec c =
    (file_part f ++ dec l) ++ 58 :: dec c). { intros. rewrite <- app_assoc. reflexivity. }
  rewrite !K in E. apply split_last in E; [|apply dec_plain; lia..]. destruct E as [E C1]. apply dec_inj in C1.
  destruct (ap_filename p) as [|x f], (ap_filename q) as [|y g]; unfold file_part in E.
  - apply dec_inj in E. auto.
  - exfalso. cbn [app] in E. assert (H : In 58 (dec (ap_line p))). { rewrite E. right. rewrite !in_app_iff. left. right. left. reflexivity. }
    revert H. apply dec_plain. lia.
  - exfalso. cbn [app] in E. assert (H : In 58 (dec (ap_line q))). { rewrite <- E. right. rewrite !in_app_iff. left. right. left. reflexivity. }
    revert H. apply dec_plain. lia.
  - rewrite <- !app_assoc in E. cbn [app] in E. apply (split_last 58 (x :: f) (y :: g)) in E; [|apply dec_plain; lia..].
    destruct E as [E L]. apply dec_inj in L. auto.
Qed.
Print Assumptions C67_position.
(** And the string of an error tells line, column and message, if the file is known. *)
Theorem C67_error : forall file off line col msg off' line' col' msg' s,
  error_string (ErrVimlParser file off line col msg) = Some s -> error_string (ErrVimlParser file off' line' col' msg') = Some s ->
  line = line' /\ col = col' /\ msg = msg'.
Proof.
  intros file off line col msg off' line' col' msg' s E E'. rewrite <- E' in E. clear s E'. destruct file as [|x f]; unfold error_string in E.
  - assert (K : T "vimlparser: " ++ msg ++ T ": line " ++ dec line ++ T " col " ++ dec col = T "vimlparser: " ++ msg' ++ T ": line " ++ dec line' ++ T " col " ++ dec col') by congruence.
    apply app_inv_head in K. clear E.
    assert (A : forall m l c, m ++ T ": line " ++ dec l ++ T " col " ++ dec c = ((m ++ T ": line") ++ 32 :: dec l ++ T " col") ++ 32 :: dec c).
    { intros. rewrite <- !app_assoc. cbn [app]. rewrite <- !app_assoc. reflexivity. }
    rewrite !A in K. apply split_last in K; [|apply dec_plain; lia..]. destruct K as [K K1]. apply dec_inj in K1. subst col'.
    assert (B : forall m l, (m ++ T ": line") ++ 32 :: dec l ++ T " col" = ((m ++ T ": line") ++ 32 :: dec l) ++ T " col"). { intros. rewrite <- !app_assoc. reflexivity. }
    rewrite !B in K. apply app_inv_tail in K. apply split_last in K; [|apply dec_plain; lia..]. destruct K as [K K1]. apply dec_inj in K1. apply app_inv_tail in K. auto.
  - assert (K : decode (x :: f) ++ T ":" ++ dec line ++ T ":" ++ dec col ++ T ": vimlparser: " ++ msg = decode (x :: f) ++ T ":" ++ dec line' ++ T ":" ++ dec col' ++ T ": vimlparser: " ++ msg') by congruence.
    apply app_inv_head in K. clear E. apply (app_inv_head (T ":")) in K. cbn [app] in K.
    apply split_at in K; [|apply dec_plain; lia..]. destruct K as [K1 K]. apply dec_inj in K1.
    apply split_at in K; [|apply dec_plain; lia..]. destruct K as [K2 K]. apply dec_inj in K2. injection K as ->. auto.
Qed.
Print Assumptions C67_error.
(** For each error of ParseFile but the one about a number that is too large there is such a
    string. *)
Theorem C67_has_string : forall src file opt e, ParseFile src file opt = Failed e ->
  (exists s, error_string e = Some s) \/ exists s, e = ErrOther (PStr2nr s).
Proof.
  intros src file opt e E. destruct (ParseFile_errors src file opt) as [[p [b H]]|[[o [l [c [m H]]]]|[s [_ [_ [_ H]]]]]]; rewrite H in E; try discriminate E; injection E as <-.
  - left. unfold error_string. destruct file; eauto.
  - right. eauto.
Qed.
Print Assumptions C67_has_string.
(** A file name that looks like a position does not confuse. *)
Example C67_case : exists n e p, ParseFile (mkSource (T "xyz") false) (T "a:1") None = Failed e /\
  error_string e = Some (T "a:1:1:1: vimlparser: E492: Not an editor command: xyz") /\
  ParseFile (mkSource [] false) (T "a:1") None = Returned n /\ npos n = p /\ pos_string p = T "a:1:1:0".
Proof. do 3 eexists. split; [vm_compute; reflexivity|]. split; [vm_compute; reflexivity|]. split; [vm_compute; reflexivity|]. split; vm_compute; reflexivity. Qed.
