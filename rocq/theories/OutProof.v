(** Format strings, quoting, and the expression printer. *)
From Coq Require Import Lia ZifyBool ZifyNat ZifyN.
From Verif Require Import Base Utf8 CharClass Reader Vnode Token Ast Export RefCompiler Compiler Printer Api Places Nodes Sexpr
  WalkProof ApiExpr ApiFile NodeFacts Blocks ExprText CompileProof.

(** * Compile of an expression *)

Lemma sprintf_plain k : forall s, (length s < k)%nat -> ~ In (C "%") s -> sprintf0_ k s = s.
Proof.
  induction k as [|k IH]; intros s L H; [lia|]. destruct s as [|c s]; auto. cbn [sprintf0_ length] in *.
  destruct (c =? C "%") eqn:E.
  - exfalso. apply H. left. lia.
  - f_equal. apply IH; [lia|]. intros K; apply H; right; auto.
Qed.
Lemma compile_plain unit n : is_expr n = true -> ~ In (C "%") (compile_expr n) ->
  compile_with unit n = Ok (mkCompiled (compile_expr n) false n).
Proof.
  intros E H. unfold compile_with.
  replace (comp unit 0 n []) with (Ok (fprint unit 0 (sprintf0 (compile_expr n)) [], false, n) : outcome cres)
    by (destruct n; try discriminate; reflexivity).
  unfold sprintf0. rewrite sprintf_plain by (auto; lia). reflexivity.
Qed.

(** * Quoting *)

Lemma protect_escape s : escape s [92; 34] = flat_map protect s.
Proof.
  unfold escape. apply flat_map_ext. intros c. unfold mem_N, protect. cbn [existsb]. rewrite orb_false_r.
  change (C "\") with 92. change (C """") with 34.
  destruct ((c =? 92) || (c =? 34)) eqn:E; auto.
  destruct (c =? 10) eqn:E1; [lia|]. destruct (c =? 9) eqn:E2; [lia|]. destruct (c =? 13) eqn:E3; [lia|]. reflexivity.
Qed.
Lemma protect_inj s : forall s' r r', flat_map protect s ++ C """" :: r = flat_map protect s' ++ C """" :: r' -> s = s' /\ r = r'.
Proof.
  assert (Q : forall c, (c = 92 \/ c = 34) /\ protect c = [92; c] \/ (c <> 92 /\ c <> 34) /\ protect c = [c]).
  { intros c. unfold protect. change (C "\") with 92. change (C """") with 34. destruct ((c =? 92) || (c =? 34)) eqn:E; [left|right]; split; auto; lia. }
  change (C """") with 34.
  induction s as [|c s IH]; intros [|c' s'] r r' H; cbn [flat_map app] in H.
  - inversion H; auto.
  - destruct (Q c') as [[[->| ->] P]|[[N1 N2] P]]; rewrite P in H; cbn [app] in H; inversion H; congruence.
  - destruct (Q c) as [[[->| ->] P]|[[N1 N2] P]]; rewrite P in H; cbn [app] in H; inversion H; congruence.
  - assert (c = c' /\ flat_map protect s ++ 34 :: r = flat_map protect s' ++ 34 :: r') as [<- K].
    { destruct (Q c) as [[N1 P]|[[N1 N2] P]]; destruct (Q c') as [[M1 P']|[[M1 M2] P']];
        rewrite P, P' in H; cbn [app] in H; inversion H; subst; auto; try congruence. }
    destruct (IH _ _ _ K) as [-> ->]. auto.
Qed.
Lemma compile_excmd unit p s e : compile_with unit (NExcmd p s e) =
  Ok (mkCompiled (T "(excmd " ++ protected s ++ T ")" ++ [10]) false (NExcmd p s e)).
Proof.
  unfold compile_with. cbn [comp bind]. unfold fprintln, fprint, protected. rewrite protect_escape. cbn [repeat concat app].
  rewrite <- !app_assoc. reflexivity.
Qed.
Lemma compile_echohl unit p s e x : ae_cmd e = Some x -> compile_with unit (NEchohl p e s) =
  Ok (mkCompiled (T "(" ++ c_name x ++ [32] ++ protected s ++ T ")" ++ [10]) false (NEchohl p e s)).
Proof.
  intros H. unfold compile_with. cbn [comp]. unfold cmd_name. rewrite H. cbn [bind]. unfold fprintln, fprint, protected. rewrite protect_escape. cbn [repeat concat app].
  rewrite <- !app_assoc. do 2 f_equal. cbn [app]. rewrite <- !app_assoc. reflexivity.
Qed.

(** * The printer *)

Lemma printable_field n m : printable n -> In m (fields n) -> printable m.
Proof. intros H HI k W. apply H. eapply within_step; eauto. Qed.
Lemma within_inv n m : within n m -> m = n \/ exists k, In k (fields n) /\ within k m.
Proof.
  induction 1; auto. right. destruct IHwithin as [->|[k [K1 K2]]].
  - exists n0. split; auto. constructor.
  - exists k. split; auto. eapply wi_field; eauto.
Qed.
Lemma printable_intro n : printable1 n -> (forall m, In m (fields n) -> printable m) -> printable n.
Proof. intros H1 H2 m W. apply within_inv in W. destruct W as [->|[k [K1 K2]]]; auto. eapply H2; eauto. Qed.

Lemma print_ok n : good n -> is_expr n = true -> forall k,
  (printable n -> exists s, print_expr n k = Ok s) /\ ((exists s, print_expr n k = Ok s) -> printable n).
Proof.
  induction n as [n IH] using fields_ind. intros HG HE. destruct (HG n (wi_root n)) as [Ty Op].
  assert (HF : forall m, In m (fields n) -> forall k,
     (printable m -> exists s, print_expr m k = Ok s) /\ ((exists s, print_expr m k = Ok s) -> printable m)).
  { intros m Hm. apply IH; auto. eapply good_field; eauto. eapply typed_expr_fields; eauto. }
  clear IH HG. intros k. 
  assert (Bad : ~ printable1 n -> (forall s, print_expr n k <> Ok s) ->
     (printable n -> exists s, print_expr n k = Ok s) /\ ((exists s, print_expr n k = Ok s) -> printable n)).
  { intros B1 B2. split. intros P. destruct B1. apply P. constructor. intros [s Hs]. destruct (B2 _ Hs). }
  destruct n; try discriminate HE; cbn [typed fields op_known] in *;
    repeat match goal with X : _ /\ _ |- _ => destruct X end;
    repeat match goal with
    | X : expr ?o |- _ => destruct X as [? [-> _]]; cbn [on] in HF
    end; try (apply Bad; [intros []|discriminate]).
  - (* binary *)
    rename x0 into l, x into r. pose proof (fun k => HF l (or_introl eq_refl) k) as Hl. pose proof (fun k => HF r (or_intror (or_introl eq_refl)) k) as Hr.
    cbn [print_expr opprec]. destruct (binprec op) as [pr|] eqn:Ep; cbn [bind].
    + split.
      * intros P. destruct (proj1 (Hl pr)) as [s1 ->]; [eapply printable_field; eauto; cbn; auto|].
        destruct (proj1 (Hr (S pr))) as [s2 ->]; [eapply printable_field; eauto; cbn; auto|]. cbn [bind].
        destruct (pr <? k)%nat; eauto.
      * intros [s H]. destruct (print_expr l pr) as [s1| | |] eqn:E1; cbn [bind] in H; try discriminate.
        destruct (print_expr r (S pr)) as [s2| | |] eqn:E2; cbn [bind] in H; try discriminate.
        apply printable_intro.
        -- cbn [printable1]. split; intros ->; discriminate Ep.
        -- cbn [fields on app]. intros m [<-|[<-|[]]]; [apply (Hl pr)|apply (Hr (S pr))]; eauto.
    + split.
      * intros P. specialize (P _ (wi_root _)). destruct P as [P1 P2]. exfalso.
        destruct op; cbn [binary_level binprec] in *; congruence.
      * intros [s H]; discriminate.
  - (* unary *)
    match goal with |- context [NUnary _ _ (Some ?a)] => rename a into l end.
    pose proof (fun k => HF l (or_introl eq_refl) k) as Hl.
    cbn [print_expr opprec]. assert (E : match op with TNOT | TMINUS | TPLUS => Ok 7%nat | _ => Panic PUnknownToken end = Ok 7%nat)
      by (destruct Op as [<-|[<-|[<-|[]]]]; reflexivity). rewrite E. cbn [bind]. split.
    + intros P. destruct (proj1 (Hl 7%nat)) as [s1 ->]; [eapply printable_field; eauto; cbn; auto|]. cbn [bind].
      destruct (7 <? k)%nat; eauto.
    + intros [s H]. destruct (print_expr l 7) as [s1| | |] eqn:E1; cbn [bind] in H; try discriminate.
      apply printable_intro; [exact Logic.I|]. cbn [fields on]. intros m [<-|[]]. apply (Hl 7%nat). eauto.
  - rename x0 into l, x into r. pose proof (fun k => HF l (or_introl eq_refl) k) as Hl. pose proof (fun k => HF r (or_intror (or_introl eq_refl)) k) as Hr.
    cbn [print_expr opprec bind]. split.
    + intros P. destruct (proj1 (Hl 8%nat)) as [s1 ->]; [eapply printable_field; eauto; cbn; auto|].
      destruct (proj1 (Hr 0%nat)) as [s2 ->]; [eapply printable_field; eauto; cbn; auto|]. cbn [bind]. eauto.
    + intros [s H]. destruct (print_expr l 8) as [s1| | |] eqn:E1; cbn [bind] in H; try discriminate.
      destruct (print_expr r 0) as [s2| | |] eqn:E2; cbn [bind] in H; try discriminate.
      apply printable_intro; [exact Logic.I|].
      cbn [fields on app]. intros m [<-|[<-|[]]]; [apply (Hl 8%nat)|apply (Hr 0%nat)]; eauto.
  - split; [cbn; eauto|]. intros _. apply printable_intro; [exact Logic.I|]. intros m [].
  - split; [cbn; eauto|]. intros _. apply printable_intro; [exact Logic.I|]. intros m [].
  - match goal with |- context [NParen _ (Some ?a)] => rename a into l end.
    pose proof (fun k => HF l (or_introl eq_refl) k) as Hl. cbn [print_expr]. split.
    + intros P. destruct (proj1 (Hl 0%nat)) as [s1 ->]; [eapply printable_field; eauto; cbn; auto|]. cbn [bind].
      destruct l; eauto.
    + intros [s H]. destruct (print_expr l 0) as [s1| | |] eqn:E1; cbn [bind] in H; try discriminate.
      apply printable_intro; [exact Logic.I|]. cbn [fields on]. intros m [<-|[]]. apply (Hl 0%nat). eauto.
Qed.

Definition fine {A} (m : outcome A) : Prop := match m with Ok _ | Panic _ => True | _ => False end.
Lemma fine_bind {A B} (m : outcome A) (f : A -> outcome B) : fine m -> (forall a, fine (f a)) -> fine (bind m f).
Proof. destruct m; cbn; auto. Qed.
Lemma opprec_fine n : fine (opprec n).
Proof. destruct n; cbn; auto; try destruct (binprec op); try destruct op; cbn; auto. Qed.
Lemma print_fine n : forall k, fine (print_expr n k).
Proof.
  induction n as [n IH] using fields_ind. intros k.
  assert (PX : forall o pr, (forall m, In m (on o) -> In m (fields n)) ->
        fine (match o with None => Panic PUnknownToken | Some x => print_expr x pr end)).
  { intros [x|] pr K; [apply IH, K; cbn; auto|exact Logic.I]. }
  destruct n; cbn [print_expr]; try exact Logic.I; cbn [fields] in PX;
    repeat (first [apply fine_bind; [|intros] | apply opprec_fine | apply PX; intros; rewrite ?in_app_iff; auto]);
    try exact Logic.I; try (destruct (_ <? k)%nat; exact Logic.I); destruct x as [[]|]; exact Logic.I.
Qed.

Lemma fprint_cases bs fails file root : accepted bs fails file root ->
  (is_expr root = false /\ Fprint root = Ok NotImplemented) \/
  (is_expr root = true /\ printable root /\ exists s, Fprint root = Ok (Printed s)) \/
  (is_expr root = true /\ ~ printable root /\ exists k, Fprint root = Panic k).
Proof.
  intros HA. pose proof (accepted_good _ _ _ _ HA) as HG. unfold Fprint. destruct (is_expr root) eqn:E; [right|left; auto].
  destruct (print_ok root HG E 0) as [P1 P2]. pose proof (print_fine root 0) as F.
  destruct (print_expr root 0) as [s|e|k|]; try contradiction.
  - left. split; auto. split; [apply P2; eauto|]. cbn. eauto.
  - right. split; auto. split; [|cbn; eauto]. intros P. destruct (P1 P) as [s Hs]. congruence.
Qed.

(** * S-expressions are determined *)

Lemma sexp_list_fun l : (forall n, In n l -> forall x y, sexp n x -> sexp n y -> x = y) ->
  forall xs ys, Forall2 sexp l xs -> Forall2 sexp l ys -> xs = ys.
Proof.
  induction l as [|n l IH]; intros H xs ys A B; inversion A; inversion B; subst; auto.
  f_equal. eapply H; eauto. left; auto. apply IH; auto. intros; eapply H; eauto. right; auto.
Qed.
Lemma sexp_fun n : forall x y, sexp n x -> sexp n y -> x = y.
Proof.
  induction n as [n IH] using fields_ind.
  assert (L : forall l, (forall m, In m l -> In m (fields n)) -> forall xs ys, Forall2 sexp l xs -> Forall2 sexp l ys -> xs = ys).
  { intros l K. apply sexp_list_fun. intros m Hm. apply IH, K; auto. }
  assert (B : forall o, (forall m, In m (on o) -> In m (fields n)) -> forall x y, bound o x -> bound o y -> x = y).
  { intros o K x y A1 A2. inversion A1; subst; inversion A2; subst; auto. eapply IH; eauto. apply K; cbn; auto. }
  intros x y H1 H2. inversion H1; subst; inversion H2; subst; cbn [fields on app] in *; try reflexivity;
    repeat match goal with
    | A : sexp ?m ?u, A' : sexp ?m ?w |- _ => lazymatch u with w => fail | _ =>
        assert (u = w) by (eapply (IH m); eauto; cbn; rewrite ?in_app_iff; cbn; auto 10); subst; clear A' end
    | A : Forall2 sexp ?l ?u, A' : Forall2 sexp ?l ?w |- _ => lazymatch u with w => fail | _ =>
        assert (u = w) by (apply (L l); auto; intros; cbn; rewrite ?in_app_iff; cbn; auto 10); subst; clear A' end
    | A : bound ?l ?u, A' : bound ?l ?w |- _ => lazymatch u with w => fail | _ =>
        assert (u = w) by (apply (B l); auto; intros; cbn; rewrite ?in_app_iff; cbn; auto 10); subst; clear A' end
    end; try reflexivity; auto.
  - f_equal. f_equal. clear L B H1 H2.
    match goal with A : Forall2 _ es xs, A' : Forall2 _ es xs0 |- _ => revert xs0 A'; induction A as [|e x es xs P F IHF] end;
      intros ys G; inversion G; subst; auto.
    destruct P as [k [v [y1 [z1 [-> [-> [P1 P2]]]]]]]. match goal with A : exists k v y z, (Some _, Some _) = _ /\ _ |- _ => destruct A as [k' [v' [y2 [z2 [E [-> [Q1 Q2]]]]]]] end. inversion E; subst.
    cbn [flat_map fst snd on app] in IH.
    rewrite (IH k' (or_introl eq_refl) _ _ P1 Q1), (IH v' (or_intror (or_introl eq_refl)) _ _ P2 Q2). f_equal.
    apply IHF; auto. intros m Hm. apply IH. right; right; auto.
Qed.
