(** Cases for C24: first lines that meet the hypotheses of C24_unknown and C24_user_command
    (PropCmd.v). *)
From Coq Require Import Lia ZifyBool ZifyNat ZifyN.
From Verif Require Import Base Utf8 CharClass Reader Vnode Token Ast CmdTable Api Places Nodes LinesProof NodeFacts Head CmdSpec HeadProof CmdArgs PropCmd PropScript.
Lemma vimgrepx_word : word_of (T "vimgrepx y") (T "vimgrepx") (T "vimgrepx").
Proof.
  apply wo_letters.
  - exists (T " y"). repeat split.
  - discriminate.
  - intros [t E]; discriminate E.
  - intros R; inversion R.
  - intros [t E]; discriminate E.
  - intros [_ [d [Hd E]]]. cbn [In] in Hd. destruct Hd as [<-|[<-|[<-|[<-|[<-|[]]]]]]; destruct E as [E|E]; discriminate E.
Qed.
Example C24_case_unknown : let l := T "vimgrepx y" in
  seen_lines (T "vimgrepx y") [l] /\ starts_with isalpha l = true /\ ~ modifier_follows l /\
  (forall nv w x, ~ resolves nv l w x) /\ (forall nv, ~ digit_in_name nv l).
Proof.
  assert (F : forall nv x, ~ first_match nv (T "vimgrepx") x) by (intros []; apply lookup_none; vm_compute; reflexivity).
  cbv zeta. split; [apply (seen_lines_iff _ _ false); vm_compute; reflexivity|]. split; [reflexivity|]. split; [|split].
  - apply (no_modifier (T "vimgrepx") (T " y")); try reflexivity. discriminate.
  - intros nv w x R. destruct R as [w key x W M U|w0 w W U L]; destruct (word_of_fun _ _ _ _ _ W vimgrepx_word) as [-> E].
    + subst key. exact (F nv x M).
    + destruct U as [U _]. discriminate U.
  - intros nv [w [r [rest [E [D [W U]]]]]]. destruct (word_of_fun _ _ _ _ _ W vimgrepx_word) as [-> _]. destruct U as [U _]. discriminate U.
Qed.
Example C24_case_user : let l := T "Foo2bar! x" in
  seen_lines l [l] /\ starts_with isupper l = true /\ longest isalpha (T "Foo") l /\
  (forall nv, user_word nv (T "Foo")) /\ longest isalnum (T "Foo2bar") l /\ l = T "Foo2bar" ++ T "! x".
Proof.
  cbv zeta. split; [apply (seen_lines_iff _ _ false); vm_compute; reflexivity|]. split; [reflexivity|].
  split; [exists (T "2bar! x"); repeat split|]. split; [intros []; apply user_word_iff; vm_compute; reflexivity|].
  split; [exists (T "! x"); repeat split|reflexivity].
Qed.
