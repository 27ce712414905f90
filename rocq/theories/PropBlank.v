(** Property C76: blank lines between the commands of a file. *)
From Coq Require Import Lia ZifyBool ZifyNat ZifyN.
From Verif Require Import Base Utf8 CharClass Reader Vnode CmdTable CmdParser Cursor Ast Api Places LinesProof NodeText Nodes Join JoinProof PropText Sequel SequelProof
  Written Rest WrittenScript PropScript PropSequel ApiFile.
From Verif Require Import Sequel.

(** A line of blanks, tabs and colons. *)
Definition blank_line (l : text) : Prop := Forall (fun r => r = 32 \/ r = 9 \/ r = 58) l.

Lemma blank_lead l : blank_line l -> lead l.
Proof. unfold lead, blank_line. intros H. apply forallb_forall. rewrite Forall_forall in H. intros r Hr. destruct (H r Hr) as [->|[->| ->]]; reflexivity. Qed.
Lemma blank_not_cont l : blank_line l -> ~ is_continuation l.
Proof.
  intros H [ws [t [E _]]]. subst l. apply Forall_app in H. destruct H as [_ H].
  inversion H as [|? ? K _]; subst. destruct K as [K|[K|K]]; discriminate K.
Qed.
Lemma blank_starts ls : Forall blank_line ls -> starts_line ls.
Proof. intros H l r ->. inversion H; subst. apply blank_not_cont; auto. Qed.
Lemma starts_app ls ts : Forall blank_line ls -> starts_line ts -> starts_line (ls ++ ts).
Proof. intros H Ht. destruct ls as [|l ls]; [exact Ht|]. intros l' r E. injection E as <- _. inversion H; subst. apply blank_not_cont; auto. Qed.
Lemma blank_unbroken ls : Forall blank_line ls -> unbroken ls ls.
Proof.
  induction 1 as [|l ls Hl H IH]; [constructor|]. rewrite <- (app_nil_r l) at 2. change (l ++ []) with (l ++ concat []).
  econstructor; [|exact IH]. constructor. apply blank_starts, H.
Qed.
Lemma blank_script nv ls : Forall blank_line ls -> written_script nv [] ls.
Proof.
  intros H. apply ws_blocks. induction H as [|l ls Hl H IH]; [constructor|]. unfold lines_text. cbn [map concat]. rewrite <- app_assoc. cbn [app].
  apply bl_blank; [apply blank_lead, Hl|exact IH].
Qed.
Lemma blank_file bs fails ls file opt : seen_lines bs ls -> Forall blank_line ls -> exists p, ParseFile (mkSource bs fails) file opt = Returned (NFile p []).
Proof.
  intros H1 H2. destruct (C50_reads_written bs fails ls ls [] file opt H1 (blank_unbroken _ H2) (blank_script _ _ H2)) as [p [b [H K]]].
  exists p. destruct b; [exact H|discriminate K].
Qed.
Lemma cells_first t k : forall i ln col off, map cell_of (view (put_first t i ln col off k)) = map R t ++ map cell_of (view (k (i + N.of_nat (length t))%N)).
Proof.
  induction t as [|r t IH]; intros i ln col off; cbn [put_first view map app length].
  - rewrite N.add_0_r. reflexivity.
  - f_equal. rewrite IH. do 4 f_equal. lia.
Qed.
Lemma blank_cells ls : Forall blank_line ls -> forall i l o, map cell_of (view (behind ls i l o)) = lines_text ls.
Proof.
  induction 1 as [|t ls Ht H IH]; intros i l o; [reflexivity|]. cbn [behind]. rewrite cells_first, (behind_last ls _ _ _ _ (blank_starts _ H)).
  cbn [view map]. rewrite IH. unfold lines_text. cbn [map concat]. rewrite <- app_assoc. reflexivity.
Qed.
Lemma blank_no_letter ls : Forall blank_line ls -> forall w, forallb isalpha w = true -> forall y, In y (lines_text ls) -> ~ In y (map R w).
Proof.
  intros H w Hw y Hy Hin. apply in_map_iff in Hin. destruct Hin as [c [<- Hc]]. rewrite forallb_forall in Hw. apply Hw in Hc.
  unfold lines_text in Hy. apply in_concat in Hy. destruct Hy as [x [Hx Hy]]. apply in_map_iff in Hx. destruct Hx as [l [<- Hl]].
  rewrite Forall_forall in H. apply H in Hl. apply in_app_iff in Hy. destruct Hy as [Hy|[Hy|[]]]; [|discriminate Hy].
  unfold chars in Hy. apply in_map_iff in Hy. destruct Hy as [r [E Hr]]. injection E as ->. unfold blank_line in Hl. rewrite Forall_forall in Hl.
  destruct (Hl c Hr) as [->|[->| ->]]; discriminate Hc.
Qed.
Lemma letters_of w : capital_word w -> forallb isalpha w = true /\ w <> [].
Proof.
  intros [r [t [-> [Hr Ht]]]]. split; [|discriminate]. cbn [forallb]. apply andb_true_iff. split.
  - unfold isalpha, isupper, islower, between. lia.
  - apply forallb_forall. rewrite Forall_forall in Ht. intros x Hx. apply Ht in Hx. unfold isalpha, isupper, islower, between. lia.
Qed.
Lemma blank_apart bs bs' ls : seen_lines bs ls -> Forall blank_line ls -> apart bs bs'.
Proof.
  intros H1 H2 w d Hw Hd _ Ho. apply (occurs_stands bs false) in Ho. rewrite (seen_open _ _ _ H1), behind_reader in Ho. destruct Ho as [pre [post E]].
  rewrite (blank_cells _ H2) in E. destruct (letters_of _ Hw) as [Al N]. destruct w as [|r w]; [congruence|].
  apply (blank_no_letter _ H2 _ Al (R r)); [rewrite E; apply in_or_app; right; left; reflexivity|left; reflexivity].
Qed.
Lemma behind_apart bsA bsA' bsB tsA ls : seen_lines bsA tsA -> tsA <> [] -> seen_lines bsA' (tsA ++ ls) -> Forall blank_line ls -> apart bsA bsB -> apart bsA' bsB.
Proof.
  intros H1 N H2 H3 Ap w d Hw Hd Hb Ho. apply (Ap w d Hw Hd Hb). apply (occurs_stands bsA' false) in Ho. apply (occurs_stands bsA false).
  rewrite (seen_open _ _ _ H2) in Ho. rewrite (seen_open _ _ _ H1). destruct Ho as [pre [post E]]. destruct tsA as [|t ts]; [congruence|].
  pose proof (behind_open t ts _ (blank_starts _ H3)) as Sp. cbv zeta in Sp. rewrite (probe_cells _ _ _ _ Sp), (blank_cells _ H3) in E.
  destruct (letters_of _ Hw) as [Al Nw]. apply within in E.
  - destruct E as [post' E]. exists pre, post'. exact E.
  - destruct w; [congruence|discriminate].
  - intros y Hy. apply (blank_no_letter _ H3 _ Al _ Hy).
Qed.
Lemma file_root src file opt n : ParseFile src file opt = Returned n -> exists q b, n = NFile q b.
Proof.
  intros H. destruct (ParseFile_errors src file opt) as [[p [b E]]|[[? [? [? [? E]]]]|[? [_ [_ [_ E]]]]]]; rewrite E in H; try discriminate H. injection H as <-. eauto.
Qed.
Lemma no_commands : self_contained [].
Proof. split; [intros n []|intros n r E; destruct r; discriminate E]. Qed.

(** * C76 *)

(** Blank lines at the top of a file. *)
Lemma blank_bytes l : blank_line l -> blen l = N.of_nat (length l).
Proof. induction 1 as [|r l Hr H IH]; [reflexivity|]. cbn [blen length]. rewrite IH. replace (rune_len r) with 1 by (destruct Hr as [->|[->| ->]]; reflexivity). lia. Qed.
Lemma blank_text_length ls : Forall blank_line ls -> N.of_nat (length (lines_text ls)) = line_bytes ls.
Proof.
  induction 1 as [|l ls Hl H IH]; [reflexivity|].
  change (lines_text (l :: ls)) with ((chars l ++ [EOL]) ++ lines_text ls). cbn [line_bytes]. rewrite <- IH, (blank_bytes _ Hl), !app_length.
  unfold chars at 1. rewrite map_length. cbn [length]. lia.
Qed.
Lemma blank_length bs ls cells : seen_lines bs ls -> Forall blank_line ls -> source_cells bs cells -> N.of_nat (length cells) = line_bytes ls.
Proof.
  intros H1 H2 H3. apply (source_view _ false) in H3. subst cells. rewrite <- (map_length cell_of), (seen_open _ _ _ H1), behind_reader, (blank_cells _ H2).
  apply blank_text_length, H2.
Qed.
Lemma apart_blank bs bs' ls : seen_lines bs' ls -> Forall blank_line ls -> apart bs bs'.
Proof.
  intros H1 H2 w d Hw Hd Ho _. apply (occurs_stands bs' false) in Ho. rewrite (seen_open _ _ _ H1), behind_reader in Ho. destruct Ho as [pre [post E]].
  rewrite (blank_cells _ H2) in E. destruct (letters_of _ Hw) as [Al N]. destruct w as [|r w]; [congruence|].
  apply (blank_no_letter _ H2 _ Al (R r)); [rewrite E; apply in_or_app; right; left; reflexivity|left; reflexivity].
Qed.
Lemma line_bytes_app a b : line_bytes (a ++ b) = line_bytes a + line_bytes b.
Proof. induction a as [|l a IH]; cbn [app line_bytes]; [reflexivity|]. rewrite IH. lia. Qed.
Lemma more_cells bsA bsA' tsA ls cells cells' : seen_lines bsA tsA -> tsA <> [] -> seen_lines bsA' (tsA ++ ls) -> Forall blank_line ls ->
  source_cells bsA cells -> source_cells bsA' cells' -> N.of_nat (length cells') = N.of_nat (length cells) + line_bytes ls.
Proof.
  intros H1 N H2 H3 Hc Hc'. apply (source_view _ false) in Hc, Hc'. subst cells cells'. rewrite <- (map_length cell_of), <- (map_length cell_of (view (open_source (mkSource bsA false)))).
  rewrite (seen_open _ _ _ H1), (seen_open _ _ _ H2). destruct tsA as [|t ts]; [congruence|].
  pose proof (behind_open t ts _ (blank_starts _ H3)) as Sp. cbv zeta in Sp. rewrite (probe_cells _ _ _ _ Sp), (blank_cells _ H3), app_length, Nat2N.inj_add. f_equal.
  clear - H3. apply blank_text_length, H3.
Qed.
Theorem C76_top : forall bsL bs bs' fails fails' ls ts file opt,
  seen_lines bsL ls -> Forall blank_line ls -> ls <> [] ->
  seen_lines bs ts -> starts_line ts -> seen_lines bs' (ls ++ ts) ->
  (forall q b, ParseFile (mkSource bs fails) file opt = Returned (NFile q b) -> exists p,
     ParseFile (mkSource bs' fails') file opt = Returned (NFile p (map (map_node (moved (line_bytes ls) (N.of_nat (length ls)))) b))) /\
  (forall e, ParseFile (mkSource bs fails) file opt = Failed e ->
     ParseFile (mkSource bs' fails') file opt = Failed (moved_error (line_bytes ls) (N.of_nat (length ls)) e)).
Proof.
  intros bsL bs bs' f f' ls ts file opt HL HB HN H1 HS H2. destruct (blank_file bsL false ls file opt HL HB) as [p HP].
  destruct (source_exists bsL) as [cells Hc].
  destruct (C57_sequel_partial bsL bs bs' false f f' ls ts cells file opt p [] HL HN Hc H1 HS H2 (blank_apart _ _ _ HL HB) HP no_commands) as [A B].
  rewrite (blank_length _ _ _ HL HB Hc) in B. split; [|exact B]. intros q b E. exists p. exact (A q b E).
Qed.
Print Assumptions C76_top.

(** Blank lines between two parts of a file, at the top level. The first part is as in C57.
    With and without the blank lines: the same commands, those of the second part lower
    down, or the same error. *)
Theorem C76_between : forall bsA bsL bsAL bsB bs bs' fails fails' tsA ls tsB cells file opt p a,
  seen_lines bsA tsA -> tsA <> [] -> source_cells bsA cells ->
  ParseFile (mkSource bsA false) file opt = Returned (NFile p a) -> self_contained a ->
  Forall blank_line ls -> seen_lines bsL ls -> seen_lines bsAL (tsA ++ ls) ->
  seen_lines bsB tsB -> starts_line tsB -> apart bsA bsB ->
  seen_lines bs (tsA ++ tsB) -> seen_lines bs' (tsA ++ ls ++ tsB) ->
  (exists b, ParseFile (mkSource bs fails) file opt =
       Returned (NFile p (a ++ map (map_node (moved (line_bytes tsA) (N.of_nat (length tsA)))) b)) /\
     ParseFile (mkSource bs' fails') file opt =
       Returned (NFile p (a ++ map (map_node (moved (line_bytes tsA + line_bytes ls) (N.of_nat (length tsA + length ls)))) b))) \/
  (exists e, ParseFile (mkSource bs fails) file opt = Failed (moved_error (N.of_nat (length cells)) (N.of_nat (length tsA)) e) /\
     ParseFile (mkSource bs' fails') file opt =
       Failed (moved_error (N.of_nat (length cells) + line_bytes ls) (N.of_nat (length tsA + length ls)) e)).
Proof.
  intros bsA bsL bsAL bsB bs bs' f f' tsA ls tsB cells file opt p a H1 H2 H3 H4 H5 H6 HL H7 H8 H9 H10 H11 H12.
  pose proof (C57_sequel_partial bsA bsB bs false false f tsA tsB cells file opt p a H1 H2 H3 H8 H9 H11 H10 H4 H5) as [A1 A2].
  assert (HP : ParseFile (mkSource bsAL false) file opt = Returned (NFile p a)).
  { destruct (blank_file bsL false ls file opt HL H6) as [q Hq].
    assert (Ap : apart bsA bsL) by (apply (apart_blank _ _ _ HL H6)).
    pose proof (C57_sequel_partial bsA bsL bsAL false false false tsA ls cells file opt p a H1 H2 H3 HL (blank_starts _ H6) H7 Ap H4 H5) as [B1 _].
    rewrite (B1 q [] Hq), app_nil_r. reflexivity. }
  destruct (source_exists bsAL) as [cells' Hc].
  assert (Ec : N.of_nat (length cells') = N.of_nat (length cells) + line_bytes ls) by (exact (more_cells _ _ _ _ _ _ H1 H2 H7 H6 H3 Hc)).
  assert (NE : tsA ++ ls <> []) by (destruct tsA; [congruence|discriminate]).
  rewrite app_assoc in H12.
  pose proof (C57_sequel_partial bsAL bsB bs' false false f' (tsA ++ ls) tsB cells' file opt p a H7 NE Hc H8 H9 H12 (behind_apart _ _ _ _ _ H1 H2 H7 H6 H10) HP H5) as [B1 B2].
  rewrite Ec, app_length in B2. rewrite line_bytes_app, app_length in B1.
  destruct (ParseFile (mkSource bsB false) file opt) as [n|e|] eqn:E; [left|right; exists e; auto|exfalso; revert E; apply ParseFile_returns].
  destruct (file_root _ _ _ _ E) as [q [b ->]]. exists b. split; eauto.
Qed.
Print Assumptions C76_between.
(** Two lines of blanks between the texts of the case of C57. *)
Definition C76_blanks : list N := T "  :" ++ [10] ++ 9 :: [10].
Example C76_case : exists tsA ls tsB cells p a q b,
  seen_lines C57_first tsA /\ tsA <> [] /\ source_cells C57_first cells /\
  ParseFile (mkSource C57_first false) [] None = Returned (NFile p a) /\ self_contained a /\ length a = 2%nat /\
  Forall blank_line ls /\ length ls = 2%nat /\ seen_lines C76_blanks ls /\ seen_lines (C57_first ++ C76_blanks) (tsA ++ ls) /\
  seen_lines C57_second tsB /\ starts_line tsB /\ apart C57_first C57_second /\
  seen_lines (C57_first ++ C57_second) (tsA ++ tsB) /\ seen_lines (C57_first ++ C76_blanks ++ C57_second) (tsA ++ ls ++ tsB) /\
  seen_lines (C76_blanks ++ C57_second) (ls ++ tsB) /\
  ParseFile (mkSource C57_second false) [] None = Returned (NFile q b) /\ length b = 2%nat.
Proof.
  exists [T "let x = 1"; T "if x"; T "  echo x |"; T "\ call f()"; T "endif"], [T "  :"; [9]], [T "Foo1 a"; T "function! F(a)"; T "  return"; T "  \ a"; T "endfunction"].
  exists (view (open_source (mkSource C57_first false))). do 4 eexists.
  split; [apply (seen_lines_iff _ _ false); vm_compute; reflexivity|]. split; [discriminate|].
  split; [apply (source_view _ false); reflexivity|]. split; [vm_compute; reflexivity|].
  split; [split|].
  - intros n [<-|[<-|[]]] [? [? [? [? [E _]]]]]; discriminate E.
  - intros n r E [? [? [? [? [-> _]]]]]. destruct r as [|? [|? [|]]]; discriminate E.
  - split; [reflexivity|]. split; [unfold blank_line; repeat first [apply Forall_nil|apply Forall_cons]; auto|]. split; [reflexivity|].
    split; [apply (seen_lines_iff _ _ false); vm_compute; reflexivity|]. split; [apply (seen_lines_iff _ _ false); vm_compute; reflexivity|].
    split; [apply (seen_lines_iff _ _ false); vm_compute; reflexivity|].
    split; [intros l r E; injection E as <- <-; apply not_continuation; vm_compute; reflexivity|]. split; [apply C57_apart|].
    split; [apply (seen_lines_iff _ _ false); vm_compute; reflexivity|]. split; [apply (seen_lines_iff _ _ false); vm_compute; reflexivity|].
    split; [apply (seen_lines_iff _ _ false); vm_compute; reflexivity|]. split; [vm_compute; reflexivity|]. reflexivity.
Qed.
