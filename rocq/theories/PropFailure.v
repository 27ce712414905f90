(** C10: what becomes of a failure of the reader. *)
From Coq Require Import List NArith Lia.
From Verif Require Import Base Utf8 Reader Ast Export ExprParser CmdParser Api Places Scanner ScannerProof LinesProof ScannerErr.
Import ListNotations.
Open Scope nat_scope.

Definition forget (s : escanner) : scanner :=
  mkScanner (eb_data s) (eb_start s) (eb_cap s) (is_set (eb_err s)) (er_rdr (eb_rdr s)).

(** The error that may be set with a reader that ends with [e]. *)
Definition known (e : read_error) (o : option read_error) : Prop :=
  o = None \/ o = Some e \/ o = Some NoProgress.

Lemma fill_forget room : forall loops r out err r', e_fill loops room r = (out, err, r') ->
  fill loops room (er_rdr r) = (out, is_set err, er_rdr r') /\ er_final r' = er_final r /\ known (er_final r) err.
Proof.
  induction loops as [|k IH]; intros r out err r'; cbn [e_fill fill]; unfold e_read1; destruct (read1 room (er_rdr r)) as [[o b] q].
  - destruct b; [intros E; injection E as <- <- <-; repeat split; right; left; reflexivity|].
    destruct o; intros E; injection E as <- <- <-; repeat split; [right; right; reflexivity|left; reflexivity].
  - destruct b; [intros E; injection E as <- <- <-; repeat split; right; left; reflexivity|].
    destruct o; [|intros E; injection E as <- <- <-; repeat split; left; reflexivity].
    intros E. apply IH in E. exact E.
Qed.
Lemma shift_forget s : forget (e_shift s) = shift (forget s) /\ eb_rdr (e_shift s) = eb_rdr s /\ eb_err (e_shift s) = eb_err s.
Proof. destruct s as [d st c e r]. unfold e_shift, shift, forget. cbn. destruct (_ && _); repeat split. Qed.
Lemma grow_forget s : option_map forget (e_grow s) = grow (forget s) /\
  match e_grow s with Some s' => eb_rdr s' = eb_rdr s | None => True end.
Proof.
  destruct s as [d st c e r]. unfold e_grow, grow, forget. cbn [eb_data eb_start eb_cap eb_err eb_rdr]. destruct (_ =? c); [|repeat split].
  destruct (max_size <=? c); repeat split.
Qed.
Lemma refill_forget s : forget (e_refill s) = refill (forget s) /\ er_final (eb_rdr (e_refill s)) = er_final (eb_rdr s) /\
  known (er_final (eb_rdr s)) (eb_err (e_refill s)).
Proof.
  destruct s as [d st c e r]. unfold e_refill, refill, forget. cbn [eb_data eb_start eb_cap eb_err eb_rdr].
  destruct (e_fill 100 (c - (st + length d)) r) as [[out err] r'] eqn:E. apply fill_forget in E. destruct E as [-> [E2 E3]]. auto.
Qed.

Lemma scan_forget : forall fuel s, known (er_final (eb_rdr s)) (eb_err s) ->
  scan_all fuel (forget s) = option_map fst (e_scan_all fuel s) /\
  match e_scan_all fuel s with
  | Some (_, o) => o = Some (er_final (eb_rdr s)) \/ o = Some NoProgress \/ o = Some TooLong
  | None => True
  end.
Proof.
  induction fuel as [|k IH]; intros s K; [split; reflexivity|]. cbn [scan_all e_scan_all].
  change (b_data (forget s)) with (eb_data s). change (b_err (forget s)) with (is_set (eb_err s)).
  destruct (split_line (eb_data s) (is_set (eb_err s))) as [[line rest]|].
  - specialize (IH (mkEscanner rest (eb_start s + (length (eb_data s) - length rest)) (eb_cap s) (eb_err s) (eb_rdr s)) K).
    destruct IH as [I1 I2]. unfold forget in I1 at 1. cbn [eb_data eb_start eb_cap eb_err eb_rdr] in I1, I2. unfold forget. cbn [b_start b_cap b_rdr]. rewrite I1.
    destruct (e_scan_all k _) as [[ls o]|]; [|split; [reflexivity|exact I]]. split; [reflexivity|exact I2].
  - destruct (eb_err s) as [e|] eqn:Ee; cbn [is_set].
    + split; [reflexivity|]. destruct K as [K|[K|K]]; [discriminate|left; exact K|right; left; exact K].
    + destruct (shift_forget s) as [S1 [S2 _]]. destruct (grow_forget (e_shift s)) as [G1 G2]. rewrite S1 in G1.
      destruct (e_grow (e_shift s)) as [s'|].
      * cbn [option_map] in G1. rewrite <- G1. destruct (refill_forget s') as [R1 [R2 R3]]. rewrite <- R1.
        rewrite G2, S2 in *. destruct (IH (e_refill s')) as [I1 I2]; [rewrite R2; exact R3|]. split; [exact I1|]. rewrite R2 in I2. exact I2.
      * cbn [option_map] in G1. rewrite <- G1. split; [reflexivity|right; right; reflexivity].
Qed.
Lemma readlines_forget r : readlines_from (er_rdr r) = option_map fst (e_readlines r) /\
  match e_readlines r with
  | Some (_, o) => o = Some (er_final r) \/ o = Some NoProgress \/ o = Some TooLong
  | None => True
  end.
Proof. unfold readlines_from, e_readlines. exact (scan_forget _ (mkEscanner [] 0 0 None r) (or_introl eq_refl)). Qed.

(** C10, refuted for the reader as Go sees it: with whatever error a reader ends, ParseFile
    and ParseExpr answer as if it had ended with io.EOF after the same calls of Read. *)
Theorem C10_ignored_refuted : forall r e,
  (forall file opt, ParseFile_reading (mkErdr r e) file opt = ParseFile_reading (mkErdr r EndOfFile) file opt) /\
  ParseExpr_reading (mkErdr r e) = ParseExpr_reading (mkErdr r EndOfFile).
Proof.
  intros r e. destruct (readlines_forget (mkErdr r e)) as [A _]. destruct (readlines_forget (mkErdr r EndOfFile)) as [B _]. cbn [er_rdr] in A, B.
  unfold ParseFile_reading, ParseExpr_reading.
  destruct (e_readlines (mkErdr r e)) as [[l1 o1]|]; destruct (e_readlines (mkErdr r EndOfFile)) as [[l2 o2]|]; cbn [option_map fst] in A, B;
    rewrite A in B; try discriminate B; [injection B as <-|]; split; reflexivity.
Qed.
Print Assumptions C10_ignored_refuted.

(** ** Nothing is lost without an error *)
(** The lines of a text: cut at the line feeds, each without one carriage return at its end;
    nothing behind the last line feed is no line. *)
Inductive cut : list N -> list (list N) -> Prop :=
| cut_none : cut [] []
| cut_last l l' : l <> [] -> ~ In 10%N l -> without_cr l l' -> cut l [l']
| cut_line l l' t ls : ~ In 10%N l -> without_cr l l' -> cut t ls -> cut (l ++ [10%N] ++ t) (l' :: ls).

Lemma drop_cr_spec l : without_cr l (drop_cr l).
Proof. unfold drop_cr, rev'. rewrite <- rev_alt. pose proof (drop_cr_rev_spec (rev l)) as K. rewrite rev_involutive in K. exact K. Qed.
Lemma read1_all room r out err r' : read1 room r = (out, err, r') ->
  out ++ r_rest r' = r_rest r /\ (err = true -> r_rest r' = []).
Proof.
  destruct r as [rest sizes eager]. unfold read1. cbn [r_sizes r_rest r_eager].
  destruct sizes as [|[|k] more]; cbv zeta.
  2: intros E; injection E as <- <- <-; split; [reflexivity|discriminate].
  all: destruct rest as [|b t]; intros E; injection E as <- <- <-; cbn [r_rest].
  all: try (split; [apply skipn_nil|intros _; apply skipn_nil]).
  all: split; [apply firstn_skipn|]; match goal with |- context [skipn ?w ?x] => destruct (skipn w x) end; [reflexivity|discriminate].
Qed.
Lemma fill_all room : forall loops r out err r', e_fill loops room r = (out, err, r') ->
  er_final r = EndOfFile ->
  out ++ r_rest (er_rdr r') = r_rest (er_rdr r) /\ (err = Some EndOfFile -> r_rest (er_rdr r') = []).
Proof.
  induction loops as [|k IH]; intros r out err r'; cbn [e_fill]; unfold e_read1; destruct (read1 room (er_rdr r)) as [[o b] q] eqn:Q;
    apply read1_all in Q; destruct Q as [Q1 Q2]; destruct b.
  1,3: intros E F; injection E as <- <- <-; cbn [er_rdr]; auto.
  all: destruct o; intros E F.
  1,2,4: injection E as <- <- <-; cbn [er_rdr]; split; [exact Q1|discriminate].
  apply IH in E; [|exact F]. cbn [er_rdr] in E. cbn [app] in Q1. rewrite Q1 in E. exact E.
Qed.
Lemma more_all s s' : er_final (eb_rdr s) = EndOfFile -> e_grow (e_shift s) = Some s' ->
  er_final (eb_rdr (e_refill s')) = EndOfFile /\
  (eb_err (e_refill s') = Some EndOfFile -> r_rest (er_rdr (eb_rdr (e_refill s'))) = []) /\
  eb_data (e_refill s') ++ r_rest (er_rdr (eb_rdr (e_refill s'))) = eb_data s ++ r_rest (er_rdr (eb_rdr s)).
Proof.
  intros Hf G.
  assert (H : eb_data s' = eb_data s /\ eb_rdr s' = eb_rdr s).
  { destruct s as [d st c e r]. unfold e_shift in G. destruct (_ && _); unfold e_grow in G; destruct (_ =? c);
      try destruct (max_size <=? c); try discriminate; injection G as <-; split; reflexivity. }
  destruct H as [Hd Hr]. rewrite <- Hd, <- Hr in *. clear Hd Hr G. destruct s' as [d st c e r]. cbn [eb_data eb_rdr] in *.
  unfold e_refill. destruct (e_fill 100 (c - (st + length d)) r) as [[out err] r'] eqn:E.
  pose proof (fill_forget _ _ _ _ _ _ E) as [_ [F _]]. apply fill_all in E; [|exact Hf]. destruct E as [E1 E2].
  cbn [eb_data eb_rdr eb_err]. rewrite F. split; [exact Hf|]. split; [exact E2|]. rewrite <- app_assoc, E1. reflexivity.
Qed.
Lemma scan_whole : forall fuel s ls, er_final (eb_rdr s) = EndOfFile ->
  (eb_err s = Some EndOfFile -> r_rest (er_rdr (eb_rdr s)) = []) ->
  e_scan_all fuel s = Some (ls, Some EndOfFile) -> cut (eb_data s ++ r_rest (er_rdr (eb_rdr s))) ls.
Proof.
  induction fuel as [|k IH]; intros s ls Hf He; [discriminate|]. cbn [e_scan_all]. unfold split_line.
  pose proof (cut_lf_spec (eb_data s)) as Hc. destruct (cut_lf (eb_data s)) as [[l rest]|].
  { destruct Hc as [Hc Hn]. destruct (e_scan_all k _) as [[ls' o']|] eqn:E; cbn [option_map fst snd]; [|discriminate].
    intros H. injection H as <- ->. apply IH in E; [|exact Hf|exact He]. cbn [eb_data eb_rdr] in E.
    rewrite Hc, <- app_assoc. exact (cut_line _ _ _ _ Hn (drop_cr_spec l) E). }
  assert (More : match e_grow (e_shift s) with None => Some ([], Some TooLong) | Some s' => e_scan_all k (e_refill s') end = Some (ls, Some EndOfFile) ->
    cut (eb_data s ++ r_rest (er_rdr (eb_rdr s))) ls).
  { destruct (e_grow (e_shift s)) as [s'|] eqn:G; [|discriminate]. intros H. destruct (more_all _ _ Hf G) as [M1 [M2 M3]].
    rewrite <- M3. exact (IH _ _ M1 M2 H). }
  destruct (eb_data s) as [|b t] eqn:Ed; destruct (is_set (eb_err s)) eqn:Es; try exact More.
  - intros H. injection H as <- H. rewrite (He H). constructor.
  - destruct k as [|k]; [discriminate|]. cbn [e_scan_all eb_data eb_err split_line cut_lf]. rewrite Es. cbn [option_map fst snd].
    intros H. injection H as <- H. rewrite (He H), app_nil_r. apply cut_last; [discriminate|exact Hc|apply drop_cr_spec].
Qed.

(** C10, what is true: the loss is there to be asked for. When the loop of readlines has ended
    and Scanner.Err is nil, the reader has ended with io.EOF, and the lines are those of all
    its bytes: with one check behind the loop, no failure of the reader, no reader that gives
    up and no line that is too long would go unnoticed. *)
Theorem C10_pending_partial : forall r ls o, e_readlines r = Some (ls, o) ->
  (er_final r <> EndOfFile -> scanner_err o <> None) /\
  (scanner_err o = None -> er_final r = EndOfFile /\ cut (r_rest (er_rdr r)) ls).
Proof.
  intros r ls o E. destruct (readlines_forget r) as [_ B]. rewrite E in B.
  split.
  - intros K. destruct B as [->|[->| ->]]; [destruct (er_final r)| |]; cbn [scanner_err]; congruence.
  - intros N. assert (X : o = Some EndOfFile) by (destruct B as [->|[->| ->]]; [destruct (er_final r)| |]; try discriminate N; reflexivity).
    subst o. assert (F : er_final r = EndOfFile) by (destruct B as [B|[B|B]]; congruence). split; [exact F|].
    exact (scan_whole _ (mkEscanner [] 0 0 None r) ls F (fun H => match H with eq_refl => I end) E).
Qed.
Print Assumptions C10_pending_partial.
(** The loop ends, with the lines of the text as it would be read without errors, up to one
    that is too long, for every reader that neither stalls nor reports its end together with
    the last bytes. *)
Theorem C10_ends : forall bs sizes e, ~ (exists a b, sizes = a ++ repeat 0 101 ++ b) ->
  exists o, e_readlines (mkErdr (mkRdr bs sizes false) e) = Some (readlines (mkSource bs false), o).
Proof.
  intros bs sizes e H. destruct (readlines_forget (mkErdr (mkRdr bs sizes false) e)) as [A _]. cbn [er_rdr] in A.
  rewrite (readlines_from_lines bs sizes false false H (or_introl eq_refl)) in A.
  destruct (e_readlines _) as [[ls o]|]; [|discriminate]. injection A as ->. exists o. reflexivity.
Qed.
Print Assumptions C10_ends.
(** So ParseFile and ParseExpr, reading from such a reader, answer as for a source with these
    bytes, with whatever error the reader ends. *)
Theorem C10_answers : forall bs sizes e, ~ (exists a b, sizes = a ++ repeat 0 101 ++ b) ->
  (forall file opt, ParseFile_reading (mkErdr (mkRdr bs sizes false) e) file opt = ParseFile (mkSource bs false) file opt) /\
  ParseExpr_reading (mkErdr (mkRdr bs sizes false) e) = ParseExpr (mkSource bs false).
Proof.
  intros bs sizes e H. destruct (C10_ends bs sizes e H) as [o E]. unfold ParseFile_reading, ParseExpr_reading. rewrite E. split; reflexivity.
Qed.
Print Assumptions C10_answers.
(** A reader that delivers three bytes, none, and four, and then fails. *)
Example C10_case_answers : ~ (exists a b, [3; 0; 4] = a ++ repeat 0 101 ++ b) /\ exists e n,
  e = ReaderError 7 /\ ParseFile_reading (mkErdr (mkRdr [101; 99; 104; 111; 32; 49; 10; 101; 99]%N [3; 0; 4] false) e) [] None = Returned n.
Proof.
  split.
  - intros [a [b E]]. apply (f_equal (@length nat)) in E. rewrite !app_length, repeat_length in E. cbn [length] in E. lia.
  - do 2 eexists. split; [reflexivity|]. vm_compute. reflexivity.
Qed.

(** Two lines, the second without its end: from a reader that ends well, and from one that
    fails behind them; the answer of ParseFile is the same although the error is set. *)
Definition C10_text : list N := [101; 99; 104; 111; 32; 49; 13; 10; 101; 99; 104; 111]%N.
Example C10_case_pending :
  e_readlines (mkErdr (mkRdr C10_text [3; 0; 4] true) EndOfFile) = Some ([[101; 99; 104; 111; 32; 49]; [101; 99; 104; 111]]%N, Some EndOfFile) /\
  e_readlines (mkErdr (mkRdr C10_text [3; 0; 4] true) (ReaderError 7)) = Some ([[101; 99; 104; 111; 32; 49]; [101; 99; 104; 111]]%N, Some (ReaderError 7)) /\
  (exists n, ParseFile_reading (mkErdr (mkRdr C10_text [3; 0; 4] true) (ReaderError 7)) [] None = Returned n).
Proof. split; [vm_compute; reflexivity|]. split; [vm_compute; reflexivity|]. eexists. vm_compute. reflexivity. Qed.
(** The reader that gives nothing 101 times, and the line that is too long. *)
Example C10_case_stall : e_readlines (mkErdr (mkRdr C10_text (repeat 0 101) false) EndOfFile) = Some ([], Some NoProgress).
Proof. vm_compute. reflexivity. Qed.
Example C10_case_long : e_readlines (mkErdr (mkRdr (repeat 32%N (Nat.mul 256 256) ++ C10_text) [] false) EndOfFile) = Some ([], Some TooLong).
Proof. vm_compute. reflexivity. Qed.
