(** The scanner reads the lines of the input, however the reader delivers it. *)
From Coq Require Import List NArith Lia ZifyBool ZifyNat ZifyN.
From Verif Require Import Base Utf8 Reader Ast Export ExprParser CmdParser Api Scanner.
Import ListNotations.
Open Scope nat_scope.

(** ** The lines of the whole input *)
Lemma lines_run l : forall t cur n, ~ In 10%N l -> (n + N.of_nat (length l) < max_line)%N ->
  scan_lines (l ++ t) cur n = scan_lines t (rev l ++ cur) (n + N.of_nat (length l))%N.
Proof.
  induction l as [|b l IH]; intros t cur n Hl Hn.
  - cbn [app rev length N.of_nat]. rewrite N.add_0_r. reflexivity.
  - cbn [app scan_lines length] in *. cbn [In] in Hl.
    destruct (N.eqb_spec b 10) as [E|E]; [exfalso; auto|].
    destruct (N.leb_spec max_line (n + 1)) as [L|L]; [lia|].
    rewrite IH by (auto; lia). cbn [rev]. rewrite <- app_assoc. cbn [app]. f_equal. lia.
Qed.

Lemma lines_long l : forall t cur n, ~ In 10%N l -> l <> [] -> (max_line <= n + N.of_nat (length l))%N ->
  scan_lines (l ++ t) cur n = [].
Proof.
  induction l as [|b l IH]; intros t cur n Hl Hz Hn; [congruence|].
  cbn [app scan_lines length] in *. cbn [In] in Hl.
  destruct (N.eqb_spec b 10) as [E|E]; [exfalso; auto|].
  destruct (N.leb_spec max_line (n + 1)) as [L|L]; [reflexivity|].
  apply IH; auto; [|lia]. intros ->. cbn [length] in Hn. lia.
Qed.

Lemma cut_lf_spec data : match cut_lf data with
  | Some (l, r) => data = l ++ 10%N :: r /\ ~ In 10%N l
  | None => ~ In 10%N data
  end.
Proof.
  induction data as [|b t IH]; cbn [cut_lf]; [auto|].
  destruct (N.eqb_spec b 10) as [->|E]; [split; auto|].
  destruct (cut_lf t) as [[l r]|].
  - destruct IH as [-> H]. split; [reflexivity|]. intros [?|?]; auto.
  - intros [?|?]; auto.
Qed.

(** The length of what stands behind the last line feed. *)
Fixpoint tail_len (bs : list N) (n : nat) : nat :=
  match bs with
  | [] => n
  | b :: t => if (b =? 10)%N then tail_len t 0 else tail_len t (S n)
  end.
Lemma tail_line l t n : tail_len (l ++ 10%N :: t) n = tail_len t 0.
Proof.
  revert n. induction l as [|b l IH]; intros n; cbn [app tail_len]; [reflexivity|].
  destruct (b =? 10)%N; apply IH.
Qed.
Lemma tail_none l n : ~ In 10%N l -> tail_len l n = n + length l.
Proof.
  revert n. induction l as [|b l IH]; intros n H; cbn [tail_len length]; [lia|].
  cbn [In] in H. destruct (N.eqb_spec b 10); [exfalso; auto|]. rewrite IH by auto. lia.
Qed.

(** ** One refill *)
Definition stalls (sizes : list nat) : Prop := exists a b, sizes = a ++ repeat 0 101 ++ b.

Lemma stalls_tl k t : stalls t -> stalls (k :: t).
Proof. intros (a & b & ->). exists (k :: a), b. reflexivity. Qed.

(** [z] empty reads have been seen already. *)
Lemma fill_spec loops : forall room rest sizes eager z, 0 < room -> z + loops = 100 ->
  ~ stalls (repeat 0 z ++ sizes) ->
  let '(out, err, r') := fill loops room (mkRdr rest sizes eager) in
  rest = out ++ r_rest r' /\ length out <= room /\ r_eager r' = eager /\
  (err = false -> out <> [] /\ ~ stalls (r_sizes r')) /\
  (err = true -> r_rest r' = [] /\ (eager = false -> out = [])).
Proof.
  induction loops as [|loops IH]; intros room rest sizes eager z Hroom Hz Hs;
    cbn [fill]; unfold read1; cbn [r_sizes r_rest r_eager].
  - destruct sizes as [|k sizes].
    + destruct rest as [|b rest].
      * rewrite skipn_nil. cbn. repeat split; auto; try discriminate; lia.
      * destruct room as [|room]; [lia|]. cbn [firstn skipn tl].
        destruct (match skipn room rest with [] => eager | _ => false end) eqn:E.
        -- destruct (skipn room rest) eqn:K; [|discriminate]. cbn [r_rest r_eager].
           pose proof (firstn_skipn room rest) as J. rewrite K in J.
           repeat split; try discriminate.
           ++ cbn [app]. rewrite J. reflexivity.
           ++ cbn [length]. pose proof (firstn_le_length room rest). rewrite firstn_length. lia.
           ++ congruence.
        -- cbn [r_rest r_eager r_sizes]. repeat split; try discriminate.
           ++ cbn [app]. now rewrite firstn_skipn.
           ++ cbn [length]. rewrite firstn_length. lia.
           ++ intros (a & b' & K). destruct a; discriminate.
    + destruct k as [|k].
      * exfalso. apply Hs. exists [], sizes. cbn [app].
        replace z with 100 by lia. reflexivity.
      * assert (Hs' : ~ stalls sizes).
        { intros (a & b' & K). apply Hs. exists (repeat 0 z ++ S k :: a), b'.
          rewrite K, <- app_assoc. reflexivity. }
        destruct rest as [|b rest].
        -- rewrite skipn_nil. cbn. repeat split; auto; try discriminate; lia.
        -- destruct room as [|room]; [lia|]. cbn [Nat.min firstn skipn tl].
           set (w := Nat.min k room).
           destruct (match skipn w rest with [] => eager | _ => false end) eqn:E.
           ++ destruct (skipn w rest) eqn:K; [|discriminate]. cbn [r_rest r_eager].
              pose proof (firstn_skipn w rest) as J. rewrite K in J.
              repeat split; try discriminate.
              ** cbn [app]. rewrite J. reflexivity.
              ** cbn [length]. rewrite firstn_length. lia.
              ** congruence.
           ++ cbn [r_rest r_eager r_sizes]. repeat split; try discriminate; auto.
              ** cbn [app]. now rewrite firstn_skipn.
              ** cbn [length]. rewrite firstn_length. lia.
  - destruct sizes as [|k sizes].
    + destruct rest as [|b rest].
      * rewrite skipn_nil. cbn. repeat split; auto; try discriminate; lia.
      * destruct room as [|room]; [lia|]. cbn [firstn skipn tl].
        destruct (match skipn room rest with [] => eager | _ => false end) eqn:E.
        -- destruct (skipn room rest) eqn:K; [|discriminate]. cbn [r_rest r_eager].
           pose proof (firstn_skipn room rest) as J. rewrite K in J.
           repeat split; try discriminate.
           ++ cbn [app]. rewrite J. reflexivity.
           ++ cbn [length]. rewrite firstn_length. lia.
           ++ congruence.
        -- cbn [r_rest r_eager r_sizes]. repeat split; try discriminate.
           ++ cbn [app]. now rewrite firstn_skipn.
           ++ cbn [length]. rewrite firstn_length. lia.
           ++ intros (a & b' & K). destruct a; discriminate.
    + destruct k as [|k].
      * apply (IH room rest sizes eager (S z)); [lia|lia|].
        replace (repeat 0 (S z) ++ sizes) with (repeat 0 z ++ 0 :: sizes); [exact Hs|].
        replace (S z) with (z + 1) by lia. rewrite repeat_app, <- app_assoc. reflexivity.
      * assert (Hs' : ~ stalls sizes).
        { intros (a & b' & K). apply Hs. exists (repeat 0 z ++ S k :: a), b'.
          rewrite K, <- app_assoc. reflexivity. }
        destruct rest as [|b rest].
        -- rewrite skipn_nil. cbn. repeat split; auto; try discriminate; lia.
        -- destruct room as [|room]; [lia|]. cbn [Nat.min firstn skipn tl].
           set (w := Nat.min k room).
           destruct (match skipn w rest with [] => eager | _ => false end) eqn:E.
           ++ destruct (skipn w rest) eqn:K; [|discriminate]. cbn [r_rest r_eager].
              pose proof (firstn_skipn w rest) as J. rewrite K in J.
              repeat split; try discriminate.
              ** cbn [app]. rewrite J. reflexivity.
              ** cbn [length]. rewrite firstn_length. lia.
              ** congruence.
           ++ cbn [r_rest r_eager r_sizes]. repeat split; try discriminate; auto.
              ** cbn [app]. now rewrite firstn_skipn.
              ** cbn [length]. rewrite firstn_length. lia.
Qed.

Lemma max_size_line : N.of_nat max_size = max_line.
Proof. reflexivity. Qed.
Global Opaque max_size start_size.
Lemma start_small : 0 < start_size <= max_size.
Proof. split; apply Nat.leb_le; vm_compute; reflexivity. Qed.

(** ** The scanner *)
Definition whole (s : scanner) : list N := b_data s ++ (if b_err s then [] else r_rest (b_rdr s)).
Definition sound_buf (s : scanner) : Prop :=
  b_start s + length (b_data s) <= b_cap s /\ b_cap s <= max_size /\
  (b_err s = false -> ~ stalls (r_sizes (b_rdr s))).
Definition fine (s : scanner) : Prop :=
  tail_len (whole s) 0 <> max_size \/
  (r_eager (b_rdr s) = false /\ (b_err s = true -> length (b_data s) < max_size)).
Definition todo (s : scanner) : nat :=
  if b_err s then length (b_data s) else S (2 * length (r_rest (b_rdr s)) + length (b_data s)).

Lemma scan_all_lines fuel : forall s, todo s < fuel -> sound_buf s -> fine s ->
  scan_all fuel s = Some (scan_lines (whole s) [] 0).
Proof.
  pose proof max_size_line as ML. pose proof start_small as SM.
  induction fuel as [|fuel IH]; intros s Hf Hb Hn; [lia|].
  destruct s as [data start cap err r]. destruct Hb as (B1 & B2 & B3).
  cbn [scan_all]. unfold split_line. cbn [b_data b_start b_cap b_err b_rdr] in *.
  pose proof (cut_lf_spec data) as Q. destruct (cut_lf data) as [[l rest]|].
  - destruct Q as [-> Q].
    assert (W : scan_lines (whole (mkScanner (l ++ 10%N :: rest) start cap err r)) [] 0 =
      drop_cr l :: scan_lines (whole (mkScanner rest (start + (length (l ++ 10%N :: rest) - length rest)) cap err r)) [] 0).
    { unfold whole. cbn [b_data b_err b_rdr]. rewrite app_length in B1. cbn [length] in B1.
      rewrite <- app_assoc. rewrite lines_run by (auto; lia).
      cbn [app scan_lines N.eqb]. rewrite app_nil_r. unfold drop_cr. rewrite rev_alt. reflexivity. }
    rewrite W, IH; [reflexivity|..].
    + unfold todo in *. cbn [b_data b_err b_rdr] in *. rewrite app_length in Hf. cbn [length] in Hf.
      destruct err; lia.
    + unfold sound_buf. cbn [b_data b_start b_cap b_err b_rdr]. rewrite app_length in *. cbn [length] in *.
      repeat split; auto; lia.
    + unfold fine, whole in *. cbn [b_data b_err b_rdr] in *.
      rewrite <- app_assoc in Hn. cbn [app] in Hn. rewrite tail_line in Hn.
      destruct Hn as [Hn|[Hn H2]]; [left; exact Hn|right]. split; [exact Hn|].
      intros E. specialize (H2 E). rewrite app_length in H2. cbn [length] in H2. lia.
  - destruct err.
    + (* the end: what is left is the last line *)
      unfold whole. cbn [b_data b_err b_rdr]. rewrite app_nil_r.
      destruct data as [|b data]; [reflexivity|].
      assert (L : length (b :: data) < max_size).
      { destruct Hn as [Hn|[_ H2]]; [|exact (H2 eq_refl)].
        unfold whole in Hn. cbn [b_data b_err b_rdr] in Hn. rewrite app_nil_r, tail_none in Hn by exact Q. lia. }
      rewrite IH; cbn [option_map].
      * unfold whole. cbn [b_data b_err b_rdr app].
        pose proof (lines_run (b :: data) [] [] 0%N Q ltac:(lia)) as R. rewrite app_nil_r in R. rewrite R.
        cbn [scan_lines]. rewrite app_nil_r. unfold drop_cr. unfold rev'. rewrite <- rev_alt.
        destruct (rev (b :: data)) eqn:E; [|reflexivity].
        apply (f_equal (@length N)) in E. rewrite rev_length in E. discriminate.
      * unfold todo in *. cbn [b_data b_err b_rdr length] in *. lia.
      * unfold sound_buf. cbn [b_data b_start b_cap b_err b_rdr length] in *. repeat split; auto; lia.
      * left. unfold whole. cbn [b_data b_err b_rdr app tail_len]. lia.
    + (* read more *)
      assert (G : match data with [] => @None (list N * list N) | _ :: _ => None end = None) by (destruct data; reflexivity).
      rewrite G. clear G.
      specialize (B3 eq_refl).
      assert (K : (length data = max_size /\ grow (shift (mkScanner data start cap false r)) = None) \/
        exists start' cap', grow (shift (mkScanner data start cap false r)) = Some (mkScanner data start' cap' false r) /\
          start' + length data < cap' /\ cap' <= max_size).
      { unfold shift.
        destruct ((0 <? start) && ((start + length data =? cap) || (cap / 2 <? start))) eqn:E.
        - right. exists 0, cap. unfold grow. destruct (Nat.eqb_spec (0 + length data) cap); [lia|].
          split; [reflexivity|]. lia.
        - unfold grow. destruct (Nat.eqb_spec (start + length data) cap) as [F|F].
          + assert (start = 0) as -> by lia.
            destruct (Nat.leb_spec max_size cap) as [J|J]; [left; split; [lia|reflexivity]|].
            right. exists 0. eexists. split; [reflexivity|].
            destruct (cap * 2) eqn:D; lia.
          + right. exists start, cap. split; [reflexivity|lia]. }
      destruct K as [[L ->]|(start' & cap' & -> & L1 & L2)].
      * unfold whole. cbn [b_data b_err b_rdr]. f_equal. symmetry. apply lines_long; auto; [|lia].
        intros ->. cbn [length] in L. lia.
      * destruct r as [rest sizes eager]. cbn [r_sizes] in B3.
        pose proof (fill_spec 100 (cap' - (start' + length data)) rest sizes eager 0 ltac:(lia) eq_refl B3) as FS.
        cbn [refill].
        destruct (fill 100 (cap' - (start' + length data)) (mkRdr rest sizes eager)) as [[out err'] r'].
        destruct FS as (F1 & F2 & F3 & F4 & F5).
        assert (W : whole (mkScanner (data ++ out) start' cap' err' r') =
                    whole (mkScanner data start cap false (mkRdr rest sizes eager))).
        { unfold whole. cbn [b_data b_err b_rdr r_rest]. rewrite F1, <- app_assoc.
          destruct err'; [|reflexivity]. destruct (F5 eq_refl) as [-> _]. reflexivity. }
        rewrite IH; [rewrite W; reflexivity|..].
        -- unfold todo in *. cbn [b_data b_err b_rdr r_rest] in *. rewrite app_length.
           rewrite F1, app_length in Hf.
           destruct err'; [lia|]. destruct (F4 eq_refl) as [F4' _]. destruct out; [congruence|]. cbn [length] in *. lia.
        -- unfold sound_buf. cbn [b_data b_start b_cap b_err b_rdr]. rewrite app_length. repeat split; [lia|lia|].
           intros ->. exact (proj2 (F4 eq_refl)).
        -- unfold fine in *. rewrite W. cbn [b_data b_err b_rdr r_eager] in *. rewrite F3.
           destruct Hn as [Hn|[Hn H2]]; [left; exact Hn|right; split; [exact Hn|]].
           intros E. destruct (F5 E) as [_ F6]. rewrite (F6 Hn), app_nil_r. lia.
Qed.

Lemma readlines_from_lines bs sizes eager fails : ~ stalls sizes ->
  eager = false \/ tail_len bs 0 <> max_size ->
  readlines_from (mkRdr bs sizes eager) = Some (readlines (mkSource bs fails)).
Proof.
  intros Hs He. unfold readlines_from. rewrite scan_all_lines; [reflexivity|..].
  - unfold todo. cbn [b_data b_err b_rdr r_rest length]. lia.
  - unfold sound_buf. cbn [b_data b_start b_cap b_err b_rdr r_sizes length]. repeat split; auto; lia.
  - unfold fine, whole. cbn [b_data b_err b_rdr r_rest r_eager length app].
    destruct He as [->|He]; [right|left; exact He]. split; [reflexivity|discriminate].
Qed.
