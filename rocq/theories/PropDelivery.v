(** C68: only the bytes count, not how the io.Reader delivers them. *)
From Coq Require Import List NArith Lia.
From Verif Require Import Base Utf8 Reader Ast Export ExprParser CmdParser Api Scanner ScannerProof.
Import ListNotations.
Open Scope nat_scope.

(** The reader answers more than 100 calls of Read in a row with nothing. *)
Definition gives_up (sizes : list nat) : Prop := exists a b, sizes = a ++ repeat 0 101 ++ b.
(** The last line, the part behind all line feeds, is [l]. *)
Definition last_line (bs l : list N) : Prop :=
  ~ In 10%N l /\ (bs = l \/ exists pre, bs = pre ++ [10%N] ++ l).

Lemma last_line_tail bs l : last_line bs l -> tail_len bs 0 = length l.
Proof.
  intros [Hl [->|(pre & ->)]].
  - apply tail_none, Hl.
  - change ([10%N] ++ l) with (10%N :: l). rewrite tail_line. apply tail_none, Hl.
Qed.
Lemma last_line_exists bs : exists l, last_line bs l.
Proof.
  induction bs as [|b bs (l & Hl & H)].
  - exists []. split; [intros []|left; reflexivity].
  - destruct H as [->|(pre & ->)].
    + destruct (N.eq_dec b 10) as [->|E].
      * exists l. split; [exact Hl|right; exists []; reflexivity].
      * exists (b :: l). split; [|left; reflexivity]. intros [?|?]; [congruence|exact (Hl H)].
    + exists l. split; [exact Hl|right; exists (b :: pre); reflexivity].
Qed.

(** However the bytes are cut into reads and whatever else there is: ParseFile and ParseExpr
    answer what they answer to the bytes as a whole, unless the reader stalls, or reports its
    end together with the last bytes of a last line of exactly 65536 bytes. *)
Theorem C68_delivery : forall bs sizes eager fails,
  ~ gives_up sizes ->
  (eager = true -> ~ exists l, last_line bs l /\ N.of_nat (length l) = 65536%N) ->
  (forall file opt, ParseFile_from (mkRdr bs sizes eager) file opt = ParseFile (mkSource bs fails) file opt) /\
  ParseExpr_from (mkRdr bs sizes eager) = ParseExpr (mkSource bs fails).
Proof.
  intros bs sizes eager fails Hs He.
  assert (R : readlines_from (mkRdr bs sizes eager) = Some (readlines (mkSource bs fails))).
  { apply readlines_from_lines; [exact Hs|]. destruct eager; [right|left; reflexivity].
    intros E. apply (He eq_refl). destruct (last_line_exists bs) as (l & Hl). exists l. split; [exact Hl|].
    rewrite <- (last_line_tail _ _ Hl), E. apply max_size_line. }
  unfold ParseFile_from, ParseExpr_from. rewrite R. split; reflexivity.
Qed.
Print Assumptions C68_delivery.
(** Single bytes with pauses, the end reported with the last byte; a line that is longer than
    the first buffer. *)
Definition C68_text : list N := repeat 32%N (Nat.mul 50 100) ++ [101; 99; 104; 111; 32; 49; 10; 41]%N.
Definition C68_sizes : list nat := [1; 0; 1; 0; 0; 7].
Example C68_case : ~ gives_up C68_sizes /\ ~ (exists l, last_line C68_text l /\ N.of_nat (length l) = 65536%N) /\
  exists off m, ParseFile_from (mkRdr C68_text C68_sizes true) [] None = Failed (ErrVimlParser [] off 2 1 m).
Proof.
  split; [|split].
  - intros (a & b & E). apply (f_equal (@length nat)) in E. rewrite !app_length, repeat_length in E.
    cbn [C68_sizes length] in E. lia.
  - intros (l & Hl & E). apply last_line_tail in Hl.
    assert (V : tail_len C68_text 0 = 1) by (vm_compute; reflexivity). rewrite V in Hl.
    rewrite <- Hl in E. discriminate.
  - do 2 eexists. vm_compute. reflexivity.
Qed.

(** The two exceptions are real. A reader that gives nothing 101 times in a row loses the
    rest of the text without an error ... *)
Theorem C68_stall_refuted : exists bs sizes n, gives_up sizes /\
  ParseFile_from (mkRdr bs sizes false) [] None = Returned n /\
  (exists e, ParseFile (mkSource bs false) [] None = Failed e).
Proof.
  exists [41%N], (repeat 0 101). eexists. split; [exists [], []; reflexivity|].
  split; [vm_compute; reflexivity|]. eexists. vm_compute. reflexivity.
Qed.
Print Assumptions C68_stall_refuted.
(** ... and a last line of exactly 65536 bytes is parsed when the end comes with its last
    bytes and dropped without an error when the end comes in a read of its own. *)
Theorem C68_eager_refuted : exists bs n,
  ParseFile_from (mkRdr bs [] false) [] None = Returned n /\
  (exists e, ParseFile_from (mkRdr bs [] true) [] None = Failed e).
Proof.
  exists (T "endif" ++ repeat 32%N (Nat.mul 256 256 - 5)). eexists.
  split; [vm_compute; reflexivity|].
  match goal with |- exists e, ?x = Failed e =>
    assert (F : match x with Failed _ => true | _ => false end = true) by (vm_compute; reflexivity);
    destruct x as [a|e|]; [discriminate|exists e; reflexivity|discriminate] end.
Qed.
Print Assumptions C68_eager_refuted.
