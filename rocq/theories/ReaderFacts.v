(** Proofs of the properties of PropReader.v. *)
From Coq Require Import Lia ZifyBool ZifyNat ZifyN.
From Verif Require Import Base Utf8 CharClass Reader Ast Api Cursor Places PlacesProof LinesProof ApiExpr ApiFile.

(** An error of either function, with its position. *)
Definition error_at {A} (r : api_result A) (off line col : N) : Prop :=
  exists file msg, r = Failed (ErrVimlParser file off line col msg).

Lemma file_error_place bs b file opt off line col : error_at (ParseFile (mkSource bs b) file opt) off line col ->
  exists s, sfx s (open_source (mkSource bs b)) /\
    off = p_i (getpos s) /\ line = p_lnum (getpos s) /\ col = p_col (getpos s).
Proof.
  intros [f [m H]]. destruct (ParseFile_cases (mkSource bs b) file opt) as [[v [p [x [_ [_ E]]]]]|[[msg [s [Hs E]]]|[k [_ E]]]];
    rewrite E in H; inversion H; subst. exists s. auto.
Qed.
Lemma expr_error_place bs b off line col : error_at (ParseExpr (mkSource bs b)) off line col ->
  exists s, sfx s (open_source (mkSource bs b)) /\
    off = p_i (getpos s) /\ line = p_lnum (getpos s) /\ col = p_col (getpos s).
Proof.
  intros [f [m H]]. destruct (ParseExpr_cases (mkSource bs b)) as [[v [p [x [_ [_ [_ E]]]]]]|[msg [s [Hs E]]]];
    rewrite E in H; inversion H; subst. exists s. auto.
Qed.

Section E.
  Context {A : Type} (r : api_result A) (bs : list N) (b : bool).
  Context (He : forall off line col, error_at r off line col ->
    exists s, sfx s (open_source (mkSource bs b)) /\
      off = p_i (getpos s) /\ line = p_lnum (getpos s) /\ col = p_col (getpos s)).
  Lemma error_place ts off line col : seen_lines bs ts -> error_at r off line col ->
    (exists x, place_in ts x line col) /\ off <= N.of_nat (length bs) + 1.
  Proof.
    intros Hs H. destruct (He _ _ _ H) as [s [H1 [-> [-> ->]]]].
    rewrite (seen_open _ _ b Hs) in H1. split.
    - exists (next_cell s). apply reader_places; auto.
    - rewrite (reader_index _ _ H1). pose proof (clen_reader ts). pose proof (seen_total _ _ Hs). lia.
  Qed.
  Lemma error_count ts off line col : seen_lines bs ts -> error_at r off line col ->
    exists ls pre post, logical 1 ts ls /\ flat_map logical_cells ls = pre ++ post /\
      off = N.of_nat (length pre) /\
      (post = [] \/ exists x post', post = (x, line, col) :: post').
  Proof.
    intros Hs H. destruct (He _ _ _ H) as [s [H1 [-> [-> ->]]]].
    rewrite (seen_open _ _ b Hs) in H1. apply reader_count; auto.
  Qed.
  Lemma error_ascii ts off line col : seen_lines bs ts -> Forall ascii ts ->
    Forall (fun l => ~ is_continuation l) (tl ts) -> error_at r off line col ->
    offset_in ts line col off.
  Proof.
    intros Hs Ha Hc H. destruct (He _ _ _ H) as [s [H1 [-> [-> ->]]]].
    rewrite (seen_open _ _ b Hs) in H1. rewrite (reader_same _ _ Ha Hc H1).
    destruct (reader_places _ _ H1) as [_ [K|[_ [n [l [K1 [K2 [K3 [K4 _]]]]]]]]]; auto.
    exfalso. destruct n; [contradiction|]. destruct ts; [destruct n; discriminate|]. cbn [nth_error tl] in *.
    apply nth_error_In in K3. rewrite Forall_forall in Hc. exact (Hc _ K3 K4).
  Qed.
End E.

(** Reader places. *)
Lemma seen_logical bs b ts : seen_lines bs ts ->
  exists ls, logical 1 ts ls /\ view (open_source (mkSource bs b)) = flat_map logical_cells ls.
Proof. intros H. rewrite (seen_open _ _ b H). apply reader_logical. Qed.
Lemma plain_char bs b ls ts r n col : plain bs ls ts -> In (R r, n, col) (view (open_source (mkSource bs b))) ->
  exists i l pre post, nth_error ls i = Some l /\ n = N.of_nat i + 1 /\
    l = pre ++ encode1 r ++ post /\ col = N.of_nat (length pre) + 1.
Proof.
  intros H H1. rewrite (plain_open _ _ _ b H) in H1. apply view_sfx in H1.
  destruct H1 as [s [H1 [H2 [<- <-]]]]. apply reader_places in H1. destruct H1 as [H1 _].
  rewrite H2 in H1. eapply plain_place; eauto.
Qed.

(** Offsets. *)
Lemma plain_offset bs b ls ts s r : plain bs ls ts -> sfx s (open_source (mkSource bs b)) ->
  next_cell s = Some (R r) ->
  (exists pre post, bs = pre ++ encode1 r ++ post /\ N.of_nat (length pre) = p_off (getpos s)) \/
  (exists i l, p_lnum (getpos s) = N.of_nat (S i) /\ nth_error ts i = Some l /\ i <> O /\ is_continuation l).
Proof.
  intros H H1 H2. rewrite (plain_open _ _ _ b H) in H1. apply reader_places in H1.
  destruct H1 as [H1 [H3|[_ [n [l [H3 [H4 [H5 [H6 _]]]]]]]]].
  - left. rewrite H2 in H1. exact (offset_in_bytes _ _ _ H _ _ _ _ H1 H3).
  - right. exists n, l. auto.
Qed.
