(** Property theorems: the command line tool, the reader's data structure and the token
    cache. *)
From Coq Require Import Lia.
From Verif Require Import Base Utf8 CharClass Reader Vnode Ast Tokenizer Api Compiler Cli Nodes LinesProof ApiFile PropOut
  Cursor IndexReader IndexProof.

(** What the tool does with one file: its output and its complaint. *)
Inductive handled (json : node -> option text) (fl : flags) (w : world) (f : list N) : text -> option complaint -> Prop :=
| h_open : w_open w f = None -> handled json fl w f [] (Some (COpen f))
| h_parse src e : w_open w f = Some src ->
    ParseFile src f (Some (mkOption (f_neovim fl))) = Failed e -> handled json fl w f [] (Some (CParse e))
| h_json src n s : w_open w f = Some src ->
    ParseFile src f (Some (mkOption (f_neovim fl))) = Returned n ->
    f_json fl = true -> json n = Some s -> handled json fl w f s None
| h_nojson src n : w_open w f = Some src ->
    ParseFile src f (Some (mkOption (f_neovim fl))) = Returned n ->
    f_json fl = true -> json n = None -> handled json fl w f [] (Some CWrite)
| h_compile src n s n' : w_open w f = Some src ->
    ParseFile src f (Some (mkOption (f_neovim fl))) = Returned n ->
    f_json fl = false -> compile_with (T "  ") n = Ok (mkCompiled s false n') -> handled json fl w f s None.

(** A file that cannot be opened, parsed or written. *)
Definition bad (json : node -> option text) (fl : flags) (w : world) (f : list N) : Prop :=
  w_open w f = None \/
  (exists src e, w_open w f = Some src /\ ParseFile src f (Some (mkOption (f_neovim fl))) = Failed e) \/
  (exists src n, w_open w f = Some src /\ ParseFile src f (Some (mkOption (f_neovim fl))) = Returned n /\
     f_json fl = true /\ json n = None).

Definition complaints (l : list (text * option complaint)) : list complaint :=
  flat_map (fun x => match snd x with Some e => [e] | None => [] end) l.

Lemma cli_parse_handled json fl w f src : w_open w f = Some src ->
  exists s e, cli_parse json fl f src = Ok (s, e) /\ handled json fl w f s e.
Proof.
  intros Hw. unfold cli_parse. destruct (ParseFile src f (Some (mkOption (f_neovim fl)))) as [n|e|] eqn:E.
  - destruct (f_json fl) eqn:Ej.
    + destruct (json n) as [s|] eqn:Es; do 2 eexists; (split; [reflexivity|]).
      eapply h_json; eauto. eapply h_nojson; eauto.
    + destruct src as [bs b]. destruct (C29_compile_total (T "  ") bs b f n) as [out [n' K]]; [left; exists (Some (mkOption (f_neovim fl))); auto|].
      rewrite K. cbn [bind c_err c_out]. do 2 eexists. split; [reflexivity|]. eapply h_compile; eauto.
  - do 2 eexists. split; [reflexivity|]. eapply h_parse; eauto.
  - exfalso. destruct (ParseFile_cases src f (Some (mkOption (f_neovim fl)))) as [[v [p [b [_ [_ H]]]]]|[[m [s [_ H]]]|[k [_ H]]]]; congruence.
Qed.

Lemma cli_files_reports json fl w : forall files first acc,
  exists reports, Forall2 (fun f x => handled json fl w f (fst x) (snd x)) files reports /\
    cli_files json fl w first files acc = Ok (mkCli
      (match complaints reports with [] => x_status acc | _ => 1 end)
      (x_out acc ++ flat_map fst reports) (x_err acc ++ complaints reports)
      (x_usage acc || match files with f :: _ => first && match w_open w f with None => true | Some _ => false end | [] => false end)).
Proof.
  induction files as [|f files IH]; intros first acc.
  - exists []. split; [constructor|]. cbn. rewrite !app_nil_r, orb_false_r. destruct acc; reflexivity.
  - cbn [cli_files]. destruct (w_open w f) as [src|] eqn:E.
    + destruct (cli_parse_handled json fl w f src E) as [s [e [-> H]]]. cbn [bind].
      match goal with |- context [cli_files _ _ _ false files ?a] => destruct (IH false a) as [rs [K1 ->]] end.
      exists ((s, e) :: rs). split; [constructor; auto|]. rewrite andb_false_r, orb_false_r.
      assert (Hf : forall b, (b || match files with [] => false | f0 :: _ => false && match w_open w f0 with Some _ => false | None => true end end) = b).
      { intros b. destruct files; cbn; apply orb_false_r. }
      destruct e as [e|]; cbn [x_status x_out x_err x_usage complaints flat_map snd fst app]; fold (complaints rs); rewrite Hf, <- !app_assoc.
      * f_equal. f_equal. destruct (complaints rs); reflexivity.
      * reflexivity.
    + match goal with |- context [cli_files _ _ _ false files ?a] => destruct (IH false a) as [rs [K1 ->]] end.
      exists (([], Some (COpen f)) :: rs). split; [constructor; auto; apply h_open; auto|].
      assert (Hf : forall b, (b || match files with [] => false | f0 :: _ => false && match w_open w f0 with Some _ => false | None => true end end) = b).
      { intros b. destruct files; cbn; apply orb_false_r. }
      cbn [x_status x_out x_err x_usage complaints flat_map snd fst app]; fold (complaints rs). rewrite Hf, <- !app_assoc, andb_true_r.
      f_equal. f_equal. destruct (complaints rs); reflexivity.
Qed.

Lemma handled_bad json fl w f s e : handled json fl w f s e -> (e = None <-> ~ bad json fl w f).
Proof.
  intros H. inversion H; subst; (split; [intros K|intros K]); try discriminate; try (exfalso; apply K; unfold bad; eauto 8; fail); auto.
  - intros [B|[[src2 [e2 [B1 B2]]]|[src2 [n2 [B1 [B2 [B3 B4]]]]]]]; congruence.
  - intros [B|[[src2 [e2 [B1 B2]]]|[src2 [n2 [B1 [B2 [B3 B4]]]]]]]; congruence.
Qed.

(** C40: whatever the files are, the tool handles every one of them in order, writes the
    output of the good ones and one complaint for each bad one. *)
Theorem C40_all_files : forall json fl w args, args <> [] ->
  exists r reports, cli_main json fl w args = Ok r /\
    Forall2 (fun f x => handled json fl w f (fst x) (snd x)) args reports /\
    x_out r = flat_map fst reports /\ x_err r = complaints reports /\
    (x_usage r = true <-> exists f rest, args = f :: rest /\ w_open w f = None).
Proof.
  intros json fl w args Ha. destruct (cli_files_reports json fl w args true (mkCli 0 [] [] false)) as [rs [H1 H2]].
  destruct args as [|f args]; [congruence|]. eexists; exists rs. split; [exact H2|]. split; auto. split; auto. split; auto.
  cbn [x_usage orb]. split.
  - intros H. exists f, args. split; auto. destruct (w_open w f); [discriminate|auto].
  - intros [f' [rest [E1 E2]]]. inversion E1; subst. rewrite E2. reflexivity.
Qed.
Print Assumptions C40_all_files.
(** The exit status is 1 if some file is bad, and 0 otherwise. *)
Theorem C40_status : forall json fl w args, args <> [] ->
  exists r, cli_main json fl w args = Ok r /\ (x_status r = 0 \/ x_status r = 1) /\
    (x_status r = 1 <-> exists f, In f args /\ bad json fl w f).
Proof.
  intros json fl w args Ha. destruct (cli_files_reports json fl w args true (mkCli 0 [] [] false)) as [rs [H1 H2]].
  destruct args as [|f args]; [congruence|]. eexists. split; [exact H2|]. cbn [x_status].
  assert (G : complaints rs = [] <-> forall g, In g (f :: args) -> ~ bad json fl w g).
  { clear H2 Ha. induction H1 as [|g x gs xs H H1 IH]; [cbn; tauto|]. destruct x as [s e]. cbn [fst snd] in *.
    apply handled_bad in H. cbn [complaints flat_map snd]. split.
    - intros K. apply app_eq_nil in K. destruct K as [K1 K2]. intros g' [<-|Hg]. apply H. destruct e; [discriminate|auto].
      apply (proj1 IH K2); auto.
    - intros K. rewrite (proj2 H (K _ (or_introl eq_refl))). cbn [app]. apply IH. intros g' Hg. apply K. right; auto. }
  destruct (complaints rs) as [|y ys].
  - split; [auto|]. split; [discriminate|]. intros [g [Hg Hb]]. exfalso. exact (proj1 G eq_refl g Hg Hb).
  - split; [auto|]. split; auto. intros _.
    assert (Dec : forall g, bad json fl w g \/ ~ bad json fl w g).
    { intros g. destruct (w_open w g) as [src|] eqn:E; [|left; left; auto].
      destruct (cli_parse_handled json fl w g src E) as [s [e [_ H]]]. apply handled_bad in H. destruct e as [e|]; [|right; apply H; auto].
      destruct (cli_parse_handled json fl w g src E) as [s' [e' [_ H']]].
      inversion H'; subst; try (left; unfold bad; eauto 8; fail); right; apply (handled_bad _ _ _ _ _ _ H'); auto. }
    clear - G Dec. assert (K : ~ forall g, In g (f :: args) -> ~ bad json fl w g) by (intros K; apply G in K; discriminate).
    clear G. revert K. generalize (f :: args) as l. induction l as [|g l IH]; intros K.
    + exfalso. apply K. intros ? [].
    + destruct (Dec g) as [B|B]; [exists g; split; [left|]; auto|]. destruct IH as [g' [H1 H2]].
      * intros K2. apply K. intros g' [<-|Hg]; auto.
      * exists g'. split; [right|]; auto.
Qed.
Print Assumptions C40_status.
(** Without arguments the standard input is the only file. *)
Theorem C40_stdin : forall json fl w,
  exists s e, cli_main json fl w [] = Ok (mkCli (match e with None => 0 | Some _ => 1 end) s (match e with None => [] | Some e => [e] end) false) /\
    handled json fl (mkWorld (fun _ => Some (w_stdin w)) (w_stdin w)) [] s e.
Proof.
  intros json fl w. destruct (cli_parse_handled json fl (mkWorld (fun _ => Some (w_stdin w)) (w_stdin w)) [] (w_stdin w) eq_refl) as [s [e [E H]]].
  exists s, e. split; auto. unfold cli_main. rewrite E. destruct e; reflexivity.
Qed.
Print Assumptions C40_stdin.
Definition two_files : world :=
  mkWorld (fun f => if text_eqb f (T "a") then Some (mkSource (T "echo 1") false)
                    else if text_eqb f (T "b") then Some (mkSource (T "if") false) else None) (mkSource [] false).
Example C40_case : exists r, cli_main (fun _ => None) (mkFlags false false) two_files [T "c"; T "b"; T "a"] = Ok r /\
  x_status r = 1 /\ x_out r = T "(echo 1)" ++ [10] /\ length (x_err r) = 2%nat /\ x_usage r = true.
Proof. eexists. split; [vm_compute; reflexivity|]. vm_compute. auto. Qed.

(** C48: the reader. The cells, positions and index that StringReader keeps behave as the
    suffix of the buffer that the other theorems speak of. *)
Theorem C48_construction : forall lines, suffix (init_reader lines) = new_reader lines /\ ok (init_reader lines).
Proof. exact init_ok. Qed.
Print Assumptions C48_construction.
Theorem C48_looking : forall r, ok r ->
  i_getpos r = Ok (getpos (suffix r)) /\ i_eof r = is_eof (suffix r) /\ i_peek r = Ok (peek (suffix r)) /\
  (forall k, i_p k r = p_ k (suffix r)) /\ (forall n, i_peekn (Some n) r = peekn n (suffix r)) /\
  i_peekn None r = peekline (suffix r).
Proof.
  intros r H. split; [apply getpos_ok; auto|]. split; [apply eof_ok; auto|]. split; [apply peek_ok; auto|].
  split; [intros; apply p_ok; auto|]. split.
  - intros n. unfold i_peekn, peekn. destruct (getn_ok n r H) as [r' [-> _]]. reflexivity.
  - unfold i_peekn, peekline. destruct (getn_all_ok r H) as [r' [-> _]]. reflexivity.
Qed.
Print Assumptions C48_looking.
Theorem C48_reading : forall r, ok r ->
  (exists r', i_get r = Ok (fst (get (suffix r)), r') /\ suffix r' = snd (get (suffix r)) /\ ok r') /\
  (forall n, exists r', i_getn (Some n) r = (fst (getn n (suffix r)), r') /\ suffix r' = snd (getn n (suffix r)) /\ ok r') /\
  (exists r', i_readline r = Ok (fst (readline (suffix r)), r') /\ suffix r' = snd (readline (suffix r)) /\ ok r') /\
  (forall f, exists r', i_read_while f r = (fst (read_while f (suffix r)), r') /\
     suffix r' = snd (read_while f (suffix r)) /\ ok r') /\
  (forall f, suffix (i_skip_while f r) = skip_while f (suffix r) /\ ok (i_skip_while f r)).
Proof.
  intros r H. split; [apply get_ok; auto|]. split.
  { intros n. destruct (getn_ok n r H) as [r' [K1 [K2 [K3 _]]]]. eauto. }
  split; [apply readline_ok; auto|]. split; [intros; apply read_while_ok; auto|].
  intros f. destruct (skip_while_ok f r H) as [K1 [K2 _]]. auto.
Qed.
Print Assumptions C48_reading.
(** Returning to a place: every suffix is the one at its index, and getstr is the text
    between two indices. *)
Theorem C48_seeking : forall r, ok r ->
  (forall c, sfx c (suffix r) -> c = suffix (i_seek_set (place r c) r) /\ ok (i_seek_set (place r c) r)) /\
  (forall k, if Nat.leb (sr_i r + k) (length (sr_buf r))
     then seek_cur k (suffix r) = Ok (suffix (i_seek_cur k r)) /\ ok (i_seek_cur k r)
     else exists e, seek_cur k (suffix r) = Panic e) /\
  (suffix (i_seek_end 0 r) = seek_end0 (suffix r) /\ ok (i_seek_end 0 r)) /\
  (forall b e, sfx b (suffix r) -> sfx e b -> i_getstr (place r b) (place r e) r = getstr b e).
Proof.
  intros r H. split; [|split; [|split]].
  - intros c Hc. destruct (suffix_sfx r c H Hc) as [K1 K2]. split; auto. split; cbn; [destruct H; auto|auto].
  - intros k. exact (seek_cur_ok k r H).
  - exact (seek_end_ok _ r H (le_n _)).
  - intros b e Hb He. destruct (suffix_sfx r b H Hb) as [K1 K2]. unfold i_getstr. rewrite getstr_ok; [|auto|destruct H; auto].
    rewrite <- K1. cbn [app]. unfold getstr. f_equal. unfold place.
    pose proof (sfx_clen _ _ Hb) as L1. pose proof (sfx_clen _ _ He) as L2. rewrite (suffix_clen _ r H (le_n _)) in L1. destruct H. lia.
Qed.
Print Assumptions C48_seeking.
Example C48_case : ok (init_reader [T "let x ="; T "  \ 1"; T "y"]) /\
  length (sr_buf (init_reader [T "let x ="; T "  \ 1"; T "y"])) = 12%nat.
Proof. split; [apply init_ok|vm_compute; reflexivity]. Qed.

(** C22: for every history of requests, the tokens, the error and the final place are the
    same as without the cache. *)
Theorem C22_cache : forall lines i h,
  let r := init_reader lines in
  (i <= length (sr_buf r))%nat ->
  Forall (fun q => match q with QSeek j => (j <= length (sr_buf r))%nat | _ => True end) h ->
  run_cached h [] (i_seek_set i r) = run_plain h r i.
Proof.
  intros lines i h r Hi Hh. apply cache_transparent; auto. apply init_ok. intros k j t H. discriminate.
Qed.
Print Assumptions C22_cache.
Example C22_case : exists ts, run_cached [QPeek; QGet; QGet; QSeek 0; QGet; QPeek] [] (init_reader [T "f( 1.5 )"]) = Ok (ts, 1%nat) /\
  map tv ts = [T "f"; T "f"; T "("; T "f"; T "("].
Proof. eexists. split; vm_compute; reflexivity. Qed.
