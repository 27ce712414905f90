(** C71: the command line tool and an os.Stdout on which writes can fail. *)
From Coq Require Import Lia ZifyBool ZifyNat ZifyN.
From Verif Require Import Base Utf8 Reader Vnode Ast Api Compiler CompilerObj Cli CliOut LinesProof ApiFile Nodes PropOut PropTool ObjProof PropObj PrintBack.

(** What os.File says of Write: it takes no more than it is given, and returns an error if it
    takes less. *)
Definition keeps_contract (dev : device) : Prop :=
  forall k bs, (fst (dev k bs) <= length bs)%nat /\ (snd (dev k bs) = false -> fst (dev k bs) = length bs).
(** A device on which everything can be written. *)
Definition never_fails (dev : device) : Prop := forall k bs, dev k bs = (length bs, false).

(** One file: [s] and [e] are the output and the complaint with a device that never fails. *)
Inductive written_file (dev : device) (s : text) : option complaint -> list N -> option complaint -> Prop :=
| wf_bad e : written_file dev s (Some e) [] (Some e)
| wf_done : written_file dev s None (encode s) None
| wf_cut t rest : encode s = t ++ rest -> written_file dev s None t (Some CWrite).

Lemma one_out json fl f src dev k : keeps_contract dev ->
  exists s e calls e', cli_parse json fl f src = Ok (s, e) /\ parse_out json fl f src (dev k) = Ok (calls, e') /\ (e <> None -> s = []) /\
    written_file dev s e (landed (dev k) calls) e' /\
    (never_fails dev -> e' = e).
Proof.
  intros Hd. unfold cli_parse, parse_out. destruct (ParseFile src f (Some (mkOption (f_neovim fl)))) as [n|e|] eqn:E.
  - destruct (f_json fl).
    + destruct (json n) as [s|].
      * exists s, None, [encode s], (if snd (dev k (encode s)) then Some CWrite else None). do 2 (split; [reflexivity|]). split; [congruence|].
        unfold landed. cbn [flat_map]. rewrite app_nil_r. destruct (Hd k (encode s)) as [H1 H2]. destruct (snd (dev k (encode s))) eqn:Es.
        -- split; [apply wf_cut with (rest := skipn (fst (dev k (encode s))) (encode s)); symmetry; apply firstn_skipn|].
           intros Nf. rewrite Nf in Es. discriminate.
        -- rewrite (H2 eq_refl), firstn_all. split; [apply wf_done|reflexivity].
      * exists [], (Some CWrite), [], (Some CWrite). do 2 (split; [reflexivity|]). split; [reflexivity|]. split; [apply wf_bad|reflexivity].
    + destruct src as [bs b].
      assert (A : accepted bs b f n) by (left; exists (Some (mkOption (f_neovim fl))); exact E).
      destruct (C29_compile_total (T "  ") bs b f n A) as [out [n' K]].
      destruct (C65_accepted (T "  ") (new_compiler (T "  ")) (dev k) bs b f n (us_new _) A) as [_ [r [K' S]]].
      rewrite K in K'. injection K' as <-. rewrite S, K. cbn [bind c_err c_out]. unfold write_to.
      destruct (encode out) as [|x l] eqn:Eo.
      * exists out, None, [], None. do 2 (split; [reflexivity|]). split; [congruence|]. split; [|reflexivity]. unfold landed. cbn [flat_map]. rewrite <- Eo. apply wf_done.
      * rewrite <- Eo. destruct (Hd k (encode out)) as [H1 H2]. destruct (dev k (encode out)) as [m err] eqn:Ed. cbn [fst snd] in H1, H2.
        replace (length (encode out) <? m)%nat with false by lia. destruct err.
        -- exists out, None, [encode out], (Some CWrite). do 2 (split; [reflexivity|]). split; [congruence|]. unfold landed. cbn [flat_map]. rewrite app_nil_r, Ed. cbn [fst].
           split; [apply wf_cut with (rest := skipn m (encode out)); symmetry; apply firstn_skipn|]. intros Nf. rewrite Nf in Ed. discriminate.
        -- specialize (H2 eq_refl). subst m. rewrite Nat.eqb_refl. exists out, None, [encode out], None. do 2 (split; [reflexivity|]). split; [congruence|].
           unfold landed. cbn [flat_map]. rewrite app_nil_r, Ed. cbn [fst]. rewrite firstn_all. split; [apply wf_done|reflexivity].
  - exists [], (Some (CParse e)), [], (Some (CParse e)). do 2 (split; [reflexivity|]). split; [reflexivity|]. split; [apply wf_bad|reflexivity].
  - exfalso. destruct (ParseFile_cases src f (Some (mkOption (f_neovim fl)))) as [[v [p [b [_ [_ H]]]]]|[[m [s [_ H]]]|[k0 [_ H]]]]; congruence.
Qed.

Definition said (e : option complaint) : list complaint := match e with None => [] | Some e => [e] end.
(** The files one after the other: for each its output and complaint with a device that never
    fails, what got onto the device, and the complaint. *)
Record report := mkReport { want_out : text; want_err : option complaint; got_out : list N; got_err : option complaint }.
Definition reported (json : node -> option text) (fl : flags) (w : world) (dev : device) (f : list N) (x : report) : Prop :=
  handled json fl w f (want_out x) (want_err x) /\ written_file dev (want_out x) (want_err x) (got_out x) (got_err x) /\
  (never_fails dev -> got_err x = want_err x).
Lemma files_reports json fl w dev : keeps_contract dev -> forall files first acc acc',
  exists rs r0 r, Forall2 (reported json fl w dev) files rs /\
    cli_files json fl w first files acc' = Ok r0 /\ files_out json fl w dev first files acc = Ok r /\
    y_out r = y_out acc ++ flat_map got_out rs /\ y_err r = y_err acc ++ flat_map (fun x => said (got_err x)) rs /\
    y_status r = (match flat_map (fun x => said (got_err x)) rs with [] => y_status acc | _ => 1 end) /\
    x_out r0 = x_out acc' ++ flat_map want_out rs /\ x_err r0 = x_err acc' ++ flat_map (fun x => said (want_err x)) rs /\
    x_status r0 = (match flat_map (fun x => said (want_err x)) rs with [] => x_status acc' | _ => 1 end) /\
    (y_usage acc = x_usage acc' -> y_usage r = x_usage r0).
Proof.
  intros Hd. induction files as [|f files IH]; intros first acc acc'.
  - exists [], acc', acc. cbn [flat_map cli_files files_out]. rewrite !app_nil_r. split; [constructor|]. repeat split; auto.
  - cbn [cli_files files_out]. destruct (w_open w f) as [src|] eqn:E.
    + destruct (one_out json fl f src dev (y_calls acc) Hd) as [s [e [calls [e' [E1 [E2 [Hs [Hw Hn]]]]]]]].
      destruct (cli_parse_handled json fl w f src E) as [s' [e0 [E1' Hh]]]. rewrite E1 in E1'. injection E1' as <- <-.
      rewrite E1, E2. cbn [bind].
      match goal with |- context [cli_files _ _ _ false files ?a] => match goal with |- context [files_out _ _ _ _ false files ?b] => destruct (IH false b a) as [rs [r0 [r [K1 [K2 [K3 [K4 [K5 [K6 [K7 [K8 [K9 K10]]]]]]]]]]]] end end.
      exists (mkReport s e (landed (dev (y_calls acc)) calls) e' :: rs), r0, r. split; [constructor; [split; [exact Hh|split; [exact Hw|exact Hn]]|exact K1]|].
      split; [exact K2|]. split; [exact K3|]. cbn [flat_map got_out got_err want_out want_err].
      unfold after_calls in K4, K5, K6, K10. cbn [y_out y_err y_status y_usage] in K4, K5, K6, K10. rewrite K4, K5, K6, K7, K8, K9. rewrite <- !app_assoc.
      split; [reflexivity|]. split; [destruct e'; reflexivity|]. split; [destruct e'; cbn [said app]; [match goal with |- context [match flat_map ?g rs with _ => _ end] => destruct (flat_map g rs) end; reflexivity|reflexivity]|].
      split; [destruct e as [e|]; cbn [x_out]; rewrite <- app_assoc; reflexivity|].
      split; [destruct e as [e|]; cbn [x_err said app]; rewrite <- ?app_assoc; reflexivity|].
      split; [destruct e as [e|]; cbn [x_status said app]; [match goal with |- context [match flat_map ?g rs with _ => _ end] => destruct (flat_map g rs) end; reflexivity|reflexivity]|].
      intros U. apply K10. destruct e; exact U.
    + match goal with |- context [cli_files _ _ _ false files ?a] => match goal with |- context [files_out _ _ _ _ false files ?b] => destruct (IH false b a) as [rs [r0 [r [K1 [K2 [K3 [K4 [K5 [K6 [K7 [K8 [K9 K10]]]]]]]]]]]] end end.
      exists (mkReport [] (Some (COpen f)) [] (Some (COpen f)) :: rs), r0, r. split; [constructor; [split; [apply h_open; exact E|split; [apply wf_bad|reflexivity]]|exact K1]|].
      split; [exact K2|]. split; [exact K3|]. cbn [flat_map got_out got_err want_out want_err said app].
      cbn [y_out y_err y_status y_usage x_out x_err x_status x_usage] in *. rewrite K4, K5, K6, K7, K8, K9. rewrite <- !app_assoc.
      split; [reflexivity|]. split; [reflexivity|]. split; [match goal with |- context [match flat_map ?g rs with _ => _ end] => destruct (flat_map g rs) end; reflexivity|]. split; [reflexivity|]. split; [reflexivity|].
      split; [match goal with |- context [match flat_map ?g rs with _ => _ end] => destruct (flat_map g rs) end; reflexivity|]. intros U. apply K10. rewrite U. reflexivity.
Qed.
Lemma encode_flat {A} (f : A -> text) l : encode (flat_map f l) = flat_map (fun x => encode (f x)) l.
Proof. induction l as [|x l IH]; [reflexivity|]. cbn [flat_map]. rewrite encode_app, IH. reflexivity. Qed.

(** C71: every file is handled, in order, also after a write has failed. What gets onto
    os.Stdout is for every file a first part of its output. The complaints are those of C40,
    and one for every output that the device did not take. The status is 0 if and only if
    there is no complaint. *)
Theorem C71_all_files : forall json fl w dev args, keeps_contract dev -> args <> [] ->
  exists r rs, main_out json fl w dev args = Ok r /\ Forall2 (reported json fl w dev) args rs /\
    y_out r = flat_map got_out rs /\ y_err r = flat_map (fun x => said (got_err x)) rs /\
    (y_status r = 0 \/ y_status r = 1) /\ (y_status r = 0 <-> y_err r = []).
Proof.
  intros json fl w dev args Hd Ha. destruct (files_reports json fl w dev Hd args true (mkOut 0 [] [] false 0) (mkCli 0 [] [] false))
    as [rs [r0 [r [K1 [K2 [K3 [K4 [K5 [K6 _]]]]]]]]]. destruct args as [|f args]; [congruence|]. exists r, rs. split; [exact K3|]. split; [exact K1|].
  cbn [y_out y_err y_status app] in *. split; [exact K4|]. split; [exact K5|]. rewrite K5, K6. destruct (flat_map (fun x => said (got_err x)) rs); (split; [auto|]; split; [auto|]); try discriminate; auto.
Qed.
Print Assumptions C71_all_files.

(** Status 0 means that the whole output is there. *)
Theorem C71_complete : forall json fl w dev args r, keeps_contract dev -> main_out json fl w dev args = Ok r -> y_status r = 0 ->
  exists r0, cli_main json fl w args = Ok r0 /\ x_status r0 = 0 /\ x_err r0 = [] /\ y_err r = [] /\ y_out r = encode (x_out r0).
Proof.
  intros json fl w dev args r Hd E Hs. destruct args as [|f args].
  - unfold main_out, cli_main in *. destruct (one_out json fl [] (w_stdin w) dev 0 Hd) as [s [e [calls [e' [E1 [E2 [Hz [Hw Hn]]]]]]]]. rewrite E2 in E. rewrite E1. cbn [bind] in *.
    injection E as <-. unfold after_calls in *. cbn [y_status y_err y_out] in *. destruct e' as [e'|]; [discriminate|].
    inversion Hw; subst. eexists. split; [reflexivity|]. cbn. auto.
  - destruct (files_reports json fl w dev Hd (f :: args) true (mkOut 0 [] [] false 0) (mkCli 0 [] [] false))
      as [rs [r0 [r' [K1 [K2 [K3 [K4 [K5 [K6 [K7 [K8 [K9 _]]]]]]]]]]]]. unfold main_out in E. rewrite K3 in E. injection E as ->.
    cbn [y_out y_err y_status x_out x_err x_status app] in *. rewrite K6 in Hs.
    assert (Hq : flat_map (fun x => said (got_err x)) rs = []) by (destruct (flat_map (fun x => said (got_err x)) rs); [reflexivity|discriminate]).
    assert (G : flat_map (fun x => said (want_err x)) rs = [] /\ flat_map got_out rs = flat_map (fun x => encode (want_out x)) rs).
    { clear - K1 Hq. induction K1 as [|g x gs xs [_ [Hx _]] H IH]; [auto|]. cbn [flat_map] in *. apply app_eq_nil in Hq. destruct Hq as [Q1 Q2].
      destruct (IH Q2) as [I1 I2]. rewrite I1, I2. destruct x as [a b c d]. cbn [want_out want_err got_out got_err] in *. inversion Hx; subst; cbn in Q1; try discriminate. auto. }
    destruct G as [G1 G2]. exists r0. split; [exact K2|]. rewrite K9, K8, K5, K4, K7, G1, Hq, G2, encode_flat. auto.
Qed.
Print Assumptions C71_complete.

(** With a device that never fails this is the tool of C40. *)
Theorem C71_never_fails : forall json fl w dev args, never_fails dev ->
  exists r r0, main_out json fl w dev args = Ok r /\ cli_main json fl w args = Ok r0 /\
    y_status r = x_status r0 /\ y_out r = encode (x_out r0) /\ y_err r = x_err r0 /\ y_usage r = x_usage r0.
Proof.
  intros json fl w dev args Nf. assert (Hd : keeps_contract dev) by (intros k bs; rewrite Nf; cbn; auto).
  destruct args as [|f args].
  - unfold main_out, cli_main in *. destruct (one_out json fl [] (w_stdin w) dev 0 Hd) as [s [e [calls [e' [E1 [E2 [Hz [Hw Hn]]]]]]]]. rewrite E2, E1. cbn [bind].
    do 2 eexists. split; [reflexivity|]. split; [reflexivity|]. specialize (Hn Nf). subst e'. unfold after_calls. cbn [y_status y_err y_out y_usage].
    destruct e as [e|]; cbn [x_status x_out x_err x_usage app].
    + inversion Hw; subst. rewrite (Hz ltac:(discriminate)). auto.
    + inversion Hw; subst. auto.
  - destruct (files_reports json fl w dev Hd (f :: args) true (mkOut 0 [] [] false 0) (mkCli 0 [] [] false))
      as [rs [r0 [r [K1 [K2 [K3 [K4 [K5 [K6 [K7 [K8 [K9 K10]]]]]]]]]]]].
    exists r, r0. split; [exact K3|]. split; [exact K2|]. cbn [y_out y_err y_status x_out x_err x_status y_usage x_usage app] in *.
    assert (G : flat_map (fun x => said (want_err x)) rs = flat_map (fun x => said (got_err x)) rs /\ flat_map got_out rs = flat_map (fun x => encode (want_out x)) rs).
    { clear - K1 Nf. induction K1 as [|g x gs xs [Hh [Hx Hn]] H [I1 I2]]; [auto|]. cbn [flat_map]. rewrite I1, I2, (Hn Nf). destruct x as [a b c d]. cbn [want_out want_err got_out got_err] in *.
      specialize (Hn Nf). subst d. split; [reflexivity|]. f_equal. inversion Hx; subst; auto. inversion Hh; subst; reflexivity. }
    destruct G as [G1 G2]. rewrite K4, K5, K6, K7, K8, K9, G1, G2, encode_flat. auto.
Qed.
Print Assumptions C71_never_fails.

(** A device that takes ten bytes in all. *)
Definition ten_bytes : device := fun k bs =>
  match k with
  | O => (length (firstn 10 bs), Nat.ltb 10 (length bs))
  | _ => (O, Nat.ltb 0 (length bs))
  end.
Example C71_case : keeps_contract ten_bytes /\ exists r, main_out (fun _ => None) (mkFlags false false) two_files ten_bytes [T "a"; T "a"; T "b"] = Ok r /\
  y_status r = 1 /\ y_out r = T "(echo 1)" ++ [10] /\ length (y_err r) = 2%nat /\
  exists r1, main_out (fun _ => None) (mkFlags false false) two_files ten_bytes [T "a"] = Ok r1 /\ y_status r1 = 0.
Proof.
  split.
  - intros [|k] bs; unfold ten_bytes; cbn [fst snd]; rewrite ?firstn_length; lia.
  - eexists. split; [vm_compute; reflexivity|]. split; [reflexivity|]. split; [vm_compute; reflexivity|]. split; [reflexivity|]. eexists. split; vm_compute; reflexivity.
Qed.
(** The contract is needed: json.Encoder does not look at the count. *)
Theorem C71_contract_refuted : exists json dev r r0, main_out json (mkFlags false true) two_files dev [T "a"] = Ok r /\
  cli_main json (mkFlags false true) two_files [T "a"] = Ok r0 /\ y_status r = 0 /\ y_out r <> encode (x_out r0).
Proof. exists (fun _ => Some (T "{}")), (fun _ _ => (O, false)). do 2 eexists. split; [vm_compute; reflexivity|]. split; [vm_compute; reflexivity|]. split; [reflexivity|]. vm_compute. discriminate. Qed.
Print Assumptions C71_contract_refuted.
