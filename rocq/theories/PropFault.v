(** Property theorems about error reports. *)
From Coq Require Import Lia ZifyBool ZifyNat ZifyN.
From Verif Require Import Base Utf8 CharClass Reader Vnode CmdTable CmdParser Cursor Grammar Script Fault Ast Api ApiExpr ApiFile.

(** C58: when ParseFile fails with a position and a message, [report] holds of the place at
    this position and of the message: what the message says is true of the text there.
    [Fault] lists the messages and what each of them says; where a message names a token that
    cannot stand there, it also tells what is due at this place and why. *)
Theorem C58_file_report src file opt f off line col msg :
  ParseFile src file opt = Failed (ErrVimlParser f off line col msg) ->
  exists s, sfx s (open_source src) /\ off = p_i (getpos s) /\ line = p_lnum (getpos s) /\ col = p_col (getpos s) /\
    report (neovim_of opt) (open_source src) s msg.
Proof. exact (ParseFile_fault src file opt f off line col msg). Qed.
Print Assumptions C58_file_report.

(** The same for ParseExpr. *)
Theorem C58_expr_report src f off line col msg :
  ParseExpr src = Failed (ErrVimlParser f off line col msg) ->
  exists s, sfx s (open_source src) /\ off = p_i (getpos s) /\ line = p_lnum (getpos s) /\ col = p_col (getpos s) /\
    expr_fault (open_source src) (expr_start (open_source src)) s msg.
Proof. exact (ParseExpr_fault src f off line col msg). Qed.
Print Assumptions C58_expr_report.

(** A text whose :if is not closed, a command inside the wrong block, an unknown command, a
    name that is not a call, and a bad operand. *)
Definition nl := [10].
Example C58_case_open : ParseFile (mkSource (T "if x" ++ nl ++ T "echo 1" ++ nl) false) [] None =
  Failed (ErrVimlParser [] 12 3 0 (T "E171: Missing :endif:    TOPLEVEL")).
Proof. vm_compute. reflexivity. Qed.
Example C58_case_inside : ParseFile (mkSource (T "while x" ++ nl ++ T " endif" ++ nl) false) [] None =
  Failed (ErrVimlParser [] 9 2 2 (T "E580: :endif without :if")).
Proof. vm_compute. reflexivity. Qed.
Example C58_case_unknown : ParseFile (mkSource (T "echo 1" ++ nl ++ T "  frobnicate x" ++ nl) false) [] None =
  Failed (ErrVimlParser [] 9 2 3 (T "E492: Not an editor command: frobnicate x")).
Proof. vm_compute. reflexivity. Qed.
Example C58_case_call : ParseFile (mkSource (T "call x" ++ nl) false) [] None =
  Failed (ErrVimlParser [] 5 1 6 (T "Not an function call")).
Proof. vm_compute. reflexivity. Qed.
Example C58_case_operand : ParseExpr (mkSource (T "1 + * 2") false) =
  Failed (ErrVimlParser [] 4 1 5 (T "unexpected token: *")).
Proof. vm_compute. reflexivity. Qed.

(** What some of the messages say, without the list. *)

(** C58: E492 names a command that no entry of the command table and no user command is
    written like; the text before it is a script with the blocks [ks] still open. *)
Theorem C58_unknown_command src file opt f off lnum col line :
  ParseFile src file opt = Failed (ErrVimlParser f off lnum col (T "E492: Not an editor command: " ++ line)) ->
  exists w e ks s, pending (neovim_of opt) (open_source src) w e ks /\ command_at e s /\
    p_i (getpos s) = off /\ p_lnum (getpos s) = lnum /\ p_col (getpos s) = col /\ rest_of s line /\ forall u x, ~ resolves (neovim_of opt) line u x.
Proof.
  intros H. destruct (ParseFile_fault _ _ _ _ _ _ _ _ H) as [s [_ [-> [-> [-> K]]]]].
  remember (T "E492: Not an editor command: " ++ line) as m eqn:Em.
  destruct K as [m K|w e ks l H1 H2 H3 H4| | |w e ks a d c ea P m _ _ _ K|w e ks a b d c ea P m _ _ _ K| |w e ks k m _ _ _ K].
  - destruct K as [m K| | | | | | | | | | | | | | |]; try discriminate Em. destruct K; discriminate Em.
  - apply app_inv_head in Em. subst l. exists w, e, ks, s. auto 10.
  - discriminate Em.
  - discriminate Em.
  - destruct K as [| | | | | | | | | | | | |k m _ K]; try discriminate Em. destruct K; discriminate Em.
  - destruct K; discriminate Em.
  - discriminate Em.
  - destruct K; discriminate Em.
Qed.
Print Assumptions C58_unknown_command.

(** The message for a block that is not closed at the end of the text. *)
Definition lacks (k : blockkind) : text :=
  match k with
  | BkFunction => T "E126: Missing :endfunction"
  | BkIf | BkElse => T "E171: Missing :endif"
  | BkTry | BkFinally => T "E600: Missing :endtry"
  | BkWhile => T "E170: Missing :endwhile"
  | BkFor => T "E170: Missing :endfor"
  end ++ T ":    TOPLEVEL".

(** C58: such a message tells which block is open at the end of the text. *)
Theorem C58_open_block src file opt f off lnum col k :
  ParseFile src file opt = Failed (ErrVimlParser f off lnum col (lacks k)) ->
  exists w e k' ks s, pending (neovim_of opt) (open_source src) w e (k' :: ks) /\ lacks k' = lacks k /\
    gap e s /\ is_eof s = true /\ p_i (getpos s) = off /\ p_lnum (getpos s) = lnum /\ p_col (getpos s) = col.
Proof.
  intros H. destruct (ParseFile_fault _ _ _ _ _ _ _ _ H) as [s [_ [-> [-> [-> K]]]]].
  remember (lacks k) as m eqn:Em.
  destruct K as [m K| | | |w e ks a d c ea P m _ _ _ K|w e ks a b d c ea P m _ _ _ K|w e ks H1 H2 H3|w e ks k' m H1 H2 H3 K].
  - destruct K as [m K| | | | | | | | | | | | | | |]; try (destruct k; discriminate Em). destruct K; destruct k; discriminate Em.
  - destruct k; discriminate Em.
  - destruct k; discriminate Em.
  - destruct k; discriminate Em.
  - destruct K as [| | | | | | | | | | | | |k' m _ K]; try (destruct k; discriminate Em). destruct K; destruct k; discriminate Em.
  - destruct K; destruct k; discriminate Em.
  - exists w, e, BkFunction, ks, s. split; [auto|]. split; [reflexivity|]. auto 10.
  - exists w, e, k', ks, s. split; [auto|]. split; [|auto 10].
    destruct K as [k' [<-|[<-|[]]]|k' [<-|[<-|[]]]| |]; reflexivity.
Qed.
Print Assumptions C58_open_block.
Example C58_open_block_case : lacks BkElse = T "E171: Missing :endif:    TOPLEVEL" /\
  ParseFile (mkSource (T "if x" ++ nl ++ T "else" ++ nl ++ T "for i in l" ++ nl ++ T "endfor" ++ nl) false) [] None =
  Failed (ErrVimlParser [] 28 5 0 (lacks BkElse)).
Proof. split; vm_compute; reflexivity. Qed.

(** C58: a command that ends or continues a block is refused only where the innermost open
    block is of another kind. *)
Definition out_of_place : list (text * text * list blockkind) :=
  [ (T "parse_cmd_elseif", T "E582: :elseif without :if", [BkIf]);
    (T "parse_cmd_else", T "E581: :else without :if", [BkIf]);
    (T "parse_cmd_endif", T "E580: :endif without :if", [BkIf; BkElse]);
    (T "parse_cmd_endwhile", T "E588: :endwhile without :while", [BkWhile]);
    (T "parse_cmd_endfor", T "E588: :endfor without :for", [BkFor]);
    (T "parse_cmd_catch", T "E603: :catch without :try", [BkTry; BkFinally]);
    (T "parse_cmd_finally", T "E606: :finally without :try", [BkTry]);
    (T "parse_cmd_endtry", T "E602: :endtry without :try", [BkTry; BkFinally]) ].
Theorem C58_block_command src file opt f off lnum col P msg allowed :
  In (P, msg, allowed) out_of_place ->
  ParseFile src file opt = Failed (ErrVimlParser f off lnum col msg) ->
  exists w e ks a s d c ea, pending (neovim_of opt) (open_source src) w e ks /\ gap e a /\
    head (neovim_of opt) P a s d c ea /\ (forall k, hd_error ks = Some k -> ~ In k allowed) /\
    p_i (getpos s) = off /\ p_lnum (getpos s) = lnum /\ p_col (getpos s) = col.
Proof.
  intros Hin H. destruct (ParseFile_fault _ _ _ _ _ _ _ _ H) as [s [_ [-> [-> [-> K]]]]]. clear H.
  assert (Hm : In msg (map (fun x => snd (fst x)) out_of_place)) by (apply in_map_iff; exists (P, msg, allowed); auto).
  destruct K as [m K| | | |w e ks a d c ea Q m H1 H2 H3 K|w e ks a b d c ea Q m _ _ _ K|w e ks H1 H2 H3|w e ks k' m H1 H2 H3 K].
  - exfalso. clear Hin. destruct K as [m K| | | | | | | | | | | | | | |]; [destruct K|..]; cbn in Hm;
      repeat (destruct Hm as [Hm|Hm]; [discriminate Hm|]); exact Hm.
  - exfalso. cbn in Hm. repeat (destruct Hm as [Hm|Hm]; [discriminate Hm|]); exact Hm.
  - exfalso. cbn in Hm. repeat (destruct Hm as [Hm|Hm]; [discriminate Hm|]); exact Hm.
  - exfalso. cbn in Hm. repeat (destruct Hm as [Hm|Hm]; [discriminate Hm|]); exact Hm.
  - assert (G : Q = P /\ forall k, hd_error ks = Some k -> ~ In k allowed).
    { clear - Hin K. unfold innermost in *. cbn [In out_of_place] in Hin.
      repeat (destruct Hin as [Hin|Hin]; [injection Hin as <- <- <-|]); try contradiction;
        inversion K; subst; try (match goal with X : missing _ _ |- _ => destruct X; discriminate end); (split; [reflexivity|]); cbn [In]; intros k0 K0 K1; intuition congruence. }
    destruct G as [-> G]. exists w, e, ks, a, s, d, c, ea. auto 10.
  - exfalso. clear Hin. destruct K; cbn in Hm; repeat (destruct Hm as [Hm|Hm]; [discriminate Hm|]); exact Hm.
  - exfalso. cbn in Hm. repeat (destruct Hm as [Hm|Hm]; [discriminate Hm|]); exact Hm.
  - exfalso. clear Hin. destruct K; cbn in Hm; repeat (destruct Hm as [Hm|Hm]; [discriminate Hm|]); exact Hm.
Qed.
Print Assumptions C58_block_command.
Example C58_block_command_case : In (T "parse_cmd_endif", T "E580: :endif without :if", [BkIf; BkElse]) out_of_place /\
  ParseFile (mkSource (T "while x" ++ nl ++ T " endif" ++ nl) false) [] None =
  Failed (ErrVimlParser [] 9 2 2 (T "E580: :endif without :if")).
Proof. split; [cbn; auto|vm_compute; reflexivity]. Qed.
