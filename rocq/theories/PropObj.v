(** Property theorems: a Compiler that is used again, and writers that fail. *)
From Coq Require Import Lia.
From Verif Require Import Base Utf8 Reader Vnode Token Ast Export Api Nodes Compiler Printer CompilerObj ObjProof PropOut.

(** A Compiler after any calls of Compile that returned, with any nodes and any writers. *)
Definition returns (e : effect) : Prop := match snd e with Panicked _ | Endless => False | _ => True end.
Inductive used (c : compiler) : compiler -> Prop :=
| us_new : used c c
| us_call c' w n : used c c' -> returns (snd (compiler_compile c' w n)) -> used c (fst (compiler_compile c' w n)).

(** C65: what a call does is what it does on a new Compiler. *)
Theorem C65_reuse : forall unit c w n, used (new_compiler unit) c ->
  snd (compiler_compile c w n) = snd (compiler_compile (new_compiler unit) w n).
Proof.
  intros unit c w n U. assert (K : o_unit c = unit /\ k_indent (o_state c) = 0%nat).
  { induction U as [|c' w' n' _ [IH1 IH2] R]; [auto|]. pose proof (call_result c' w' n') as H. cbv zeta in H.
    destruct (comp _ _ n' []) as [[[b e] x]|e|k|]; [rewrite H; auto|rewrite H in R; contradiction R..]. }
  destruct K as [K1 K2]. pose proof (call_result c w n) as H. pose proof (call_result (new_compiler unit) w n) as H'.
  cbv zeta in H, H'. rewrite K1, K2 in H. cbn [new_compiler o_unit o_state k_indent] in H'.
  destruct (comp unit 0 n []) as [[[b e] x]|e|k|]; rewrite H, H'; reflexivity.
Qed.
Print Assumptions C65_reuse.
(** All trees returned by ParseFile and ParseExpr can be in such a history, and the call gives
    what C29 to C33 say. *)
Theorem C65_accepted : forall unit c w bs fails file root, used (new_compiler unit) c -> accepted bs fails file root ->
  used (new_compiler unit) (fst (compiler_compile c w root)) /\
  exists r, compile_with unit root = Ok r /\ snd (compiler_compile c w root) = write_to w (encode (c_out r)).
Proof.
  intros unit c w bs fails file root U A. destruct (C29_compile_total unit bs fails file root A) as [out [root' E]].
  assert (S : snd (compiler_compile c w root) = write_to w (encode out)).
  { rewrite (C65_reuse unit c w root U). pose proof (call_result (new_compiler unit) w root) as H. cbv zeta in H. cbn [new_compiler o_unit o_state k_indent] in H.
    unfold compile_with in E. destruct (comp unit 0 root []) as [[[b e] x]|e|k|]; cbn [bind] in E; try discriminate E. injection E as E1 -> ->. subst b. rewrite H. reflexivity. }
  split; [|eexists; split; [exact E|exact S]]. apply us_call; [exact U|]. rewrite S. unfold returns, write_to.
  destruct (encode out); [exact I|]. destruct (w _) as [m err]. cbn [snd]. destruct (_ <? _)%nat; [exact I|]. destruct err; [exact I|]. destruct (_ =? _)%nat; exact I.
Qed.
Print Assumptions C65_accepted.
(** After a panic that is recovered by the caller, the indentation stays: here in a tree
    made by hand, with a :call without command in the body of an :if. *)
Definition C65_ea (c : option cmd) : aexarg :=
  mkAEa false [] 0 false 0 0 0 [] [] [] None None None c [] [].
Definition C65_pos : apos := mkAPos 0 1 1 [].
Definition C65_bad : node := NIf C65_pos (C65_ea (Some (mkCmd (T "if") 2 [] []))) [NBreak C65_pos (C65_ea None)] None [] None None.
Theorem C65_panic_refuted : exists c n, c = fst (compiler_compile (new_compiler (T "  ")) (fun bs => (length bs, false)) C65_bad) /\
  snd (compiler_compile (new_compiler (T "  ")) (fun bs => (length bs, false)) C65_bad) = ([], Panicked PNil) /\
  snd (compiler_compile c (fun bs => (length bs, false)) n) <> snd (compiler_compile (new_compiler (T "  ")) (fun bs => (length bs, false)) n).
Proof. eexists. exists (NComment C65_pos []). split; [reflexivity|]. split; [vm_compute; reflexivity|]. vm_compute. discriminate. Qed.
Print Assumptions C65_panic_refuted.
(** A history: a file with blocks, a node that is rejected, and a writer that fails. *)
Definition C65_one : compiler := fst (compiler_compile (new_compiler (T "  ")) (fun bs => (1%nat, false)) (NEndIf C65_pos (C65_ea None))).
Definition C65_two : compiler := fst (compiler_compile C65_one (fun bs => (1%nat, false))
  (NWhile C65_pos (C65_ea (Some (mkCmd (T "while") 2 [] []))) [NEndIf C65_pos (C65_ea None)] None None)).
Definition C65_three : compiler := fst (compiler_compile C65_two (fun bs => (1%nat, true)) (NComment C65_pos (T "x"))).
Example C65_case : exists n, accepted (T "if x|try|echo 1|catch /E/|finally|echo 2|endtry|else|echo 3|endif") false [] n /\
  used (new_compiler (T "  ")) C65_three /\ k_buffer (o_state C65_three) <> [] /\
  snd (snd (compiler_compile C65_three (fun bs => (length bs, false)) n)) = Nil.
Proof.
  eexists. split; [left; exists None; vm_compute; reflexivity|]. split; [|split; [vm_compute; discriminate|vm_compute; reflexivity]].
  unfold C65_three. apply us_call; [|vm_compute; exact I]. unfold C65_two. apply us_call; [|vm_compute; exact I].
  unfold C65_one. apply us_call; [|vm_compute; exact I]. apply us_new.
Qed.

(** C66: the output is handed to the writer in one piece and only if there is no error. The
    call returns nil exactly if the node could be compiled and the writer took all of it. *)
Theorem C66_compile : forall unit w n r, compile_with unit n = Ok r -> exists calls e,
  snd (compiler_compile (new_compiler unit) w n) = (calls, e) /\ (length calls <= 1)%nat /\ concat calls = encode (c_out r) /\
  (e = Nil <-> c_err r = false /\ Forall (fun bs => w bs = (length bs, false)) calls).
Proof.
  intros unit w n r E. pose proof (call_result (new_compiler unit) w n) as H. cbv zeta in H. cbn [new_compiler o_unit o_state k_indent] in H.
  unfold compile_with in E. destruct (comp unit 0 n []) as [[[b e] x]|e|k|]; cbn [bind] in E; try discriminate E. injection E as <-.
  rewrite H. cbn [snd c_out c_err]. destruct e.
  - do 2 eexists. split; [reflexivity|]. cbn. repeat split; auto; intros; [discriminate|destruct H0; discriminate].
  - unfold write_to. destruct (encode b) as [|y l] eqn:Eb.
    + do 2 eexists. split; [reflexivity|]. cbn. repeat split; auto.
    + destruct (w (y :: l)) as [m err] eqn:Ew. do 2 eexists. split; [reflexivity|]. cbn [concat length]. rewrite app_nil_r. repeat split; auto.
      * constructor; [|constructor]. rewrite Ew. revert H0. destruct (_ <? m)%nat; [discriminate|]. destruct err; [discriminate|].
        destruct (m =? S (length l))%nat eqn:Em; [|discriminate]. apply PeanoNat.Nat.eqb_eq in Em. subst m. reflexivity.
      * intros [_ F]. inversion F as [|? ? F1 _]. subst. rewrite Ew in F1. injection F1 as -> ->.
        cbn [length]. rewrite PeanoNat.Nat.ltb_irrefl, PeanoNat.Nat.eqb_refl. reflexivity.
Qed.
Print Assumptions C66_compile.
(** Fprint does not look at the count; a writer that keeps the contract of io.Writer returns
    an error if it does not take all. *)
Definition honest (w : writer) : Prop := forall bs m, w bs = (m, false) -> m = length bs.
Theorem C66_fprint : forall w n s, honest w -> Fprint n = Ok (Printed s) -> exists e,
  fprint_to w n = ([encode s], e) /\ (e = Nil <-> w (encode s) = (length (encode s), false)).
Proof.
  intros w n s H E. unfold fprint_to. rewrite E. destruct (w (encode s)) as [m err] eqn:Ew. cbn [snd].
  eexists. split; [reflexivity|]. destruct err; [split; [discriminate|intros K; discriminate K]|].
  split; [|reflexivity]. intros _. rewrite (H _ _ Ew). reflexivity.
Qed.
Print Assumptions C66_fprint.
Theorem C66_fprint_silent : forall w n, (forall s, Fprint n <> Ok (Printed s)) -> fst (fprint_to w n) = [] /\ snd (fprint_to w n) <> Nil.
Proof.
  intros w n H. unfold fprint_to. destruct (Fprint n) as [[s|]|e|k|]; cbn [fst snd]; try (split; [reflexivity|discriminate]).
  exfalso. exact (H s eq_refl).
Qed.
Print Assumptions C66_fprint_silent.
Example C66_case : exists n r, ParseFile (mkSource (T "echo 1" ++ [10] ++ T "if x" ++ [10] ++ T "endif") false) [] None = Returned n /\
  compile_with (T "  ") n = Ok r /\ c_err r = false /\ encode (c_out r) <> [] /\
  snd (compiler_compile (new_compiler (T "  ")) (fun bs => (3%nat, false)) n) = ([encode (c_out r)], ShortWrite).
Proof.
  do 2 eexists. split; [vm_compute; reflexivity|]. split; [vm_compute; reflexivity|]. split; [reflexivity|]. split; [discriminate|]. vm_compute. reflexivity.
Qed.
Example C66_fprint_case : exists n s, ParseExpr (mkSource (T "1 + x[2]") false) = Returned (Some n) /\ Fprint n = Ok (Printed s) /\ honest (fun bs => (length bs, false)) /\
  (forall s', Fprint (NComment C65_pos s) <> Ok (Printed s')).
Proof.
  do 2 eexists. split; [vm_compute; reflexivity|]. split; [vm_compute; reflexivity|]. split; [intros bs m H; injection H; auto|]. intros s'. vm_compute. discriminate.
Qed.
