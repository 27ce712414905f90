(** C73: the tree that ParseFile fills while it reads. *)
From Coq Require Import Lia ZifyBool ZifyNat ZifyN Permutation.
From Verif Require Import Base Utf8 Reader Vnode Token Ast CmdParser Export Api HeapParser HeapProof.

(** vimlparser.go:35-61  ParseFile over the parser with the node store: nodes are put into
    the tree when their block starts and are changed where they are. *)
Definition ParseFile_in_place (src : source) (filename : list N) (opt : option parse_option)
  : api_result node :=
  let neovim := match opt with Some o => o_neovim o | None => false end in
  recovered filename (let* v := h_vim_parse neovim (open_source src) in new_ast filename v).

(** C73: building each block when it ends, as in [ParseFile], gives for every input the
    result of the in-place construction of the Go code: the same tree or the same error. *)
Theorem C73_in_place : forall src file opt, ParseFile_in_place src file opt = ParseFile src file opt.
Proof.
  intros src file opt. unfold ParseFile_in_place, ParseFile, parse_to_ast.
  set (b := match opt with Some o => o_neovim o | None => false end).
  pose proof (heap_run b (open_source src)) as H. unfold h_vim_parse.
  destruct (vim_parse b (open_source src)) as [v| | |], (h_parse b (open_source src)) as [s| | |];
    try contradiction; cbn [bind].
  - destruct H as [-> _]. reflexivity.
  - now subst.
  - now subst.
  - reflexivity.
Qed.
Print Assumptions C73_in_place.

(** The objects that are found from the toplevel node by following pointers. *)
Inductive reached (s : list hnode) : nat -> Prop :=
| reached_top : reached s 0
| reached_field a d b : reached s a -> nth_error s a = Some d -> In b (targets d) -> reached s b.

Lemma in_targets s b : In b (flat_map targets s) <-> exists a d, nth_error s a = Some d /\ In b (targets d).
Proof.
  rewrite in_flat_map. split.
  - intros [d [I1 I2]]. destruct (In_nth_error _ _ I1) as [a E]. exists a, d. auto.
  - intros (a & d & E & I2). exists d. split; [exact (nth_error_In _ _ E)|exact I2].
Qed.

Lemma nodup_parts (s : list hnode) : NoDup (flat_map targets s) ->
  (forall a d, nth_error s a = Some d -> NoDup (targets d)) /\
  (forall a d a' d' b, nth_error s a = Some d -> nth_error s a' = Some d' ->
     In b (targets d) -> In b (targets d') -> a = a').
Proof.
  induction s as [|n s IH]; cbn [flat_map]; intros N.
  - split; intros a d; intros; destruct a; discriminate.
  - assert (N1 : NoDup (targets n)).
    { clear IH. revert N. induction (targets n) as [|x l IHl]; cbn [app]; intros N; constructor.
      - inversion_clear N. intros I1. apply H. apply in_or_app. now left.
      - apply IHl. now inversion_clear N. }
    assert (N2 : NoDup (flat_map targets s)).
    { clear IH N1. revert N. induction (targets n) as [|x l IHl]; cbn [app]; intros N; [exact N|].
      apply IHl. now inversion_clear N. }
    assert (N3 : forall b, In b (targets n) -> In b (flat_map targets s) -> False).
    { clear IH N1 N2. revert N. induction (targets n) as [|x l IHl]; cbn [app]; intros N b I1 I2; [exact I1|].
      inversion_clear N. destruct I1 as [->|I1]; [|exact (IHl H0 b I1 I2)].
      apply H. apply in_or_app. now right. }
    destruct (IH N2) as [A B]. split.
    + intros [|a] d E; [injection E as <-; exact N1|exact (A a d E)].
    + intros [|a] d [|a'] d' b E E' I1 I2; cbn [nth_error] in E, E'.
      * reflexivity.
      * injection E as <-. exfalso. apply (N3 b I1). apply in_targets. eauto.
      * injection E' as <-. exfalso. apply (N3 b I2). apply in_targets. eauto.
      * f_equal. exact (B _ _ _ _ b E E' I1 I2).
Qed.

(** C73: when parse returns, every block node that was made is in the tree, and at one
    place only: exactly one field of one node points to it, and that node was made before
    it. The toplevel node is in no field. *)
Theorem C73_one_place : forall src opt s, h_parse opt (open_source src) = Ok s ->
  (forall b, (0 < b < length s)%nat -> exists a d, (a < b)%nat /\ nth_error s a = Some d /\
     count_occ Nat.eq_dec (targets d) b = 1%nat /\
     forall a' d', nth_error s a' = Some d' -> In b (targets d') -> a' = a) /\
  (forall a d b, nth_error s a = Some d -> In b (targets d) -> (0 < b < length s)%nat) /\
  (forall b, (b < length s)%nat -> reached s b).
Proof.
  intros src opt s E. pose proof (heap_run opt (open_source src)) as H. rewrite E in H.
  destruct (vim_parse opt (open_source src)) as [v| | |]; try contradiction. destruct H as [_ [O L]].
  assert (N : NoDup (flat_map targets s)).
  { apply (Permutation_NoDup (Permutation_sym O)), seq_NoDup. }
  assert (Rg : forall b, In b (flat_map targets s) <-> (0 < b < length s)%nat).
  { intros b. split.
    - intros I1. apply (Permutation_in _ O), in_seq in I1. lia.
    - intros Hb. apply (Permutation_in _ (Permutation_sym O)), in_seq. lia. }
  destruct (nodup_parts s N) as [N1 N2].
  assert (P : forall b, (0 < b < length s)%nat -> exists a d, (a < b)%nat /\ nth_error s a = Some d /\ In b (targets d)).
  { intros b Hb. apply Rg, in_targets in Hb. destruct Hb as (a & d & Ea & Ib). exists a, d.
    split; [|auto]. pose proof (L _ _ Ea) as F. rewrite Forall_forall in F. exact (F b Ib). }
  split; [|split].
  - intros b Hb. destruct (P b Hb) as (a & d & La & Ea & Ib). exists a, d.
    split; [exact La|]. split; [exact Ea|]. split.
    + apply (proj1 (NoDup_count_occ' Nat.eq_dec _) (N1 _ _ Ea)), Ib.
    + intros a' d' E' I'. exact (N2 _ _ _ _ b E' Ea I' Ib).
  - intros a d b Ea Ib. apply Rg, in_targets. eauto.
  - intros b. induction b as [b IH] using lt_wf_ind. intros Lb.
    destruct b as [|b]; [constructor|].
    destruct (P (S b) ltac:(lia)) as (a & d & La & Ea & Ib).
    apply (reached_field s a d); [apply IH; lia|exact Ea|exact Ib].
Qed.
Print Assumptions C73_one_place.

(** A script with all the kinds of blocks but :while: nine nodes are made. *)
Definition C73_script : list N :=
  T "function F(a)" ++ [10] ++ T "if a" ++ [10] ++ T "echo 1" ++ [10] ++ T "elseif 2" ++ [10] ++
  T "for i in l" ++ [10] ++ T "endfor" ++ [10] ++ T "else" ++ [10] ++ T "return 3" ++ [10] ++ T "endif" ++ [10] ++
  T "try" ++ [10] ++ T "catch /E/" ++ [10] ++ T "finally" ++ [10] ++ T "call G()" ++ [10] ++ T "endtry" ++ [10] ++
  T "endfunction" ++ [10] ++ T "echo 4" ++ [10].
Example C73_case : exists n s p fn st,
  ParseFile_in_place (mkSource C73_script false) (T "f.vim") None = Returned n /\
  n = NFile p (fn :: st :: []) /\
  h_parse false (open_source (mkSource C73_script false)) = Ok s /\ length s = 9%nat /\
  map targets s = [[1]; [2; 6]; [3; 5]; [4]; []; []; [7; 8]; []; []]%nat.
Proof.
  do 5 eexists. split; [vm_compute; reflexivity|]. split; [reflexivity|].
  split; [vm_compute; reflexivity|]. split; vm_compute; reflexivity.
Qed.
