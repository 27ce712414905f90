(** C37, continued: the names of all values of type token.Token. *)
From Coq Require Import Lia ZifyBool ZifyNat ZifyN.
From Verif Require Import Base CharClass ExprParser Token Cursor JsonProof.

(** The tokens that stand for a class of texts, and those that no operator node has. *)
Definition class_name (t : gtok) : option text :=
  match t with
  | TILLEGAL => Some (T "ILLEGAL") | TEOF => Some (T "<EOF>") | TEOL => Some (T "<EOL>")
  | TSPACE => Some (T "<SPACE>") | TNUMBER => Some (T "<NUMBER>") | TBLOB => Some (T "<BLOB>")
  | TOPTION => Some (T "<&OPTION>") | TIDENTIFIER => Some (T "<IDENTIFIER>") | TENV => Some (T "<$ENV>")
  | TREG => Some (T "<@REG>") | TSTRING => Some (T "<STRING>")
  | TQUESTION => Some (T "?") | TCOLON => Some (T ":") | TPOPEN => Some (T "(") | TPCLOSE => Some (T ")")
  | TSQOPEN => Some (T "[") | TSQCLOSE => Some (T "]") | TCOPEN => Some (T "{") | TCCLOSE => Some (T "}")
  | TCOMMA => Some (T ",") | TSQUOTE => Some (T "'") | TDQUOTE => Some (T """") | TEQ => Some (T "=")
  | TOR => Some (T "|") | TSEMICOLON => Some (T ";") | TBACKTICK => Some (T "`")
  | TDOTDOTDOT => Some (T "...") | TSHARP => Some (T "#") | TARROW => Some (T "->")
  | _ => None
  end.

(** C37: the other tokens of the package have these names ... *)
Theorem C37_class_names : forall t s, class_name t = Some s -> token_string t = s.
Proof. intros t s H. destruct t; inversion H; reflexivity. Qed.
Print Assumptions C37_class_names.

(** ... the constants are the integers from 0 to 67 ... *)
Theorem C37_constants : (forall t, (0 <= Z.of_N (gtok_num t) <= 67)%Z) /\
  (forall z, (0 <= z <= 67)%Z -> exists t, Z.of_N (gtok_num t) = z) /\
  (forall t t', gtok_num t = gtok_num t' -> t = t').
Proof.
  split; [intros t; destruct t; vm_compute; split; discriminate|]. split.
  - intros z Hz. exists (nth (Z.to_nat z) all_gtok TILLEGAL).
    assert (A : forall n, (n <= 67)%nat -> N.to_nat (gtok_num (nth n all_gtok TILLEGAL)) = n).
    { intros n Hn. do 68 (destruct n as [|n]; [reflexivity|]). lia. }
    specialize (A (Z.to_nat z) ltac:(lia)). lia.
  - assert (B : forall t, nth (N.to_nat (gtok_num t)) all_gtok TILLEGAL = t) by (intros t; destruct t; reflexivity).
    intros t t' H. rewrite <- (B t), <- (B t'), H. reflexivity.
Qed.
Print Assumptions C37_constants.

(** ... an integer that is none of the constants is named by its number ... *)
Theorem C37_unknown : forall z, (z < 0 \/ 67 < z)%Z -> token_string_Z z = T "token(" ++ itoa z ++ T ")".
Proof.
  intros z Hz. unfold token_string_Z. change (length tokens) with 68%nat.
  replace ((0 <=? z)%Z && (z <? Z.of_nat 68)%Z) with false; [reflexivity|]. symmetry. lia.
Qed.
Print Assumptions C37_unknown.

(** ... and two different integers never have the same name. *)
Theorem C37_all_distinct : forall z z', token_string_Z z = token_string_Z z' -> z = z'.
Proof.
  assert (K : forallb (fun n => forallb (fun m => implb (text_eqb (nth n tokens []) (nth m tokens [])) (Nat.eqb n m)) (seq 0 68)) (seq 0 68) = true)
    by (vm_compute; reflexivity).
  assert (K1 : forallb (fun n => negb (is_nil (nth n tokens [])) && negb (text_eqb (firstn 6 (nth n tokens [])) (T "token("))) (seq 0 68) = true)
    by (vm_compute; reflexivity).
  assert (In1 : forall z, (0 <= z <= 67)%Z -> token_string_Z z = nth (Z.to_nat z) tokens [] /\ firstn 6 (token_string_Z z) <> T "token(").
  { intros z Hz. rewrite forallb_forall in K1. specialize (K1 (Z.to_nat z) ltac:(apply in_seq; lia)).
    apply andb_prop in K1. destruct K1 as [A B].
    assert (E : token_string_Z z = nth (Z.to_nat z) tokens []).
    { unfold token_string_Z. change (length tokens) with 68%nat.
      replace ((0 <=? z)%Z && (z <? Z.of_nat 68)%Z) with true by (symmetry; lia).
      destruct (is_nil _); [discriminate A|reflexivity]. }
    split; [exact E|]. rewrite E. intros F. rewrite F in B. discriminate B. }
  assert (Un : forall z, (z < 0 \/ 67 < z)%Z -> firstn 6 (token_string_Z z) = T "token(").
  { intros z Hz. rewrite C37_unknown by exact Hz. reflexivity. }
  intros z z' H.
  assert (Hz : (0 <= z <= 67)%Z \/ (z < 0 \/ 67 < z)%Z) by lia.
  assert (Hz' : (0 <= z' <= 67)%Z \/ (z' < 0 \/ 67 < z')%Z) by lia.
  destruct Hz as [Hz|Hz], Hz' as [Hz'|Hz'].
  - destruct (In1 _ Hz) as [E _], (In1 _ Hz') as [E' _]. rewrite E, E' in H.
    rewrite forallb_forall in K. specialize (K (Z.to_nat z) ltac:(apply in_seq; lia)).
    rewrite forallb_forall in K. specialize (K (Z.to_nat z') ltac:(apply in_seq; lia)).
    rewrite (proj2 (Cursor.text_eqb_eq _ _) H) in K. cbn [implb] in K. apply Nat.eqb_eq in K. lia.
  - exfalso. apply (proj2 (In1 _ Hz)). rewrite H. apply Un, Hz'.
  - exfalso. apply (proj2 (In1 _ Hz')). rewrite <- H. apply Un, Hz.
  - rewrite !C37_unknown in H by assumption. apply app_inv_head in H. apply app_inv_tail in H. apply itoa_inj, H.
Qed.
Print Assumptions C37_all_distinct.
Example C37_case_all : token_string_Z 67 = T "<STRING>" /\ token_string_Z 68 = T "token(68)" /\ token_string_Z (-1) = T "token(-1)".
Proof. repeat split. Qed.
