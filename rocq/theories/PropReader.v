(** Property theorems: error positions, the line reader, offsets. *)
From Verif Require Import Base Utf8 CharClass Reader Ast Api Cursor Places LinesProof ReaderFacts.

(** C04: the position of an error is the place of a character, of a line end or of the end
    of the input; Offset is at most the length of the input plus one. *)
Theorem C04_error_position : forall bs fails ts file opt off line col,
  seen_lines bs ts ->
  error_at (ParseFile (mkSource bs fails) file opt) off line col \/
  error_at (ParseExpr (mkSource bs fails)) off line col ->
  (exists x, place_in ts x line col) /\ off <= N.of_nat (length bs) + 1.
Proof.
  intros bs fails ts file opt off line col Hs [H|H].
  - exact (error_place _ _ _ (file_error_place bs fails file opt) _ _ _ _ Hs H).
  - exact (error_place _ _ _ (expr_error_place bs fails) _ _ _ _ Hs H).
Qed.
Print Assumptions C04_error_position.
(** Every input has such lines, so the hypothesis can always be met. *)
Theorem C04_lines_exist : forall bs, exists ts, seen_lines bs ts.
Proof. exact seen_exists. Qed.
Print Assumptions C04_lines_exist.
Example C04_error : exists off msg,
  ParseFile (mkSource (T "if 1" ++ [10] ++ T "  echo )" ++ [10]) false) (T "f.vim") None =
  Failed (ErrVimlParser (T "f.vim") off 2 8 msg).
Proof. do 2 eexists; vm_compute; reflexivity. Qed.
(** The bound on Offset is reached. *)
Example C04_offset_bound : exists l c msg, ParseFile (mkSource (T "if 1") false) [] None =
  Failed (ErrVimlParser [] 5 l c msg).
Proof. do 3 eexists; vm_compute; reflexivity. Qed.

(** C05 does not hold: after a character of two bytes the Offset of an error is not the
    byte offset of its line and column. *)
Definition C05_input : list N := encode ([34; 233; 10] ++ T "echo )").
Theorem C05_error_offset_refuted : exists off off' line col,
  error_at (ParseFile (mkSource C05_input false) [] None) off line col /\
  (exists ts, seen_lines C05_input ts /\ offset_in ts line col off') /\ off <> off'.
Proof.
  exists 8, 9, 2, 6. split; [|split; [|discriminate]].
  - do 2 eexists; vm_compute; reflexivity.
  - exists [[34; 233]; T "echo )"]. split.
    + apply (seen_lines_iff _ _ false). vm_compute; reflexivity.
    + exact (oi_line [[34; 233]; T "echo )"] 1 _ (T "echo ") (T ")") eq_refl eq_refl).
Qed.
Print Assumptions C05_error_offset_refuted.

(** What the Offset of an error is: the number of characters and line ends of the logical
    lines in front of the place. Missing from C05: bytes instead of characters, and the
    characters of a continuation line up to its backslash. *)
Theorem C05_error_offset_partial : forall bs fails ts file opt off line col,
  seen_lines bs ts ->
  error_at (ParseFile (mkSource bs fails) file opt) off line col \/
  error_at (ParseExpr (mkSource bs fails)) off line col ->
  exists ls pre post, logical 1 ts ls /\ flat_map logical_cells ls = pre ++ post /\
    off = N.of_nat (length pre) /\ (post = [] \/ exists x post', post = (x, line, col) :: post').
Proof.
  intros bs fails ts file opt off line col Hs [H|H].
  - exact (error_count _ _ _ (file_error_place bs fails file opt) _ _ _ _ Hs H).
  - exact (error_count _ _ _ (expr_error_place bs fails) _ _ _ _ Hs H).
Qed.
Print Assumptions C05_error_offset_partial.

(** On ASCII text without continuation lines it is the byte offset. *)
Theorem C05_error_offset_ascii_partial : forall bs fails ts file opt off line col,
  seen_lines bs ts -> Forall ascii ts -> Forall (fun l => ~ is_continuation l) (tl ts) ->
  error_at (ParseFile (mkSource bs fails) file opt) off line col \/
  error_at (ParseExpr (mkSource bs fails)) off line col ->
  offset_in ts line col off.
Proof.
  intros bs fails ts file opt off line col Hs Ha Hc [H|H].
  - exact (error_ascii _ _ _ (file_error_place bs fails file opt) _ _ _ _ Hs Ha Hc H).
  - exact (error_ascii _ _ _ (expr_error_place bs fails) _ _ _ _ Hs Ha Hc H).
Qed.
Print Assumptions C05_error_offset_ascii_partial.
Example C05_ascii_case : exists l c, error_at (ParseExpr (mkSource (T "a + )") false)) 4 l c.
Proof. do 4 eexists; vm_compute; reflexivity. Qed.

(** C07: what the parser reads is the logical lines of the input, each character with its
    line and column ... *)
Theorem C07_logical_lines : forall bs fails ts, seen_lines bs ts ->
  exists ls, logical 1 ts ls /\ view (open_source (mkSource bs fails)) = flat_map logical_cells ls.
Proof. exact seen_logical. Qed.
Print Assumptions C07_logical_lines.
(** ... and in valid UTF-8 text the character of line L and column C is the one found at
    byte C of line L. *)
Theorem C07_exact_column : forall bs fails ls ts r n col, plain bs ls ts ->
  In (R r, n, col) (view (open_source (mkSource bs fails))) ->
  exists i l pre post, nth_error ls i = Some l /\ n = N.of_nat i + 1 /\
    l = pre ++ encode1 r ++ post /\ col = N.of_nat (length pre) + 1.
Proof. exact plain_char. Qed.
Print Assumptions C07_exact_column.
(** A continuation line and a character of three bytes. *)
Definition C07_input : list N := encode ([8364; 120; 10; 32; 92; 8364; 121; 10; 122]).
Example C07_plain : plain C07_input [encode [8364; 120]; encode [32; 92; 8364; 121]; [122]]
                          [[8364; 120]; [32; 92; 8364; 121]; [122]].
Proof.
  split; [|split; [|split]].
  - apply (sl_line (encode [8364; 120])). { intros K; vm_compute in K; intuition discriminate. }
    apply (sl_line (encode [32; 92; 8364; 121])). { intros K; vm_compute in K; intuition discriminate. }
    apply sl_last. { intros K; vm_compute in K; intuition discriminate. } discriminate.
  - repeat constructor.
  - repeat constructor; intros l' E; apply (f_equal (@rev N)) in E; rewrite rev_app_distr in E; discriminate.
  - repeat constructor.
Qed.
Example C07_view : view (open_source (mkSource C07_input false)) =
  [(R 8364, 1, 1); (R 120, 1, 4); (R 8364, 2, 3); (R 121, 2, 6); (EOL, 2, 7); (R 122, 3, 1); (EOL, 3, 2)].
Proof. vm_compute; reflexivity. Qed.

(** C08 does not hold: the character y at line 2, column 6 of the text above is not found at
    the offset it carries (0). *)
Theorem C08_offset_refuted : exists bs ls ts s r, plain bs ls ts /\
  sfx s (open_source (mkSource bs false)) /\ next_cell s = Some (R r) /\
  ~ exists pre post, bs = pre ++ encode1 r ++ post /\ N.of_nat (length pre) = p_off (getpos s).
Proof.
  exists C07_input, [encode [8364; 120]; encode [32; 92; 8364; 121]; [122]],
    [[8364; 120]; [32; 92; 8364; 121]; [122]],
    (let x := open_source (mkSource C07_input false) in
     match x with Cons _ _ (Cons _ _ (Cons _ _ t)) => t | _ => x end), 121.
  split; [exact C07_plain|]. vm_compute. split; [repeat constructor|]. split; [reflexivity|].
  intros [[|x pre] [post [E K]]]; discriminate.
Qed.
Print Assumptions C08_offset_refuted.

(** Offsets are the byte offsets on every line that is not a continuation line. Missing:
    continuation lines. *)
Theorem C08_offset_partial : forall bs fails ls ts s r, plain bs ls ts ->
  sfx s (open_source (mkSource bs fails)) -> next_cell s = Some (R r) ->
  (exists pre post, bs = pre ++ encode1 r ++ post /\ N.of_nat (length pre) = p_off (getpos s)) \/
  (exists i l, p_lnum (getpos s) = N.of_nat (S i) /\ nth_error ts i = Some l /\ i <> O /\ is_continuation l).
Proof. exact plain_offset. Qed.
Print Assumptions C08_offset_partial.
(** The z in the third line of the text above, behind a character of three bytes and the
    continuation line: 12 bytes are before it, as its offset says. *)
Example C08_case : exists s, plain C07_input [encode [8364; 120]; encode [32; 92; 8364; 121]; [122]] [[8364; 120]; [32; 92; 8364; 121]; [122]] /\
  sfx s (open_source (mkSource C07_input false)) /\ next_cell s = Some (R 122) /\ p_lnum (getpos s) = 3 /\ p_off (getpos s) = 12 /\ nth_error C07_input 12 = Some 122.
Proof.
  exists (let x := open_source (mkSource C07_input false) in
     match x with Cons _ _ (Cons _ _ (Cons _ _ (Cons _ _ (Cons _ _ t)))) => t | _ => x end).
  split; [exact C07_plain|]. vm_compute. split; [repeat constructor|]. repeat split.
Qed.

(** C09 does not hold: a line of 65536 bytes and everything after it is dropped without an
    error. The text is a comment of that length and an unmatched :endif. *)
Definition long_comment (n : N) : list N := 34 :: N.recursion [] (fun _ l => 97 :: l) n.
Theorem C09_lines_refuted :
  (exists p, ParseFile (mkSource (long_comment 65535 ++ 10 :: T "endif") false) [] None = Returned (NFile p [])) /\
  (exists off line col msg, ParseFile (mkSource (long_comment 65534 ++ 10 :: T "endif") false) [] None =
     Failed (ErrVimlParser [] off line col msg)).
Proof. split; [eexists|do 4 eexists]; vm_compute; reflexivity. Qed.
Print Assumptions C09_lines_refuted.

(** The lines read are the lines of the input up to the first line of 65536 bytes or more,
    each without a carriage return at its end. Missing from C09: longer lines. *)
Theorem C09_lines_partial : forall bs ls fails, split_lines bs ls ->
  exists ls', until_long ls ls' /\ Forall2 without_cr ls' (readlines (mkSource bs fails)).
Proof. intros bs ls fails H. exact (readlines_spec bs ls H fails). Qed.
Print Assumptions C09_lines_partial.
(** If all lines are shorter, all are read. *)
Theorem C09_short_lines_partial : forall bs ls fails, split_lines bs ls -> Forall short ls ->
  Forall2 without_cr ls (readlines (mkSource bs fails)).
Proof. intros bs ls fails. exact (readlines_all bs ls fails). Qed.
Print Assumptions C09_short_lines_partial.
Theorem C09_split_exists : forall bs, exists ls, split_lines bs ls.
Proof. exact split_exists. Qed.
Print Assumptions C09_split_exists.
Example C09_case : readlines (mkSource (T "a" ++ [13; 10; 10; 13] ++ T "b" ++ [13; 13; 10] ++ T "c") false) =
  [T "a"; []; 13 :: T "b" ++ [13]; T "c"].
Proof. vm_compute; reflexivity. Qed.

(** C10 does not hold: a failing reader gives the result of the data it has delivered. *)
Theorem C10_reader_failure_refuted : forall bs file opt,
  ParseFile (mkSource bs true) file opt = ParseFile (mkSource bs false) file opt /\
  ParseExpr (mkSource bs true) = ParseExpr (mkSource bs false).
Proof. intros; split; reflexivity. Qed.
Print Assumptions C10_reader_failure_refuted.
Theorem C10_success_refuted : exists p body, 
  ParseFile (mkSource (T "let a = 1" ++ [10] ++ T "let b") true) [] None = Returned (NFile p body).
Proof. do 2 eexists; vm_compute; reflexivity. Qed.
Print Assumptions C10_success_refuted.
