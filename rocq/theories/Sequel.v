(** Specification of a text written behind another one: what the answer of the parser for
    the second text becomes there. *)
From Verif Require Import Base Reader Vnode Ast Api Places Nodes Join CmdTable.

(** The bytes of some lines, each with its line feed. *)
Fixpoint line_bytes (lines : list text) : N :=
  match lines with [] => 0 | l :: r => blen l + 1 + line_bytes r end.

(** A position behind [n] lines of [d] bytes. The offset of a place in a continuation line
    is always reported as 0; such a line is never the first one. *)
Definition moved (d n : N) (p : apos) : apos :=
  mkAPos (if (ap_offset p =? 0) && negb (ap_line p =? 1) then 0 else ap_offset p + d)
    (ap_line p + n) (ap_column p) (ap_filename p).

(** An error behind [n] lines of [k] characters and line ends: the offset of an error
    counts these. *)
Definition moved_error (k n : N) (e : go_error) : go_error :=
  match e with
  | ErrVimlParser f i l c m => ErrVimlParser f (i + k) (l + n) c m
  | ErrOther _ => e
  end.

(** The text [s] stands somewhere in the source. *)
Definition occurs (bs : list N) (s : text) : Prop :=
  exists cells pre post, source_cells bs cells /\ map cell_of cells = pre ++ map R s ++ post.
(** A word of letters with a capital at its start, as the name of a user command is. *)
Definition capital_word (w : text) : Prop :=
  exists r t, w = r :: t /\ 65 <= r <= 90 /\ Forall (fun c => 65 <= c <= 90 \/ 97 <= c <= 122) t.
(** No capital word that the second text has before a digit is in the first text. *)
Definition apart (bs1 bs2 : list N) : Prop :=
  forall w d, capital_word w -> 48 <= d <= 57 -> occurs bs2 (w ++ [d]) -> ~ occurs bs1 w.

(** The node is of a command with this name. *)
Definition command_named (names : list text) (n : node) : Prop :=
  exists p s e x, n = NExcmd p s e /\ ae_cmd e = Some x /\ In (c_name x) names.
(** The commands that may read lines below their own, up to a line that ends them. *)
Definition line_readers : list text :=
  [T "append"; T "insert"; T "loadkeymap"; T "lua"; T "mzscheme"; T "perl"; T "py3"; T "python3"; T "python"; T "ruby"; T "tcl"].
(** A text that ends by itself: it has no :finish and its last command reads no lines. *)
Definition self_contained (body : list node) : Prop :=
  (forall n, In n body -> ~ command_named [T "finish"] n) /\
  (forall n r, body = r ++ [n] -> ~ command_named line_readers n).

(** An error at a place before the end of the text with these lines; the overflow of a
    number is no complaint about a place. *)
Definition before_end (lines : list text) (e : go_error) : Prop :=
  match e with ErrVimlParser _ _ l _ _ => l <= N.of_nat (length lines) | ErrOther _ => True end.
(** An error at a place below these lines. *)
Definition below (lines : list text) (e : go_error) : Prop :=
  match e with ErrVimlParser _ _ l _ _ => N.of_nat (length lines) < l | ErrOther _ => False end.
(** The report that a line ends too early. *)
Definition about_line_end (e : go_error) : Prop :=
  exists f i l c m, e = ErrVimlParser f i l c m /\ (m = T "unexpected token: <EOL>" \/ m = T "unexpected character: <EOL>").

(** A position in a text whose first line has got [w] characters of one byte in front. *)
Definition indented (w : N) (p : apos) : apos :=
  mkAPos (if (ap_offset p =? 0) && negb (ap_line p =? 1) then 0 else ap_offset p + w)
    (ap_line p) (if ap_line p =? 1 then ap_column p + w else ap_column p) (ap_filename p).
Definition indented_error (w : N) (e : go_error) : go_error :=
  match e with
  | ErrVimlParser f i l c m => ErrVimlParser f (i + w) l (if l =? 1 then c + w else c) m
  | ErrOther _ => e
  end.
(** The source starts with the text [s]. *)
Definition starts_with (bs : list N) (s : text) : Prop :=
  exists cells post, source_cells bs cells /\ map cell_of cells = map R s ++ post.
