(** Specification: the head of a command line, as text. Modifiers, the range, the
    command name, the bang and the options before the arguments, each as a relation
    between the characters of the line and the fields of ExArg. Nothing here refers to
    the reading functions. *)
From Verif Require Import Base CharClass Vnode CmdTable.

(** The value of a decimal numeral. *)
Definition decimal (s : text) : N := fold_left (fun n d => 10 * n + (d - C "0")) s 0.

Definition all_white (s : text) : Prop := forall r, In r s -> r = 32 \/ r = 9.
Definition all_digits (s : text) : Prop := forallb isdigit s = true.
Definition starts_with (f : N -> bool) (s : text) : bool := match s with r :: _ => f r | [] => false end.
Definition begins (p s : text) : Prop := exists r, s = p ++ r.
Definition one_of (l : text) (r : N) : bool := existsb (N.eqb r) l.

(** [longest f w line]: [w] is the longest beginning of [line] in the class [f]. *)
Definition longest (f : N -> bool) (w line : text) : Prop :=
  exists rest, line = w ++ rest /\ forallb f w = true /\ starts_with f rest = false.

(** * Modifiers (:help :command-modifiers) *)

(** The modifiers and the length of their shortest abbreviation. *)
Definition modifier_names : list (text * nat) :=
  [ (T "aboveleft", 3%nat); (T "belowright", 3%nat); (T "botright", 2%nat);
    (T "browse", 3%nat); (T "confirm", 4%nat); (T "hide", 3%nat); (T "keepalt", 5%nat);
    (T "keepjumps", 5%nat); (T "keepmarks", 3%nat); (T "keeppatterns", 5%nat);
    (T "leftabove", 5%nat); (T "lockmarks", 3%nat); (T "noautocmd", 3%nat);
    (T "noswapfile", 3%nat); (T "rightbelow", 6%nat); (T "sandbox", 3%nat);
    (T "silent", 3%nat); (T "tab", 3%nat); (T "topleft", 2%nat); (T "unsilent", 3%nat);
    (T "verbose", 4%nat); (T "vertical", 4%nat) ].
Definition modifier_word (k name : text) : Prop :=
  exists m, In (name, m) modifier_names /\ begins k name /\ (m <= length k)%nat.

(** The count that is kept: the digits before :tab, those before :verbose (1 if there
    are none). It has 31 bits. The digits before another modifier are dropped. *)
Definition modifier_count (name d : text) (n : option Z) : Prop :=
  (name = T "tab" /\ decimal d <= 2147483647 /\ n = match d with [] => None | _ => Some (Z.of_N (decimal d)) end) \/
  (name = T "verbose" /\ decimal d <= 2147483647 /\ n = match d with [] => Some 1%Z | _ => Some (Z.of_N (decimal d)) end) \/
  (name <> T "tab" /\ name <> T "verbose" /\ n = None).

(** A count and a complete word at the start of [s]; [t] follows. *)
Definition counted_word (d w k t : text) : Prop :=
  all_digits d /\ all_white w /\ (d = [] -> w = []) /\ starts_with isalpha t = false.
Definition modifier_follows (s : text) : Prop :=
  exists d w k t name, s = d ++ w ++ k ++ t /\ counted_word d w k t /\ modifier_word k name.

(** The end of the line, a bar or a quote. *)
Definition ends_command (s : text) : Prop := s = [] \/ begins (T "|") s \/ begins [34] s.

(** One modifier; [rest] follows. *)
Inductive modifier_text (rest : text) : text -> modifier -> Prop :=
| mt_silent_bang d w k : counted_word d w k (T "!" ++ rest) -> modifier_word k (T "silent") ->
    modifier_text rest (d ++ w ++ k ++ T "!") (mkMod (T "silent") (Some 1) None)
| mt_silent d w k w2 : counted_word d w k (w2 ++ rest) -> modifier_word k (T "silent") ->
    all_white w2 -> ~ begins (T "!") (w2 ++ rest) -> starts_with iswhite rest = false ->
    modifier_text rest (d ++ w ++ k ++ w2) (mkMod (T "silent") (Some 0) None)
| mt_other d w k w2 name n : counted_word d w k (w2 ++ rest) -> modifier_word k name ->
    name <> T "silent" -> modifier_count name d n -> all_white w2 -> starts_with iswhite rest = false ->
    (name = T "hide" -> ~ ends_command (w2 ++ rest)) ->
    modifier_text rest (d ++ w ++ k ++ w2) (mkMod name None n).

(** All the modifiers at the start of a line. The word "hide" before the end of the
    line, a bar or a quote is read and dropped. *)
Inductive modifiers_text (rest : text) : text -> list modifier -> Prop :=
| ms_nil : ~ modifier_follows rest -> modifiers_text rest [] []
| ms_cons s m t ms : modifier_text (t ++ rest) s m -> modifiers_text rest t ms ->
    modifiers_text rest (s ++ t) (m :: ms)
| ms_hide d w k : counted_word d w k rest -> modifier_word k (T "hide") -> ends_command rest ->
    modifiers_text rest (d ++ w ++ k) [].

(** The word "hide" or its abbreviation, possibly after a count. *)
Definition lone_hide (s : text) : Prop :=
  exists d w1 h w2, s = d ++ w1 ++ h ++ w2 /\ forallb isdigit d = true /\
    forallb iswhite w1 = true /\ In h [T "hid"; T "hide"] /\ forallb iswhite w2 = true.

(** * Patterns *)

(** [pattern_text d i s j]: a piece [s] of a pattern with the delimiter [d]. The counts
    [i] and [j] are the brackets open before and after it. An escaped character is
    skipped, and so is a delimiter between brackets. *)
Inductive pattern_text (d : N) : Z -> text -> Z -> Prop :=
| pt_nil i : pattern_text d i [] i
| pt_escape r s i j : (d <> 92 \/ i <> 0%Z) -> pattern_text d i s j -> pattern_text d i (92 :: r :: s) j
| pt_char r s i j : r <> 92 -> (r <> d \/ i <> 0%Z) ->
    pattern_text d (if r =? C "[" then (i + 1)%Z else if r =? C "]" then (i - 1)%Z else i) s j ->
    pattern_text d i (r :: s) j.

(** * Ranges *)

(** Every relation says with [rest] what follows on the line: a number goes on as long
    as there are digits, blanks are skipped.

    An offset: a number with or without a sign, or a sign alone. *)
Inductive offset : text -> Prop :=
| off_number d : d <> [] -> all_digits d -> offset d
| off_sign r d : In r (T "+-") -> all_digits d -> offset (r :: d).
Inductive offsets (rest : text) : text -> list text -> Prop :=
| of_end w : all_white w -> starts_with (one_of (32 :: 9 :: T "+-0123456789")) rest = false -> offsets rest w []
| of_cons w o s l : all_white w -> offset o -> starts_with isdigit (s ++ rest) = false -> offsets rest s l ->
    offsets rest (w ++ o ++ s) (o :: l).

(** The start of a line specifier. A search pattern is recorded without its delimiters;
    it may lack the second one at the end of the line. *)
Inductive line_spec (rest : text) : text -> list text -> Prop :=
| ls_sign r : In r (T ".$") -> line_spec rest [r] [[r]]
| ls_mark r : line_spec rest [C "'"; r] [[C "'"; r]]
| ls_pattern d t : In d (T "/?") -> pattern_text d 0 t 0 -> line_spec rest (d :: t ++ [d]) [t]
| ls_open d t j : In d (T "/?") -> pattern_text d 0 t j -> rest = [] -> line_spec rest (d :: t) [t]
| ls_last r : In r (T "/?&") -> line_spec rest [92; r] [[92; r]]
| ls_number d : d <> [] -> all_digits d -> starts_with isdigit rest = false -> line_spec rest d [d]
| ls_none : starts_with (one_of (92 :: T ".$'/?0123456789")) rest = false -> line_spec rest [] [].

(** A line specifier: blanks, its start, offsets, then possibly another search. A lone
    quote at the end of the line is dropped. *)
Inductive line_address (rest : text) : text -> list text -> Prop :=
| ad_lone w : all_white w -> rest = [] -> line_address rest (w ++ T "'") []
| ad_last w s o l m : all_white w -> starts_with iswhite (s ++ o ++ rest) = false ->
    line_spec (o ++ rest) s l -> offsets rest o m -> starts_with (one_of (T "/?")) rest = false ->
    line_address rest (w ++ s ++ o) (l ++ m)
| ad_search w s o t l m k : all_white w -> starts_with iswhite (s ++ o ++ t ++ rest) = false ->
    line_spec (o ++ t ++ rest) s l -> offsets (t ++ rest) o m -> starts_with (one_of (T "/?")) (t ++ rest) = true ->
    line_address rest t k -> line_address rest (w ++ s ++ o ++ t) (l ++ m ++ k).

(** The sign for all lines. *)
Inductive all_lines (rest : text) : text -> list text -> Prop :=
| al_sign r : In r (T "%*") -> all_lines rest [r] [[r]]
| al_none : starts_with (one_of (T "%*")) rest = false -> all_lines rest [] [].

(** A range: line specifiers between commas and semicolons. *)
Inductive range_text (rest : text) : text -> list text -> Prop :=
| rt_last s p l k : line_address (p ++ rest) s l -> all_lines rest p k ->
    starts_with (one_of (T ";,")) rest = false -> range_text rest (s ++ p) (l ++ k)
| rt_sep s p r t l k m : line_address (p ++ r :: t ++ rest) s l -> all_lines (r :: t ++ rest) p k ->
    In r (T ";,") -> range_text rest t m -> range_text rest (s ++ p ++ r :: t) (l ++ k ++ [r] :: m).

(** * Command names *)

(** The command a word stands for: the first table entry it abbreviates. Under the
    Neovim option two commands come first and some are gone. *)
Definition user_command (n : text) : cmd := mkCmd n 0 (T "USERCMD") (T "parse_cmd_usercmd").
Definition abbreviates (s : text) (x : cmd) : Prop :=
  (exists r, c_name x = s ++ r) /\ c_minlen x <= N.of_nat (length s).
Definition command_table (neovim : bool) : list cmd :=
  (if neovim then neovim_additional_commands else []) ++ builtin_commands.
Definition first_match (neovim : bool) (s : text) (x : cmd) : Prop :=
  (exists before after, command_table neovim = before ++ x :: after /\ abbreviates s x /\
     Forall (fun y => ~ abbreviates s y) before) /\
  (neovim = true -> Forall (fun y => ~ abbreviates s y) neovim_removed_commands).
Inductive named (neovim : bool) : text -> cmd -> Prop :=
| nm_table s x : first_match neovim s x -> named neovim s x
| nm_user s : starts_upper s = true -> named neovim s (user_command s)
| nm_s x : first_match neovim (T "substitute") x -> named neovim (T "s") x.

(** A word that starts the name of a user command: a capital, and no command but
    :Print has this name. *)
Definition user_word (neovim : bool) (w : text) : Prop :=
  starts_upper w = true /\
  ((forall x, ~ first_match neovim w x) \/ exists x, first_match neovim w x /\ c_name x = T "Print").

(** :s directly followed by a flag is :substitute (":sg", ":si", ":sI", ":sr", ":sc"),
    unless the letters may be another command (":sil", ":sre", ":scr"). *)
Inductive repeats_s : text -> Prop :=
| rs_g t : repeats_s (T "sg" ++ t)
| rs_I t : repeats_s (T "sI" ++ t)
| rs_i x t : ~ In x (T "mlg") -> repeats_s (T "si" ++ x :: t)
| rs_r x t : x <> C "e" -> repeats_s (T "sr" ++ x :: t)
| rs_c x y z t : ~ In x (T "sr") -> y <> C "i" -> z <> C "p" -> repeats_s (T "sc" ++ x :: y :: z :: t).

(** ":delete" or an abbreviation with a flag l or p attached. *)
Definition delete_flag (w : text) : Prop :=
  w <> T "del" /\ exists d, In d [T "de"; T "del"; T "dele"; T "delet"; T "delete"] /\
    (w = d ++ T "l" \/ w = d ++ T "p").

(** [word_of line w key]: the name written at the start of [line] is [w]; it is looked
    up as [key]. *)
Inductive word_of (line : text) : text -> text -> Prop :=
| wo_k : begins (T "k") line -> word_of line (T "k") (T "k")
| wo_s : repeats_s line -> word_of line (T "s") (T "substitute")
| wo_sign r : In r (T "@*!=><&~#") -> begins [r] line -> word_of line [r] [r]
| wo_py w : begins (T "py") line -> longest isalnum w line -> word_of line w w
| wo_delete w r : longest isalpha (w ++ [r]) line -> delete_flag (w ++ [r]) -> word_of line w w
| wo_letters w : longest isalpha w line -> w <> [] -> ~ begins (T "k") line -> ~ repeats_s line ->
    ~ begins (T "py") line -> ~ delete_flag w -> word_of line w w.

(** [resolves neovim line w x]: the command at the start of [line] is [x], its name
    is written [w]. *)
Inductive resolves (neovim : bool) (line : text) : text -> cmd -> Prop :=
| co_table w key x : word_of line w key -> first_match neovim key x -> ~ user_word neovim key ->
    resolves neovim line w x
| co_user w0 w : word_of line w0 w0 -> user_word neovim w0 -> longest isalnum w line ->
    resolves neovim line w (user_command w).

(** A user command with a digit in its name, cut before the digit. *)
Definition cut_name (neovim : bool) (line w : text) (x : cmd) : Prop :=
  word_of line w w /\ user_word neovim w /\ x = user_command w /\
  exists r rest, line = w ++ r :: rest /\ isdigit r = true.

(** * The bang and the options *)

Definition flag (f : text) (x : cmd) : bool := has_word f (c_flags x).

(** [rest] is what follows the name. *)
Definition bang_text (x : cmd) (bang rest : text) : Prop :=
  (bang = T "!" /\ ~ In (c_name x) [T "substitute"; T "smagic"; T "snomagic"] /\
   (flag (T "BANG") x = true \/ flag (T "USERCMD") x = true)) \/
  (bang = [] /\ (begins (T "!") rest -> In (c_name x) [T "substitute"; T "smagic"; T "snomagic"])).

(** The options ++opt of a command with the flag ARGOPT; [rest] follows. A word goes on as
    long as there are letters, digits or underscores. After ++bad= a letter, a digit or an
    underscore must not be followed by another, and any other character must be. *)
Inductive argoption := OBin (n : N) | OEdit | OFormat (s : text) | OEncoding (s : text) | OBad (s : text).
Definition word_ends (rest : text) : Prop := starts_with iswordc rest = false.
Inductive option_text (rest : text) : text -> argoption -> Prop :=
| ot_bin : word_ends rest -> option_text rest (T "++bin") (OBin 1)
| ot_nobin : word_ends rest -> option_text rest (T "++nobin") (OBin 2)
| ot_edit : word_ends rest -> option_text rest (T "++edit") OEdit
| ot_ff p v : In p [T "++ff="; T "++fileformat="] -> In v [T "dos"; T "unix"; T "mac"] -> word_ends rest ->
    option_text rest (p ++ v) (OFormat v)
| ot_enc p r v : In p [T "++enc="; T "++encoding="] -> ~ In r [9; 10; 12; 13; 32] ->
    (forall r, In r v -> r <> 32 /\ r <> 9) -> starts_with iswhite rest = true \/ rest = [] ->
    option_text rest (p ++ r :: v) (OEncoding (r :: v))
| ot_bad v : In v [T "keep"; T "drop"] -> word_ends rest -> option_text rest (T "++bad=" ++ v) (OBad v)
| ot_bad_char r : r <> 10 -> (iswordc r = true <-> word_ends rest) -> option_text rest (T "++bad=" ++ [r]) (OBad [r]).
Inductive options_text (rest : text) : text -> list argoption -> Prop :=
| os_nil : ~ begins (T "++") rest -> options_text rest [] []
| os_cons s o w t os : option_text (w ++ t ++ rest) s o -> all_white w -> starts_with iswhite (t ++ rest) = false ->
    options_text rest t os -> options_text rest (s ++ w ++ t) (o :: os).

(** The last option of each kind counts. *)
Definition bin_of (o : argoption) : list N := match o with OBin n => [n] | _ => [] end.
Definition edit_of (o : argoption) : list N := match o with OEdit => [1] | _ => [] end.
Definition format_of (o : argoption) : list text := match o with OFormat s => [s] | _ => [] end.
Definition encoding_of (o : argoption) : list text := match o with OEncoding s => [s] | _ => [] end.
Definition bad_of (o : argoption) : list text := match o with OBad s => [s] | _ => [] end.
Definition last_option {A} (f : argoption -> list A) (os : list argoption) (dflt : A) : A :=
  last (flat_map f os) dflt.

(** What the commands :write, :update, :read, < and > read themselves: the fields
    forceit, append, usefilter and amount, for a bang [force]. [rest] follows. *)
Inductive own_text (name : text) (force : bool) (rest : text) : text -> bool -> N -> bool -> N -> Prop :=
| ow_append w : In name [T "write"; T "update"] -> all_white w -> starts_with iswhite rest = false ->
    own_text name force rest (T ">>" ++ w) force 1 false 0
| ow_write : name = T "write" -> own_text name force rest (T "!") force 0 true 0
| ow_read_bang : name = T "read" -> force = true -> own_text name force rest [] false 0 true 0
| ow_read : name = T "read" -> force = false -> own_text name force rest (T "!") false 0 true 0
| ow_shift r n w : In r (T "<>") -> name = [r] -> starts_with (fun x => x =? r) (w ++ rest) = false ->
    all_white w -> starts_with iswhite rest = false -> own_text name force rest (repeat r n ++ w) force 0 false (N.of_nat n + 1)
| ow_none : ~ In name [T "<"; T ">"] ->
    (In name [T "write"; T "update"] -> ~ begins (T ">") rest) ->
    (name = T "write" -> ~ begins (T "!") rest) ->
    (name = T "read" -> force = false /\ ~ begins (T "!") rest) ->
    own_text name force rest [] force 0 false 0.

(** The text of +cmd, up to a blank; a backslash takes the next character. *)
Inductive cmdarg : text -> text -> text -> Prop :=
| ca_end rest : starts_with iswhite rest = true \/ rest = [] -> cmdarg [] [] rest
| ca_char r s v rest : iswhite r = false -> r <> 92 -> cmdarg s v rest -> cmdarg (r :: s) (r :: v) rest
| ca_escape r s v rest : cmdarg s v rest -> cmdarg (92 :: r :: s) (r :: v) rest
| ca_last : cmdarg [92] [] [].

(** The +cmd of a command with the flag EDITCMD that is no filter. *)
Inductive ecmd_text (allowed : bool) (rest : text) : text -> text -> Prop :=
| ecm_none : (allowed = true -> ~ begins (T "+") rest) -> ecmd_text allowed rest [] []
| ec_last : allowed = true -> begins (T " ") rest -> ecmd_text allowed rest (T "+") (T "$")
| ecm_cmd s v : allowed = true -> ~ begins (T " ") (s ++ rest) -> cmdarg s v rest ->
    ecmd_text allowed rest (C "+" :: s) v.

(** The fields of an ExArg that the head of the line determines. *)
Record head_fields := mkHead {
  hf_modifiers : list modifier;
  hf_range : list text;
  hf_bin : N;          (* ForceBin *)
  hf_edit : N;         (* ReadEdit *)
  hf_format : text;    (* ForceFf *)
  hf_encoding : text;  (* ForceEnc *)
  hf_bad : text;       (* BadChar *)
  hf_forceit : bool;
  hf_append : N;
  hf_usefilter : bool;
  hf_amount : N;
  hf_ecmd : text       (* DoEcmdCmd *) }.

(** The text before the command name: the modifiers, the range, blanks and colons. *)
Definition lead_text (e : head_fields) (lead rest : text) : Prop :=
  exists tm tr tb, lead = tm ++ tr ++ tb /\
    modifiers_text (tr ++ tb ++ rest) tm (hf_modifiers e) /\
    range_text (tb ++ rest) tr (hf_range e) /\ (forall r, In r tb -> r = 32 \/ r = 9 \/ r = C ":").

(** * The whole head

    [lead] is the text before the name, [bang] and [white] come after the name [w],
    [opts] is read before the arguments, [rest] is the rest of the line. *)
Record head_text (neovim : bool) (x : cmd) (e : head_fields) (lead w bang white opts rest : text) : Prop := {
  ht_lead : lead_text e lead (w ++ bang ++ white ++ opts ++ rest);
  ht_word : let line := w ++ bang ++ white ++ opts ++ rest in
    resolves neovim line w x \/ cut_name neovim line w x;
  ht_bang : bang_text x bang (bang ++ white ++ opts ++ rest);
  ht_white : all_white white;
  ht_args : (c_name x = T "!" -> white = []) /\
    (c_name x <> T "!" -> starts_with iswhite (opts ++ rest) = false);
  ht_opts : exists os t1 t2 t3, opts = t1 ++ t2 ++ t3 /\
    (if flag (T "ARGOPT") x then options_text (t2 ++ t3 ++ rest) t1 os else t1 = [] /\ os = []) /\
    hf_bin e = last_option bin_of os 0 /\ hf_edit e = last_option edit_of os 0 /\
    hf_format e = last_option format_of os [] /\ hf_encoding e = last_option encoding_of os [] /\
    hf_bad e = last_option bad_of os [] /\
    own_text (c_name x) (text_eqb bang (T "!")) (t3 ++ rest) t2
      (hf_forceit e) (hf_append e) (hf_usefilter e) (hf_amount e) /\
    ecmd_text (flag (T "EDITCMD") x && negb (hf_usefilter e)) rest t3 (hf_ecmd e) }.
