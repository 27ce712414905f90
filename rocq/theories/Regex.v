(** Regular expressions: what it means that a text matches, and how the patterns of Go's
    package regexp (RE2 syntax) and of Vim are written. This is a specification, after
    the documents of the two languages; nothing here is code of the parser. *)
From Verif Require Import Base.

(** * Meaning *)

(** [Chr neg rs]: one character inside (outside if [neg]) the ranges [rs]. *)
Inductive re :=
| Eps
| Chr (neg : bool) (rs : list (N * N))
| Seq (r q : re)
| Alt (r q : re)
| Star (r : re)
| Bol | Eol              (* begin and end of the text *)
| Edge                   (* begin or end of a word *)
| WordBegin | WordEnd.

Definition in_range (c : N) (p : N * N) : bool := (fst p <=? c) && (c <=? snd p).
Definition in_class (neg : bool) (rs : list (N * N)) (c : N) : bool :=
  if neg then negb (existsb (in_range c) rs) else existsb (in_range c) rs.

(** Is the character before (behind) this place a word character? *)
Definition word_before (word : N -> bool) (a : text) : bool :=
  match rev a with c :: _ => word c | [] => false end.
Definition word_behind (word : N -> bool) (b : text) : bool :=
  match b with c :: _ => word c | [] => false end.

(** [mat word r a s b]: [r] matches [s] where [a] stands before it and [b] behind it;
    [word] tells which characters belong to words. *)
Inductive mat (word : N -> bool) : re -> text -> text -> text -> Prop :=
| m_eps a b : mat word Eps a [] b
| m_chr neg rs c a b : in_class neg rs c = true -> mat word (Chr neg rs) a [c] b
| m_seq r q a s t b :
    mat word r a s (t ++ b) -> mat word q (a ++ s) t b -> mat word (Seq r q) a (s ++ t) b
| m_left r q a s b : mat word r a s b -> mat word (Alt r q) a s b
| m_right r q a s b : mat word q a s b -> mat word (Alt r q) a s b
| m_stop r a b : mat word (Star r) a [] b
| m_more r a s t b :
    mat word r a s (t ++ b) -> mat word (Star r) (a ++ s) t b -> mat word (Star r) a (s ++ t) b
| m_bol b : mat word Bol [] [] b
| m_eol a : mat word Eol a [] []
| m_edge a b : word_before word a <> word_behind word b -> mat word Edge a [] b
| m_wbegin a b : word_before word a = false -> word_behind word b = true -> mat word WordBegin a [] b
| m_wend a b : word_before word a = true -> word_behind word b = false -> mat word WordEnd a [] b.

(** The pattern matches somewhere in the text. *)
Definition matches (word : N -> bool) (r : re) (s : text) : Prop :=
  exists a m b, s = a ++ m ++ b /\ mat word r a m b.

(** * Notation *)

(** Both languages have the same structure; they differ in the spelling of the symbols. *)
Inductive sym :=
| SRe (r : re)               (* something that matches by itself *)
| SOpen | SClose | SBar
| SStar | SPlus | SOpt.

Definition chr (c : N) : re := Chr false [(c, c)].
Definition opt (r : re) : re := Alt r Eps.
Definition plus (r : re) : re := Seq r (Star r).

(** alternatives := sequence (bar sequence)*; sequence := (atom suffix?)* *)
Fixpoint p_alts (n : nat) (l : list sym) : option (re * list sym) :=
  match n with
  | O => None
  | S n' =>
    match p_seq n' l with
    | Some (r, SBar :: l1) =>
        match p_alts n' l1 with Some (q, l2) => Some (Alt r q, l2) | None => None end
    | x => x
    end
  end
with p_seq (n : nat) (l : list sym) : option (re * list sym) :=
  match n with
  | O => None
  | S n' =>
    let more r l1 :=
      let '(r1, l2) :=
        match l1 with
        | SStar :: l2 => (Star r, l2)
        | SPlus :: l2 => (plus r, l2)
        | SOpt :: l2 => (opt r, l2)
        | _ => (r, l1)
        end in
      match p_seq n' l2 with Some (q, l3) => Some (Seq r1 q, l3) | None => None end in
    match l with
    | SRe r :: l1 => more r l1
    | SOpen :: l1 =>
        match p_alts n' l1 with Some (r, SClose :: l2) => more r l2 | _ => None end
    | SStar :: _ | SPlus :: _ | SOpt :: _ => None
    | _ => Some (Eps, l)
    end
  end.
Definition structure (l : list sym) : option re :=
  match p_alts (2 * length l + 2) l with Some (r, []) => Some r | _ => None end.

(** Inside brackets, up to the closing one: characters, ranges a-z, \t for a tab. *)
Fixpoint p_ranges (s : text) : option (list (N * N) * text) :=
  match s with
  | [] => None
  | 93 (* ] *) :: s1 => Some ([], s1)
  | 92 (* \ *) :: 116 (* t *) :: s1 =>
      match p_ranges s1 with Some (l, s2) => Some ((9, 9) :: l, s2) | None => None end
  | 92 :: _ => None
  | c :: ((45 (* - *) :: d :: s1) as s0) =>
      if d =? 93 then None
      else match p_ranges s1 with Some (l, s2) => Some ((c, d) :: l, s2) | None => None end
  | c :: s1 => match p_ranges s1 with Some (l, s2) => Some ((c, c) :: l, s2) | None => None end
  end.
(** Behind the opening bracket. *)
Definition p_class (s : text) : option (re * text) :=
  match s with
  | 94 (* ^ *) :: s1 =>
      match p_ranges s1 with Some (l, s2) => Some (Chr true l, s2) | None => None end
  | _ => match p_ranges s with Some (l, s2) => Some (Chr false l, s2) | None => None end
  end.

Definition cons_sym (x : sym) (l : option (list sym)) : option (list sym) :=
  match l with Some l => Some (x :: l) | None => None end.

Definition letters_digits : list (N * N) := [(48, 57); (65, 90); (97, 122)].
Definition letter_or_digit (c : N) : bool := existsb (in_range c) letters_digits.

(** ** Go: https://pkg.go.dev/regexp/syntax, the part without flags, counted repetition and
    named classes. *)
Definition go_escape (c : N) : option re :=
  match c with
  | 98 (* \b *) => Some Edge
  | 115 (* \s *) => Some (Chr false [(9, 10); (12, 13); (32, 32)])
  | 83 (* \S *) => Some (Chr true [(9, 10); (12, 13); (32, 32)])
  | 100 (* \d *) => Some (Chr false [(48, 57)])
  | _ => if letter_or_digit c then None else Some (chr c)
  end.
Fixpoint go_symbols (n : nat) (s : text) : option (list sym) :=
  match n with
  | O => None
  | S n' =>
    match s with
    | [] => Some []
    | 92 (* \ *) :: c :: s1 =>
        match go_escape c with Some r => cons_sym (SRe r) (go_symbols n' s1) | None => None end
    | 91 (* [ *) :: s1 =>
        match p_class s1 with Some (r, s2) => cons_sym (SRe r) (go_symbols n' s2) | None => None end
    | 40 :: s1 => cons_sym SOpen (go_symbols n' s1)
    | 41 :: s1 => cons_sym SClose (go_symbols n' s1)
    | 124 (* | *) :: s1 => cons_sym SBar (go_symbols n' s1)
    | 42 (* * *) :: s1 => cons_sym SStar (go_symbols n' s1)
    | 43 (* + *) :: s1 => cons_sym SPlus (go_symbols n' s1)
    | 63 (* ? *) :: s1 => cons_sym SOpt (go_symbols n' s1)
    | 94 (* ^ *) :: s1 => cons_sym (SRe Bol) (go_symbols n' s1)
    | 36 (* $ *) :: s1 => cons_sym (SRe Eol) (go_symbols n' s1)
    | 46 (* . *) :: s1 => cons_sym (SRe (Chr true [(10, 10)])) (go_symbols n' s1)
    | 92 :: _ | 123 (* { *) :: _ => None
    | c :: s1 => cons_sym (SRe (chr c)) (go_symbols n' s1)
    end
  end.
Definition go_pattern (s : text) : option re :=
  match go_symbols (S (length s)) s with Some l => structure l | None => None end.
(** RE2 counts the ASCII letters, the digits and the underscore as word characters. *)
Definition go_word (c : N) : bool := letter_or_digit c || (c =? 95).

(** ** Vim: :help pattern, with the option 'magic' set and case respected. *)
Definition vim_class (c : N) : option re :=
  match c with
  | 115 (* \s *) => Some (Chr false [(32, 32); (9, 9)])
  | 83 (* \S *) => Some (Chr true [(32, 32); (9, 9)])
  | 97 (* \a *) => Some (Chr false [(65, 90); (97, 122)])
  | 100 (* \d *) => Some (Chr false [(48, 57)])
  | 104 (* \h *) => Some (Chr false [(65, 90); (97, 122); (95, 95)])
  | 119 (* \w *) => Some (Chr false [(48, 57); (65, 90); (97, 122); (95, 95)])
  | 120 (* \x *) => Some (Chr false [(48, 57); (65, 70); (97, 102)])
  | _ => None
  end.

(** %[elete] in very magic patterns: as many of the characters, from the first on, as there are. *)
Fixpoint optionals (s : text) : option (re * text) :=
  match s with
  | [] => None
  | 93 (* ] *) :: s1 => Some (Eps, s1)
  | c :: s1 =>
      if letter_or_digit c
      then match optionals s1 with Some (r, s2) => Some (opt (Seq (chr c) r), s2) | None => None end
      else None
  end.

(** Magic: ^ is special at the start of an alternative only ([first]), $ at its end only. *)
Definition ends_alternative (s : text) : bool :=
  match s with [] => true | 92 :: 124 :: _ => true | 92 :: 41 :: _ => true | _ => false end.
Fixpoint vim_magic (n : nat) (first : bool) (s : text) : option (list sym) :=
  match n with
  | O => None
  | S n' =>
    match s with
    | [] => Some []
    | 92 (* \ *) :: c :: s1 =>
        match c with
        | 40 => cons_sym SOpen (vim_magic n' true s1)
        | 41 => cons_sym SClose (vim_magic n' false s1)
        | 124 => cons_sym SBar (vim_magic n' true s1)
        | 43 => cons_sym SPlus (vim_magic n' false s1)
        | 63 => cons_sym SOpt (vim_magic n' false s1)
        | 60 (* < *) => cons_sym (SRe WordBegin) (vim_magic n' false s1)
        | 62 (* > *) => cons_sym (SRe WordEnd) (vim_magic n' false s1)
        | 92 | 46 | 36 => cons_sym (SRe (chr c)) (vim_magic n' false s1)
        | _ => match vim_class c with
               | Some r => cons_sym (SRe r) (vim_magic n' false s1)
               | None => None
               end
        end
    | 91 (* [ *) :: s1 =>
        match p_class s1 with
        | Some (r, s2) => cons_sym (SRe r) (vim_magic n' false s2)
        | None => None
        end
    | 42 (* * *) :: s1 => if first then None else cons_sym SStar (vim_magic n' false s1)
    | 94 (* ^ *) :: s1 => cons_sym (SRe (if first then Bol else chr 94)) (vim_magic n' false s1)
    | 36 (* $ *) :: s1 =>
        cons_sym (SRe (if ends_alternative s1 then Eol else chr 36)) (vim_magic n' false s1)
    | 46 (* . *) :: s1 => cons_sym (SRe (Chr true [])) (vim_magic n' false s1)
    | 92 :: _ | 126 (* ~ *) :: _ => None
    | c :: s1 => cons_sym (SRe (chr c)) (vim_magic n' false s1)
    end
  end.

(** Very magic (behind \v): all ASCII characters except letters, digits and the underscore are
    special. Of the special ones, those that the parser's patterns use. *)
Fixpoint vim_very_magic (n : nat) (s : text) : option (list sym) :=
  match n with
  | O => None
  | S n' =>
    match s with
    | [] => Some []
    | 37 (* % *) :: 40 :: s1 => cons_sym SOpen (vim_very_magic n' s1)
    | 37 :: 91 :: s1 =>
        match optionals s1 with
        | Some (r, s2) => cons_sym (SRe r) (vim_very_magic n' s2)
        | None => None
        end
    | 41 :: s1 => cons_sym SClose (vim_very_magic n' s1)
    | 124 :: s1 => cons_sym SBar (vim_very_magic n' s1)
    | 91 :: s1 =>
        match p_class s1 with
        | Some (r, s2) => cons_sym (SRe r) (vim_very_magic n' s2)
        | None => None
        end
    | 94 :: s1 => cons_sym (SRe Bol) (vim_very_magic n' s1)
    | 36 :: s1 => cons_sym (SRe Eol) (vim_very_magic n' s1)
    | c :: s1 =>
        if letter_or_digit c || (c =? 95)
        then cons_sym (SRe (chr c)) (vim_very_magic n' s1) else None
    end
  end.
Definition vim_pattern (s : text) : option re :=
  match (match s with
         | 92 :: 118 (* \v *) :: s1 => vim_very_magic (S (length s1)) s1
         | _ => vim_magic (S (length s)) true s
         end) with
  | Some l => structure l
  | None => None
  end.
(** In Vim the option 'iskeyword' says which characters are word characters; among the
    ASCII ones they are by default the same as in Go. *)
Definition keywords (word : N -> bool) : Prop := forall c, c < 128 -> word c = go_word c.
(** The default of the option: @,48-57,_,192-255, for one-byte characters. *)
Definition default_keyword (c : N) : bool := go_word c || ((192 <=? c) && (c <=? 255)).
(** Texts of printable ASCII characters and tabs. *)
Definition plain (s : text) : Prop := forall c, In c s -> c = 9 \/ 32 <= c < 127.
