(** Specification: JSON texts as RFC 8259 defines them, and the value a text denotes.
    Nothing here refers to the model. A text is a sequence of Unicode characters. *)
From Verif Require Import Base.

(** A JSON value. A number is kept as it is written, an object as its members in order. *)
Inductive jv :=
| JNull | JBool (b : bool) | JNum (literal : text) | JStr (s : text)
| JArr (l : list jv) | JObj (l : list (text * jv)).

(** Section 2: white space is blanks, tabs, line feeds and carriage returns. *)
Definition ws (w : text) : Prop := Forall (fun c => In c [32; 9; 10; 13]) w.

(** Section 6: numbers. *)
Definition digits (s : text) : Prop := Forall (fun c => C "0" <= c <= C "9") s.
Definition number (s : text) : Prop := exists minus int frac exp,
  s = minus ++ int ++ frac ++ exp /\ (minus = [] \/ minus = T "-") /\
  (int = T "0" \/ exists d ds, int = d :: ds /\ C "1" <= d <= C "9" /\ digits ds) /\
  (frac = [] \/ exists ds, frac = T "." ++ ds /\ digits ds /\ ds <> []) /\
  (exp = [] \/ exists e sign ds, exp = e :: sign ++ ds /\ In e (T "eE") /\
     (sign = [] \/ sign = T "+" \/ sign = T "-") /\ digits ds /\ ds <> []).

(** Section 7: strings. The characters a string stands for, and how they are written
    between the quotation marks. *)
Definition hexdigit (c : N) : option N :=
  if (C "0" <=? c) && (c <=? C "9") then Some (c - C "0")
  else if (C "a" <=? c) && (c <=? C "f") then Some (c - C "a" + 10)
  else if (C "A" <=? c) && (c <=? C "F") then Some (c - C "A" + 10)
  else None.
Definition hex4 (a b c d : N) : option N :=
  match hexdigit a, hexdigit b, hexdigit c, hexdigit d with
  | Some a, Some b, Some c, Some d => Some (4096 * a + 256 * b + 16 * c + d)
  | _, _, _, _ => None
  end.
Definition short_escapes : list (N * N) :=
  [(C """", C """"); (C "\", C "\"); (C "/", C "/"); (C "b", 8); (C "f", 12); (C "n", 10);
   (C "r", 13); (C "t", 9)].
Inductive spelled : text -> text -> Prop :=
| sp_end : spelled [] []
| sp_plain c s t : 32 <= c -> c <> C """" -> c <> C "\" -> spelled s t -> spelled (c :: s) (c :: t)
| sp_short e c s t : In (e, c) short_escapes -> spelled s t -> spelled (c :: s) (C "\" :: e :: t)
| sp_unicode a b c d u s t : hex4 a b c d = Some u -> ~ 55296 <= u <= 57343 -> spelled s t ->
    spelled (u :: s) (T "\u" ++ [a; b; c; d] ++ t)
| sp_pair a b c d hi a' b' c' d' lo s t :
    hex4 a b c d = Some hi -> 55296 <= hi <= 56319 -> hex4 a' b' c' d' = Some lo -> 56320 <= lo <= 57343 ->
    spelled s t ->
    spelled (65536 + 1024 * (hi - 55296) + (lo - 56320) :: s)
      (T "\u" ++ [a; b; c; d] ++ T "\u" ++ [a'; b'; c'; d'] ++ t).

(** Sections 3, 4 and 5: values, arrays, objects. *)
Inductive value : jv -> text -> Prop :=
| va_null : value JNull (T "null")
| va_true : value (JBool true) (T "true")
| va_false : value (JBool false) (T "false")
| va_num s : number s -> value (JNum s) s
| va_str s t : spelled s t -> value (JStr s) (T """" ++ t ++ T """")
| va_noelem w : ws w -> value (JArr []) (T "[" ++ w ++ T "]")
| va_arr l t : elements l t -> value (JArr l) (T "[" ++ t ++ T "]")
| va_nomember w : ws w -> value (JObj []) (T "{" ++ w ++ T "}")
| va_obj l t : members l t -> value (JObj l) (T "{" ++ t ++ T "}")
with elements : list jv -> text -> Prop :=
| el_one w v s w' : ws w -> value v s -> ws w' -> elements [v] (w ++ s ++ w')
| el_more w v s w' l t : ws w -> value v s -> ws w' -> elements l t ->
    elements (v :: l) (w ++ s ++ w' ++ T "," ++ t)
with members : list (text * jv) -> text -> Prop :=
| me_one w k kt w1 w2 v s w' : ws w -> spelled k kt -> ws w1 -> ws w2 -> value v s -> ws w' ->
    members [(k, v)] (w ++ T """" ++ kt ++ T """" ++ w1 ++ T ":" ++ w2 ++ s ++ w')
| me_more w k kt w1 w2 v s w' l t : ws w -> spelled k kt -> ws w1 -> ws w2 -> value v s -> ws w' ->
    members l t ->
    members ((k, v) :: l) (w ++ T """" ++ kt ++ T """" ++ w1 ++ T ":" ++ w2 ++ s ++ w' ++ T "," ++ t).

(** A JSON text: a value with white space around it. *)
Definition json_text (v : jv) (t : text) : Prop :=
  exists w s w', t = w ++ s ++ w' /\ ws w /\ value v s /\ ws w'.
