(** What may come after an expression on its line. *)
From Verif Require Import Base CharClass Ast Written.

(** [z], which comes after an expression and the blanks [w], does not start with an
    operator, nor with something that is no token at all. *)
Inductive no_operator (w : text) : text -> Prop :=
| no_nothing : no_operator w []
| no_mark r z : In r (T ")]},:;""'`$@{#") -> no_operator w (r :: z)
| no_bar z : head_not (N.eqb (C "|")) z -> no_operator w (C "|" :: z)
| no_amp z : head_not (N.eqb (C "&")) z -> no_operator w (C "&" :: z)
| no_equal z : head_not (fun r => mem_N r (T "=~")) z -> no_operator w (C "=" :: z)
| no_bang z : head_not (fun r => mem_N r (T "=~")) z -> no_operator w (C "!" :: z)
| no_bracket z : w <> [] -> no_operator w (C "[" :: z)
| no_digit r z : isdigit r = true -> (r = C "0" -> head_not (fun x => mem_N x (T "zZ")) z) -> no_operator w (r :: z)
| no_word r z : isnamec1 r = true ->
    (forall o u, In o [T "is"; T "isnot"] -> r :: z = o ++ u -> head_not iswordc u -> False) -> no_operator w (r :: z).
