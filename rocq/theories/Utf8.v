(** UTF-8 as Go sees it: [range] over a string and [string(rune)]. *)
From Verif Require Import Base.

(** U+FFFD, produced by Go's [range] for each byte of an invalid sequence. *)
Definition rune_error : N := 65533.

Definition in_range (lo hi b : N) : bool := (lo <=? b) && (b <=? hi).

(** Continuation byte 0x80..0xBF. *)
Definition is_cont (b : N) : bool := in_range 128 191 b.

(** Admissible second byte of a 3-byte sequence (0xE0, 0xED are restricted). *)
Definition ok2_of3 (b0 b1 : N) : bool :=
  if b0 =? 224 then in_range 160 191 b1
  else if b0 =? 237 then in_range 128 159 b1
  else is_cont b1.

(** Admissible second byte of a 4-byte sequence (0xF0, 0xF4 are restricted). *)
Definition ok2_of4 (b0 b1 : N) : bool :=
  if b0 =? 240 then in_range 144 191 b1
  else if b0 =? 244 then in_range 128 143 b1
  else is_cont b1.

(** The runes produced by [for _, r := range s] (go/type.go:200, 210): unicode/utf8
    DecodeRuneInString, an invalid or short sequence gives U+FFFD and skips one
    byte. Bytes are numbers below 256. *)
Fixpoint decode (bs : list N) : text :=
  match bs with
  | [] => []
  | b0 :: t0 =>
    if b0 <? 128 then b0 :: decode t0
    else if in_range 194 223 b0 then
      match t0 with
      | b1 :: t1 =>
        if is_cont b1 then ((b0 - 192) * 64 + (b1 - 128)) :: decode t1
        else rune_error :: decode t0
      | [] => rune_error :: decode t0
      end
    else if in_range 224 239 b0 then
      match t0 with
      | b1 :: b2 :: t2 =>
        if ok2_of3 b0 b1 && is_cont b2
        then ((b0 - 224) * 4096 + (b1 - 128) * 64 + (b2 - 128)) :: decode t2
        else rune_error :: decode t0
      | _ => rune_error :: decode t0
      end
    else if in_range 240 244 b0 then
      match t0 with
      | b1 :: b2 :: b3 :: t3 =>
        if ok2_of4 b0 b1 && is_cont b2 && is_cont b3
        then ((b0 - 240) * 262144 + (b1 - 128) * 4096 + (b2 - 128) * 64 + (b3 - 128)) :: decode t3
        else rune_error :: decode t0
      | _ => rune_error :: decode t0
      end
    else rune_error :: decode t0
  end.

(** len(string(r)) for a rune r. *)
Definition rune_len (r : N) : N :=
  if r <? 128 then 1 else if r <? 2048 then 2 else if r <? 65536 then 3 else 4.

(** The bytes of string(r). *)
Definition encode1 (r : N) : list N :=
  if r <? 128 then [r]
  else if r <? 2048 then [192 + r / 64; 128 + r mod 64]
  else if r <? 65536 then [224 + r / 4096; 128 + (r / 64) mod 64; 128 + r mod 64]
  else [240 + r / 262144; 128 + (r / 4096) mod 64; 128 + (r / 64) mod 64; 128 + r mod 64].

Definition encode (t : text) : list N := flat_map encode1 t.

(** Unicode scalar values: what a rune of a valid string can be. *)
Definition scalar (r : N) : bool := (r <? 55296) || ((57344 <=? r) && (r <? 1114112)).
