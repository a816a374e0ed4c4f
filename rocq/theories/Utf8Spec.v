(** UTF-8 as the Unicode Standard defines it (version 15, table 3-6: bit distribution, and table
    3-7: well-formed byte sequences), independent of the functions of Utf8.v. *)
From Verif Require Import Base Types.

(** [spells c bs]: the bytes [bs] are the one code point [c].  One constructor per row of table 3-7. *)
Inductive spells : N -> list N -> Prop :=
| sp_1 a : 0x00 <= a <= 0x7F -> spells a [a]
| sp_2 a b : 0xC2 <= a <= 0xDF -> 0x80 <= b <= 0xBF -> spells (a mod 32 * 64 + b mod 64) [a; b]
| sp_3a b c : 0xA0 <= b <= 0xBF -> 0x80 <= c <= 0xBF -> spells (b mod 64 * 64 + c mod 64) [0xE0; b; c]
| sp_3b a b c : 0xE1 <= a <= 0xEC -> 0x80 <= b <= 0xBF -> 0x80 <= c <= 0xBF -> spells (a mod 16 * 4096 + b mod 64 * 64 + c mod 64) [a; b; c]
| sp_3c b c : 0x80 <= b <= 0x9F -> 0x80 <= c <= 0xBF -> spells (13 * 4096 + b mod 64 * 64 + c mod 64) [0xED; b; c]
| sp_3d a b c : 0xEE <= a <= 0xEF -> 0x80 <= b <= 0xBF -> 0x80 <= c <= 0xBF -> spells (a mod 16 * 4096 + b mod 64 * 64 + c mod 64) [a; b; c]
| sp_4a b c d : 0x90 <= b <= 0xBF -> 0x80 <= c <= 0xBF -> 0x80 <= d <= 0xBF -> spells (b mod 64 * 4096 + c mod 64 * 64 + d mod 64) [0xF0; b; c; d]
| sp_4b a b c d : 0xF1 <= a <= 0xF3 -> 0x80 <= b <= 0xBF -> 0x80 <= c <= 0xBF -> 0x80 <= d <= 0xBF ->
    spells (a mod 8 * 262144 + b mod 64 * 4096 + c mod 64 * 64 + d mod 64) [a; b; c; d]
| sp_4c b c d : 0x80 <= b <= 0x8F -> 0x80 <= c <= 0xBF -> 0x80 <= d <= 0xBF -> spells (4 * 262144 + b mod 64 * 4096 + c mod 64 * 64 + d mod 64) [0xF4; b; c; d].

(** [encodes s bs]: the bytes are the text, character by character. *)
Inductive encodes : text -> list N -> Prop :=
| en_nil : encodes [] []
| en_char c bs s l : spells c bs -> encodes s l -> encodes (c :: s) (bs ++ l).
