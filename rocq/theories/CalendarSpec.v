(** What dates, times and addresses in a text mean, written without reference to the code that
    makes such texts. *)
From Coq Require Import String.
From Verif Require Import Base Types Text Numeral LiteralSpec.
Local Open Scope list_scope.
Local Open Scope N_scope.

(** [s] is a number written with exactly [k] decimal digits. *)
Definition digits (k : nat) (s : text) (n : N) : Prop := length s = k /\ numeral s n.

(* ---------------- the calendar ---------------- *)

Definition date := (Z * N * N)%type.
Definition leap_year (y : Z) : Prop := (y mod 4 = 0 /\ (y mod 100 <> 0 \/ y mod 400 = 0))%Z.
Inductive month_has (y : Z) : N -> N -> Prop :=
| mh_31 m : In m [1; 3; 5; 7; 8; 10; 12] -> month_has y m 31
| mh_30 m : In m [4; 6; 9; 11] -> month_has y m 30
| mh_29 : leap_year y -> month_has y 2 29
| mh_28 : ~ leap_year y -> month_has y 2 28.
Definition valid_date (t : date) : Prop := let '(y, m, d) := t in exists n, month_has y m n /\ 1 <= d <= n.
(** The day after a date. *)
Inductive next_day : date -> date -> Prop :=
| nd_day y m d n : month_has y m n -> d < n -> next_day (y, m, d) (y, m, d + 1)
| nd_month y m d : month_has y m d -> m < 12 -> next_day (y, m, d) (y, m + 1, 1)
| nd_year y : next_day (y, 12, 31) ((y + 1)%Z, 1, 1).
(** The date [n] days after 1 January 1970. *)
Inductive day : Z -> date -> Prop :=
| day_epoch : day 0 (1970%Z, 1, 1)
| day_after n t t' : day n t -> next_day t t' -> day (n + 1) t'
| day_before n t t' : day n t -> valid_date t' -> next_day t' t -> day (n - 1) t'.

(** The date written as three numbers. *)
Definition date_expression (s : text) (n : Z) : Prop := exists ys ms ds y m d,
  digits 4 ys y /\ digits 2 ms m /\ digits 2 ds d /\ s = txt "makeDate(" ++ ys ++ txt "," ++ ms ++ txt "," ++ ds ++ txt ")" /\ day n (Z.of_N y, m, d).

(** The date written as year-month-day (ISO 8601). *)
Definition date_text_iso (s : text) (n : Z) : Prop := exists ys ms ds y m d,
  digits 4 ys y /\ digits 2 ms m /\ digits 2 ds d /\ s = ys ++ txt "-" ++ ms ++ txt "-" ++ ds /\ day n (Z.of_N y, m, d).

(* ---------------- RFC 3339 ---------------- *)

Inductive fraction : text -> N -> Prop :=
| fr_none : fraction [] 0
| fr_some k s n : (k <= 9)%nat -> digits k s n -> fraction (46 :: s) (n * 10 ^ (9 - N.of_nat k)).
Inductive zone : text -> Z -> Prop :=
| zn_utc : zone (txt "Z") 0
| zn_east hs ms h m : digits 2 hs h -> digits 2 ms m -> h < 24 -> m < 60 -> zone (txt "+" ++ hs ++ txt ":" ++ ms) (Z.of_N (h * 3600 + m * 60))
| zn_west hs ms h m : digits 2 hs h -> digits 2 ms m -> h < 24 -> m < 60 -> zone (txt "-" ++ hs ++ txt ":" ++ ms) (- Z.of_N (h * 3600 + m * 60)).
(** The text [s] is the instant [secs] seconds and [nanos] nanoseconds after the start of 1970, UTC. *)
Definition instant_text (s : text) (secs : Z) (nanos : N) : Prop :=
  exists ys ms ds hs is ss fs zs y m d h mi sec n off,
    digits 4 ys y /\ digits 2 ms m /\ digits 2 ds d /\ digits 2 hs h /\ digits 2 is mi /\ digits 2 ss sec /\
    day n (Z.of_N y, m, d) /\ h < 24 /\ mi < 60 /\ sec < 60 /\ fraction fs nanos /\ zone zs off /\
    s = ys ++ txt "-" ++ ms ++ txt "-" ++ ds ++ txt "T" ++ hs ++ txt ":" ++ is ++ txt ":" ++ ss ++ fs ++ zs /\
    (secs = n * 86400 + Z.of_N h * 3600 + Z.of_N mi * 60 + Z.of_N sec - off)%Z.

(** The last second of the year 9999: RFC 3339 has no later ones. *)
Definition LAST_SECOND : Z := 253402300799.

(* ---------------- addresses and UUIDs ---------------- *)

(** Four numbers up to 255, most significant first. *)
Definition dotted_quad (s : text) (n : N) : Prop := exists sa sb sc sd a b c d,
  numeral sa a /\ numeral sb b /\ numeral sc c /\ numeral sd d /\
  a < 256 /\ b < 256 /\ c < 256 /\ d < 256 /\
  s = sa ++ txt "." ++ sb ++ txt "." ++ sc ++ txt "." ++ sd /\ n = ((a * 256 + b) * 256 + c) * 256 + d.

(** Hexadecimal digits, as many as given. *)
Definition hex_digits (k : nat) (s : text) (n : N) : Prop := length s = k /\ forallb is_hex s = true /\ hex_num 0 s = n.
(** Groups of up to four hexadecimal digits, separated by colons; the last two may be a dotted quad. *)
Inductive groups : text -> list N -> Prop :=
| gr_one k s n : (1 <= k <= 4)%nat -> hex_digits k s n -> groups s [n]
| gr_quad s n : dotted_quad s n -> groups s [n / 65536; n mod 65536]
| gr_cons k s n t l : (1 <= k <= 4)%nat -> hex_digits k s n -> groups t l -> groups (s ++ txt ":" ++ t) (n :: l).
Definition groups_or_none (s : text) (l : list N) : Prop := groups s l \/ (s = [] /\ l = []).
(** The eight 16-bit parts of an IPv6 address (RFC 4291 2.2). *)
Inductive address_parts : text -> list N -> Prop :=
| ap_full s l : groups s l -> length l = 8%nat -> address_parts s l
| ap_short s l t r k : groups_or_none s l -> groups_or_none t r -> (length l + k + length r = 8)%nat -> (0 < k)%nat ->
    address_parts (s ++ txt "::" ++ t) (l ++ repeat 0 k ++ r).
Fixpoint octets (parts : list N) : list N := match parts with p :: r => p / 256 :: p mod 256 :: octets r | [] => [] end.
Definition address (s : text) (o : list N) : Prop := exists parts, address_parts s parts /\ octets parts = o.

(** Groups of 8, 4, 4, 4 and 12 hexadecimal digits. *)
Definition uuid_text (s : text) (n : N) : Prop := exists a b c d e na nb nc nd ne,
  hex_digits 8 a na /\ hex_digits 4 b nb /\ hex_digits 4 c nc /\ hex_digits 4 d nd /\ hex_digits 12 e ne /\
  s = a ++ txt "-" ++ b ++ txt "-" ++ c ++ txt "-" ++ d ++ txt "-" ++ e /\
  n = (((na * 2 ^ 16 + nb) * 2 ^ 16 + nc) * 2 ^ 16 + nd) * 2 ^ 48 + ne.

(** The signed number whose two's complement is 32 bytes, most significant first. *)
Definition signed_256 (be : list N) : Z :=
  (let u := Z.of_N (be_number be) in if u <? 2 ^ 255 then u else u - 2 ^ 256)%Z.
