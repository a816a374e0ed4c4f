(** Texts that klickhouse has made by other crates and by std when it renders a [Value]
    (values/mod.rs 395-418, 454-455): calendar dates and RFC 3339 date-times by chrono 0.4,
    IPv6 addresses by std.  Models of those libraries' documented behaviour, not of their code. *)
From Coq Require Import String.
From Verif Require Import Base Types Text.
Local Open Scope list_scope.
Local Open Scope N_scope.

(** [{:0k}] of a number below 10^k *)
Fixpoint pad (k : nat) (n : N) : text :=
  match k with O => [] | S k' => 48 + n / 10 ^ N.of_nat k' mod 10 :: pad k' n end.

(* ---------------- the Gregorian calendar ---------------- *)

Definition leap (y : Z) : bool := ((y mod 4 =? 0) && (negb (y mod 100 =? 0) || (y mod 400 =? 0)))%Z.
Definition month_lengths (y : Z) : list N :=
  [31; if leap y then 29 else 28; 31; 30; 31; 30; 31; 31; 30; 31; 30; 31].
(** Month and day of the [d]-th day (from 0) of a year; [m] is the number of the first month left. *)
Fixpoint month_day (lens : list N) (m d : N) : N * N :=
  match lens with
  | [] => (m, d + 1)
  | l :: r => if d <? l then (m, d + 1) else month_day r (m + 1) (d - l)
  end.
(** Year and day of the year of the [n]-th day after 0001-01-01. *)
Definition year_day (n : Z) : Z * Z :=
  (let c400 := n / 146097 in let r400 := n mod 146097 in
   let c100 := Z.min (r400 / 36524) 3 in let r100 := r400 - 36524 * c100 in
   let c4 := r100 / 1461 in let r4 := r100 mod 1461 in
   let c1 := Z.min (r4 / 365) 3 in
   (400 * c400 + 100 * c100 + 4 * c4 + c1 + 1, r4 - 365 * c1))%Z.
(** The date [days] days after 1970-01-01 (values/date.rs 73-77: [NaiveDate + Duration::days]). *)
Definition civil (days : Z) : Z * N * N :=
  let (y, d) := year_day (days + 719162) in
  let (m, dd) := month_day (month_lengths y) 1 (Z.to_N d) in (y, m, dd).

(** chrono's [%Y,%m,%d] for the years of [Date] (u16): values/mod.rs 398-401 *)
Definition date_text (days : N) : text :=
  let '(y, m, d) := civil (Z.of_N days) in
  txt "makeDate(" ++ pad 4 (Z.to_N y) ++ [44] ++ pad 2 m ++ [44] ++ pad 2 d ++ [41].

(* ---------------- RFC 3339 ---------------- *)

(** A year outside 0-9999 is written with a sign. *)
Definition year_text (y : Z) : text :=
  if ((0 <=? y) && (y <=? 9999))%Z then pad 4 (Z.to_N y)
  else (if (y <? 0)%Z then 45 else 43) :: show_N (Z.abs_N y).
(** [SecondsFormat::AutoSi] *)
Definition fraction_text (nanos : N) : text :=
  if nanos =? 0 then []
  else if nanos mod 1000000 =? 0 then 46 :: pad 3 (nanos / 1000000)
  else if nanos mod 1000 =? 0 then 46 :: pad 6 (nanos / 1000)
  else 46 :: pad 9 nanos.
(** The offset from UTC in seconds: "Z" for 0 if [use_z], else hours and minutes, rounded to the
    nearest minute. *)
Definition offset_text (use_z : bool) (off : Z) : text :=
  if use_z && (off =? 0)%Z then [90]
  else let minutes := (Z.abs_N off + 30) / 60 in
       (if (off <? 0)%Z then 45 else 43) :: pad 2 (minutes / 60) ++ [58] ++ pad 2 (minutes mod 60).
(** [to_rfc3339_opts(SecondsFormat::AutoSi, use_z)] of the instant [secs].[nanos] in a zone that is
    then [off] seconds ahead of UTC. *)
Definition rfc3339_opts (use_z : bool) (off secs : Z) (nanos : N) : text :=
  let local := (secs + off)%Z in
  let '(y, m, d) := civil (local / 86400) in
  let sod := Z.to_N (local mod 86400) in
  year_text y ++ [45] ++ pad 2 m ++ [45] ++ pad 2 d ++ [84] ++
  pad 2 (sod / 3600) ++ [58] ++ pad 2 (sod / 60 mod 60) ++ [58] ++ pad 2 (sod mod 60) ++
  fraction_text nanos ++ offset_text use_z off.
(** as values/mod.rs 405, 413 call it *)
Definition rfc3339 : Z -> Z -> N -> text := rfc3339_opts true.
(** [to_rfc3339()]: values/date.rs 106, 230, 260 *)
Definition to_rfc3339 : Z -> Z -> N -> text := rfc3339_opts false.
(** The debug form of [NaiveDate], which chrono also uses for serde. *)
Definition iso_date (days : N) : text :=
  let '(y, m, d) := civil (Z.of_N days) in year_text y ++ [45] ++ pad 2 m ++ [45] ++ pad 2 d.

(* ---------------- IP addresses ---------------- *)

(** std Display of [Ipv4Addr]: dotted decimal, most significant byte first. *)
Definition show_ipv4 (n : N) : text :=
  show_N (n / 2 ^ 24 mod 256) ++ [46] ++ show_N (n / 2 ^ 16 mod 256) ++ [46] ++
  show_N (n / 2 ^ 8 mod 256) ++ [46] ++ show_N (n mod 256).

(** [{:x}] of one half byte, of a 16-bit segment *)
Definition hex_lower (d : N) : N := if d <? 10 then 48 + d else 87 + d.
Definition hex_min (n : N) : text :=
  if n <? 16 then [hex_lower n]
  else if n <? 256 then [hex_lower (n / 16); hex_lower (n mod 16)]
  else if n <? 4096 then [hex_lower (n / 256); hex_lower (n / 16 mod 16); hex_lower (n mod 16)]
  else [hex_lower (n / 4096); hex_lower (n / 256 mod 16); hex_lower (n / 16 mod 16); hex_lower (n mod 16)].
(** [Ipv6Addr::segments] *)
Fixpoint segments (o : list N) : list N :=
  match o with a :: b :: r => (a * 256 + b) :: segments r | _ => [] end.
(** The longest run of zero segments, the first of several: [i] segments are behind, [cur] and
    [best] are the starts and lengths of the current and the longest run. *)
Fixpoint longest_zeros (i : nat) (segs : list N) (cur best : nat * nat) : nat * nat :=
  match segs with
  | [] => best
  | s :: r =>
      if s =? 0 then
        let cur' := (if (snd cur =? 0)%nat then i else fst cur, S (snd cur)) in
        longest_zeros (S i) r cur' (if (snd best <? snd cur')%nat then cur' else best)
      else longest_zeros (S i) r (O, O) best
  end.
Definition seg_list (l : list N) : text := join [58] (map hex_min l).
(** [Ipv6Addr::to_ipv4_mapped] *)
Definition mapped (segs : list N) : option N :=
  match segs with
  | [a; b; c; d; e; f; h; l] =>
      if (a =? 0) && (b =? 0) && (c =? 0) && (d =? 0) && (e =? 0) && (f =? 65535) then Some (h * 65536 + l) else None
  | _ => None
  end.
(** std Display of [Ipv6Addr] *)
Definition show_ipv6 (o : list N) : text :=
  let segs := segments o in
  match mapped segs with
  | Some n => txt "::ffff:" ++ show_ipv4 n
  | None =>
      let (start, len) := longest_zeros 0 segs (O, O) (O, O) in
      if (1 <? len)%nat then seg_list (firstn start segs) ++ txt "::" ++ seg_list (skipn (start + len) segs)
      else seg_list segs
  end.
