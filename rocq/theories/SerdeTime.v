(** Model of the serde forms of dates and times: values/date.rs 16-35, 96-122, 220-278. *)
From Verif Require Import Base Types Text Calendar Numeric.
Local Open Scope N_scope.

(** chrono's parsers: [DateTime::parse_from_rfc3339] (seconds from 1970 UTC and nanoseconds) and
    the deserializer of [NaiveDate] (days from 1970-01-01). *)
Record chrono_de := { parse_3339 : text -> option (Z * N); parse_iso : text -> option Z }.

(** values/date.rs 17-25 *)
Definition ser_date (d : N) : text := iso_date d.
(** values/date.rs 28-35 *)
Definition de_date (C : chrono_de) (s : text) : res N :=
  match parse_iso C s with Some n => Ok (date_of_chrono n) | None => Err EOther end.

(** The text of a chrono instant; [off] tells how far a zone is ahead of UTC at a time. *)
Definition instant_form (off : tz -> Z -> Z) (i : instant) : text :=
  to_rfc3339 (off (i_zone i) (i_secs i)) (i_secs i) (i_nanos i).
(** values/date.rs 97-107 *)
Definition ser_datetime (off : tz -> Z -> Z) (z : tz) (t : N) : res text :=
  i <- datetime_to_chrono z t ;; Ok (instant_form off i).
(** values/date.rs 110-122: through [TryFrom<DateTime<FixedOffset>>] (186-194). *)
Definition de_datetime (C : chrono_de) (s : text) : res (tz * N) :=
  match parse_3339 C s with
  | Some (secs, nanos) => datetime_of_other {| i_zone := UTC; i_secs := secs; i_nanos := nanos |}
  | None => Err EOther
  end.
(** values/date.rs 221-231, 251-261 *)
Definition ser_datetime64 (off : tz -> Z -> Z) (p : N) (z : tz) (v : N) : res text :=
  i <- datetime64_to_chrono p z v ;; Ok (instant_form off i).
(** values/date.rs 264-278 *)
Definition de_datetime64 (C : chrono_de) (p : N) (s : text) : res (tz * N) :=
  match parse_3339 C s with
  | Some (secs, nanos) => datetime64_of_chrono p {| i_zone := UTC; i_secs := secs; i_nanos := nanos |}
  | None => Err EOther
  end.
(** values/date.rs 234-248: always six decimals. *)
Definition de_dyn_datetime64 (C : chrono_de) (s : text) : res (tz * N * N) :=
  r <- de_datetime64 C 6 s ;; Ok (r, 6).
