(** Specification vocabulary for blocks (C16-C19). *)
From Verif Require Import Base Types Text TypeText TypeTextProofs Utf8 IndexMap ColumnSpec Block.

(** A Rust string whose encoding is within the wire limit of 2^30 bytes. *)
Definition name_fits (s : text) : Prop := forallb scalar s = true /\ lenN (utf8 s) <= 2 ^ 30.

(** Columns that can be sent: what C04 asks of the values, C11 of the type, and sizes. *)
Definition column_ok (U : unicode) (D : tzdb) (rows : N) (name : text) (t : ty) (vs : list value) : Prop :=
  name_fits name /\ name_fits (show_ty D t) /\ printable U t /\ lenN vs = rows /\
  (rows <> 0 -> validate t = true /\ Forall (fun v => sendable t v = true) vs /\ fits t vs).

Definition block_ok (U : unicode) (D : tzdb) (b : block) : Prop :=
  NoDup (im_keys (b_types b)) /\ NoDup (im_keys (b_data b)) /\
  (forall k t, In (k, t) (b_types b) -> exists vs, im_get k (b_data b) = Some vs /\ column_ok U D (b_rows b) k t vs) /\
  b_rows b < 2 ^ 63 /\ lenN (b_types b) < 2 ^ 63.

Definition sent_info (revision : N) (i : block_info) : block_info :=
  if 0 <? revision then {| is_overflows := true; bucket_num := bucket_num i |} else default_info.

Definition full (b : block) : Prop := Forall (fun e : text * list value => lenN (snd e) = b_rows b) (b_data b).

Definition type_of (b : block) (k : text) : ty := match im_get k (b_types b) with Some t => t | None => TString end.
Definition typed (b : block) : Prop := forall k, In k (im_keys (b_data b)) -> im_get k (b_types b) <> None.

(** The shortest column has [n] values. *)
Definition shortest {A B} (cols : list (A * list B)) (n : nat) : Prop :=
  Forall (fun e => (n <= length (snd e))%nat) cols /\ Exists (fun e => length (snd e) = n) cols.
