(** Property C93: copies of errors, errors with a column name, errors of the server. *)
From Coq Require Import String.
From Verif Require Import Base Types Text TypeText Block Protocol Connection Errors Props_Connection Props_TypeText.
Local Open Scope list_scope.
Local Open Scope N_scope.

(** A cloned error reads the same, and is the same in everything but the operating system's number of an I/O error;
    in particular an I/O error keeps its kind. *)
Theorem C93_clone : forall D e,
  display D (kclone e) = display D e /\
  (forall io, e = KIo io -> exists io', kclone e = KIo io' /\ io_kind io' = io_kind io /\ io_shown io' = io_shown io /\ io_os io' = None) /\
  ((forall io, e <> KIo io) -> kclone e = e) /\
  kclone (kclone e) = kclone e.
Proof.
  intros D e. split; [now destruct e|]. split; [intros io ->; now eexists|]. split; [|now destruct e].
  intros H. destruct e; try reflexivity. now elim (H e).
Qed.
Print Assumptions C93_clone.
(** The number is lost: a copy of "connection refused" has no [raw_os_error]. *)
Theorem C93_os_number_refuted : forall k n m, kclone (KIo {| io_kind := k; io_os := Some n; io_shown := m |}) <> KIo {| io_kind := k; io_os := Some n; io_shown := m |}.
Proof. discriminate. Qed.
Print Assumptions C93_os_number_refuted.

(** Naming a column: the two errors about contents get the name in front of their details, which stay as they are; every
    other error is left alone, and so is one that has a column name already - the innermost name stays. *)
Theorem C93_with_column_name : forall D c e,
  (forall m, e = KDeserialize m -> display D (with_column_name c e) = txt "deserialize error for column " ++ c ++ txt ": " ++ m) /\
  (forall t, e = KUnexpectedType t -> display D (with_column_name c e) = txt "unexpected type for column " ++ c ++ txt ": " ++ show_ty D t) /\
  ((forall m, e <> KDeserialize m) -> (forall t, e <> KUnexpectedType t) -> with_column_name c e = e) /\
  (forall c', with_column_name c' (with_column_name c e) = with_column_name c e) /\
  kclone (with_column_name c e) = with_column_name c (kclone e).
Proof.
  intros D c e. split; [now intros m ->|]. split; [now intros t ->|].
  split; [intros H1 H2; destruct e; try reflexivity; [now elim (H1 m)|now elim (H2 t)]|].
  split; [intros c'|]; now destruct e.
Qed.
Print Assumptions C93_with_column_name.

(** An exception reported to the caller carries the server's code, name, message and stack trace unchanged: two that are
    reported as the same error differ at most in announcing a nested exception. *)
Theorem C93_server_exception : forall e e',
  emitted e = KServer (x_code e) (x_name e) (x_message e) (x_stack e) /\
  (emitted e = emitted e' <-> x_code e = x_code e' /\ x_name e = x_name e' /\ x_message e = x_message e' /\ x_stack e = x_stack e').
Proof.
  intros e e'. split; [reflexivity|]. unfold emitted. split.
  - intros H. injection H as H1 H2 H3 H4. now repeat split.
  - now intros (-> & -> & -> & ->).
Qed.
Print Assumptions C93_server_exception.

(** The words of the messages. *)
Theorem C93_messages : forall D a b t,
  display D KMissingRow = txt "no rows received when expecting at least one row" /\
  display D KDoubleFetch = txt "can't fetch the same column twice from RawRow" /\
  display D KOutOfBounds = txt "column index was out of bounds or not present" /\
  display D (KMissingField a) = txt "missing field " ++ a /\
  display D (KDuplicateField a) = txt "duplicate field " ++ a ++ txt " in struct" /\
  display D (KProtocol a) = txt "protocol error: " ++ a /\
  display D (KTypeParse a) = txt "type parse error: " ++ a /\
  display D (KDeserialize a) = txt "deserialize error: " ++ a /\
  display D (KSerialize a) = txt "serialize error: " ++ a /\
  display D (KDeserializeCol a b) = txt "deserialize error for column " ++ a ++ txt ": " ++ b /\
  display D (KUnexpectedType t) = txt "unexpected type: " ++ show_ty D t /\
  display D (KUnexpectedTypeCol a t) = txt "unexpected type for column " ++ a ++ txt ": " ++ show_ty D t /\
  display D (KUtf8 a) = txt "utf-8 conversion error: " ++ a.
Proof. intros D a b t. repeat (split; [reflexivity|]). reflexivity. Qed.
Print Assumptions C93_messages.

(** The message tells which kind of error it is, and its details if there is one text of them. *)
Definition kind_of (e : kerror) : nat :=
  match e with
  | KMissingRow => 0 | KDoubleFetch => 1 | KOutOfBounds => 2 | KMissingField _ => 3 | KDuplicateField _ => 4 | KProtocol _ => 5
  | KTypeParse _ => 6 | KDeserialize _ => 7 | KSerialize _ => 8 | KDeserializeCol _ _ => 9 | KServer _ _ _ _ => 10
  | KUnexpectedType _ => 11 | KUnexpectedTypeCol _ _ => 12 | KIo _ => 13 | KUtf8 _ => 14
  end%nat.
Definition details (e : kerror) : option text :=
  match e with
  | KMissingField m | KDuplicateField m | KProtocol m | KTypeParse m | KDeserialize m | KSerialize m | KUtf8 m => Some m
  | KIo io => Some (io_shown io)
  | _ => None
  end.
Theorem C93_message_tells : forall D e e', display D e = display D e' -> kind_of e = kind_of e' /\ details e = details e'.
Proof.
  intros D e e' H. destruct e, e'; cbn [display] in H; try (exfalso; cbv [txt] in H; cbn [String.length map app] in H; discriminate H); split; try reflexivity; cbn [details];
    first [apply app_inv_head in H; congruence | apply app_inv_head in H; apply app_inv_tail in H; congruence | reflexivity].
Qed.
Print Assumptions C93_message_tells.
(** Only the kind, in general: the name of a column may look like the start of the details. *)
Theorem C93_column_message_refuted : exists D c m c' m', (c, m) <> (c', m') /\ display D (KDeserializeCol c m) = display D (KDeserializeCol c' m').
Proof. exists demo_tz, (txt "a"), (txt "b: c"), (txt "a: b"), (txt "c"). split; [discriminate|]. vm_compute. reflexivity. Qed.
Print Assumptions C93_column_message_refuted.

Example C93_nonvacuous :
  display demo_tz (emitted demo_exception) = txt "server exception: 241 DB::Exception: Memory limit" ++ [10] /\
  display demo_tz (with_column_name (txt "outer") (with_column_name (txt "a") (KUnexpectedType (TNullable TString)))) =
    txt "unexpected type for column a: Nullable(String)" /\
  display demo_tz (kclone (KIo {| io_kind := 1; io_os := Some 111%Z; io_shown := txt "Connection refused (os error 111)" |})) =
    txt "io error: Connection refused (os error 111)".
Proof. split; [vm_compute; reflexivity|]. split; vm_compute; reflexivity. Qed.
