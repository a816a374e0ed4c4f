(** Property C90: a batch of which no row can be serialized. *)
From Coq Require Import String Lia Permutation.
From Verif Require Import Base Types Text IndexMap Io IoProofs TypeText Block BlockSpec BlockProofs Compression CompressionProofs Progress Protocol Connection ConnectionSpec ConnectionProofs
  Api ApiProofs TripSpec MarkerProofs Props_Block Props_Protocol Props_Connection Props_Api.
Local Open Scope list_scope.
Local Open Scope N_scope.

(** The blocks without columns among those of an insert are exactly those of the batches none of whose
    rows gives a value: rows that cannot be serialized (or have no columns at all). *)
Theorem C90_marker_iff : forall T (ser_row : T -> imap ty -> res (list (text * value))) types rows b,
  insert_block ser_row types rows = Ok b ->
  (no_columns b = true <-> forall x, In x rows -> (exists e, ser_row x types = Err e) \/ ser_row x types = Ok []).
Proof. intros T ser_row types rows b I. rewrite (marker_iff ser_row types rows b I). apply Forall_forall. Qed.
Print Assumptions C90_marker_iff.

(** Such a batch is always accepted, whatever the number of its rows. *)
Theorem C90_accepted : forall T (ser_row : T -> imap ty -> res (list (text * value))) types rows,
  (forall x, In x rows -> exists e, ser_row x types = Err e) ->
  exists b, insert_block ser_row types rows = Ok b /\ no_columns b = true /\ b_rows b = lenN rows /\ b_data b = [].
Proof.
  intros T ser_row types rows H. eexists. split; [apply nothing_block; apply Forall_forall; intros x X; left; exact (H x X)|].
  split; [apply forallb_forall; reflexivity|]. split; reflexivity.
Qed.
Print Assumptions C90_accepted.

(** On the wire: the number of columns comes first in a block, and 0 there - the end of the data in
    the Native protocol - is written exactly for blocks without columns; nothing but the number
    of rows follows. *)
Theorem C90_wire : forall D rev b bytes, NoDup (im_keys (b_types b)) -> NoDup (im_keys (b_data b)) -> write_block D rev b = Ok bytes ->
  exists n rest, bytes = (if 0 <? rev then write_info (b_info b) else []) ++ write_var_uint n ++ write_var_uint (b_rows b) ++ rest /\
    (n = 0 <-> no_columns b = true) /\ (n = 0 -> rest = []).
Proof. exact wire_count. Qed.
Print Assumptions C90_wire.

(** It can always be written, and the connection goes on (in contrast to C56, where some rows of the
    batch can be serialized). *)
Theorem C90_connection_goes_on : forall C s q b rest id, k_task s = TSelect -> k_queue s = RData q b :: rest -> no_columns b = true ->
  compressible C b ->
  exists s', step C s (Take id WOk) = Some s' /\ k_log s' = k_log s ++ [LData q b] /\ k_task s' = TSelect.
Proof.
  intros C s q b rest id T Q NC CP. cbn [step]. rewrite T, Q. cbn [handle_request].
  pose proof (marker_written (c_tz C) (c_rev C) b NC) as W.
  assert (S : is_ok (send_data C b [] false) = true).
  { unfold send_data. destruct (c_lz4 C) eqn:L.
    - destruct (CP L) as [CO PO]. destruct (frame_ok (c_codec C) _ CO (PO _ W)) as (f & F & _). unfold write_compressed. rewrite W. cbn [rbind]. rewrite F. reflexivity.
    - rewrite W. reflexivity. }
  destruct (send_data C b [] false); try discriminate S. eexists. split; [reflexivity|]. split; [reflexivity|exact T].
Qed.
Print Assumptions C90_connection_goes_on.

(** All or nothing: a batch that can be written at all is one whose rows all have the same columns,
    or one none of whose rows has a value. *)
Theorem C90_all_or_none : forall T (ser_row : T -> imap ty -> res (list (text * value))) types rows b C bytes, NoDup (im_keys types) ->
  (forall x row, In x rows -> ser_row x types = Ok row -> NoDup (map fst row)) ->
  insert_block ser_row types rows = Ok b -> send_data C b [] false = Ok bytes ->
  (exists names, names <> [] /\ forall x, In x rows -> exists row, ser_row x types = Ok row /\ Permutation (map fst row) names) \/
  (forall x, In x rows -> (exists e, ser_row x types = Err e) \/ ser_row x types = Ok []).
Proof.
  intros T ser_row types rows b C bytes NT ND I S. unfold send_data, write_compressed in S.
  assert (W : exists raw, write_block (c_tz C) (c_rev C) b = Ok raw).
  { destruct (write_block (c_tz C) (c_rev C) b) as [raw| |]; [now exists raw|destruct (c_lz4 C); discriminate S|destruct (c_lz4 C); discriminate S]. }
  destruct W as [raw W]. destruct (all_or_none ser_row types rows b _ _ raw NT ND I W) as [(names & NE & F)|F].
  - left. exists names. split; [exact NE|]. now apply Forall_forall.
  - right. now apply Forall_forall.
Qed.
Print Assumptions C90_all_or_none.

(** Finding: an insert none of whose rows can be serialized returns Ok, and no row is part of it. *)
Theorem C90_nothing_inserted_is_ok : forall T (ser_row : T -> imap ty -> res (list (text * value))) h batches,
  (forall x, In x (concat batches) -> exists e, ser_row x (b_types h) = Err e) ->
  exists blocks, insert_native ser_row (Some (IBlock h)) batches = (blocks, Ok tt) /\ taken blocks = [].
Proof.
  intros T ser_row h batches H. apply nothing_inserted. apply Forall_forall. intros x X. left. exact (H x X).
Qed.
Print Assumptions C90_nothing_inserted_is_ok.

(** Finding: and it ends the insert for the server.  Of a successful insert only the batches before
    the first such batch are data to a server that stops at the first block without columns. *)
Theorem C90_later_batches_are_not_data : forall T (ser_row : T -> imap ty -> res (list (text * value))) h before bad after blocks,
  insert_native ser_row (Some (IBlock h)) (before ++ bad :: after) = (blocks, Ok tt) ->
  (forall rows, In rows before -> rows <> [] -> exists x kv row, In x rows /\ ser_row x (b_types h) = Ok (kv :: row)) ->
  bad <> [] -> (forall x, In x bad -> exists e, ser_row x (b_types h) = Err e) ->
  Forall2 (fun rows b => insert_block ser_row (b_types h) rows = Ok b) (filter (fun l => match l with [] => false | _ => true end) before) (taken blocks).
Proof.
  intros T ser_row h before bad after blocks I S NE G. apply (taken_prefix ser_row (b_types h) before bad after blocks I); [|exact NE|].
  - intros rows R N. destruct (S rows R N) as (x & kv & row & X & E). apply Exists_exists. exists x. split; [exact X|]. now exists kv, row.
  - apply Forall_forall. intros x X. left. exact (G x X).
Qed.
Print Assumptions C90_later_batches_are_not_data.

(** So the claim that a successful insert has put its serializable rows into the query is refuted: here
    the second batch can be serialized, the insert returns Ok, the server - having got the end of the
    data - ends the query, and the second batch goes out in the middle of another caller's query. *)
Definition marker_batches : list (list (option (N * list N))) := [[None]; [Some (1, [97])]].
Definition demo_marker : block := {| b_info := default_info; b_rows := 1; b_types := demo_types; b_data := [] |}.
Definition marker_run : list Connection.event :=
  [Submit (txt "INSERT INTO t FORMAT Native"); Take (txt "id0") WOk; Packet (PData [] demo_header) [] WOk; Consume 0;
   SubmitData 0 demo_marker; Take [] WOk; Packet PEndOfStream [] WOk;
   Submit (txt "SELECT 1"); Take (txt "id1") WOk; SubmitData 0 demo_inserted; Take [] WOk; SubmitData 0 empty_block; Take [] WOk].
Theorem C90_rows_inserted_refuted : exists s l1 l2,
  insert_native demo_ser (Some (IBlock demo_header)) marker_batches = ([demo_marker; demo_inserted; empty_block], Ok tt) /\
  run (demo_conn false) init marker_run = Some s /\ server_waits (demo_conn false) init marker_run /\
  k_log s = l1 ++ LData 0 demo_inserted :: l2 /\ in_flight l1 = Some (1%nat, txt "id1").
Proof.
  destruct (run (demo_conn false) init marker_run) as [s|] eqn:E; [|vm_compute in E; discriminate E].
  exists s, (firstn 7 (k_log s)), (skipn 8 (k_log s)). split; [vm_compute; reflexivity|]. split; [reflexivity|]. split.
  - vm_compute. repeat (split; [first [exact Logic.I|intros X; first [discriminate X|lia|auto]]|]). exact Logic.I.
  - vm_compute in E. injection E as <-. split; vm_compute; reflexivity.
Qed.
Print Assumptions C90_rows_inserted_refuted.

Example C90_nonvacuous :
  (exists b, insert_block demo_ser demo_types [None; None; None] = Ok b /\ no_columns b = true /\ b_rows b = 3 /\
     is_ok (send_data (demo_conn false) b [] false) = true /\ is_ok (send_data (demo_conn true) b [] false) = true) /\
  (exists b, insert_block demo_ser demo_types [Some (1, [97]); Some (2, [98])] = Ok b /\ no_columns b = false /\ is_ok (send_data (demo_conn false) b [] false) = true) /\
  (exists b, insert_block demo_ser demo_types [Some (1, [97]); None] = Ok b /\ no_columns b = false /\ is_ok (send_data (demo_conn false) b [] false) = false) /\
  taken [demo_inserted; demo_marker; demo_inserted; empty_block] = [demo_inserted].
Proof. split; [eexists; split; [vm_compute; reflexivity|vm_compute; auto]|]. split; [eexists; split; [vm_compute; reflexivity|vm_compute; auto]|].
  split; [eexists; split; [vm_compute; reflexivity|vm_compute; auto]|vm_compute; reflexivity]. Qed.
