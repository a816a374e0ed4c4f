(** Property C67: a whole session on the wire, from the first byte to the last.
    Everything is quantified over all executions of [zstep]: every interleaving of callers,
    arriving bytes (cut anywhere), requests, blocked deliveries, write failures and broken
    sockets. *)
From Coq Require Import String Lia.
From Verif Require Import Base Io Types Text TypeText Utf8 IndexMap Block BlockSpec ColumnSpec Compression CompressionProofs Progress
  Protocol ProtocolSpec ProtocolProofs Connection ConnectionSpec ConnectionProofs Api ReaderLoop Session SessionSpec SessionProofs
  Props_TypeText Props_Block Props_Compression Props_Protocol Props_Connection.
Local Open Scope list_scope.
Local Open Scope N_scope.

(** Until the server has greeted, the client has written nothing but its hello, and no caller
    has been given a stream. *)
Theorem C67_nothing_before_hello : forall O B z, live O B z -> (forall h, z_phase z <> ZOpen h) ->
  (z_out z = [] \/ z_out z = send_hello (o_database O) (o_user O) (o_password O)) /\
  forall q st, k_view (z_conn z) q <> VStream st.
Proof.
  intros O B z L P. pose proof (live_inv O B z L) as I. unfold zinv in I. destruct (z_phase z).
  - destruct I as (I1 & I2 & _ & I4). split; [now left|]. intros q st V.
    assert (In q (map fst (sent_queries (k_log (z_conn z))))) as K by (apply (C27_streams B _ q (I4 B)); eauto). rewrite I2 in K. exact K.
  - destruct I as (I1 & _ & I2 & I4). split; [destruct I1 as [->|[-> _]]; auto|]. intros q st V.
    assert (In q (map fst (sent_queries (k_log (z_conn z))))) as K by (apply (C27_streams B _ q (I4 B)); eauto). rewrite I2 in K. exact K.
  - now destruct (P h).
Qed.

(** The revision used for the rest of the session is that of the hello with which the server's
    byte stream starts. *)
Theorem C67_negotiated : forall O B es z h, zrun O B session_init es = Some z -> z_phase z = ZOpen h ->
  exists rest, receive_hello (at_revision B 0) (zarrived es) = Ok (h, rest).
Proof. intros O B es z h R P. pose proof (session_greeted O B es z R) as J. unfold hinv in J. now rewrite P in J. Qed.

(** A server of that revision, reading the client's byte stream by the protocol, finds the
    hello with the user's options and then exactly the queries and data blocks the client
    sent, in order and with nothing left over; it cannot read anything else; and the queries
    are the first ones submitted, in order. *)
Theorem C67_server_sees : forall O B z h, live O B z -> z_phase z = ZOpen h ->
  let C := at_revision B (h_revision h) in
  tzdb_ok (c_tz B) -> (c_lz4 B = true -> codec_ok (c_codec B)) ->
  name_fits (o_database O) -> name_fits (o_user O) -> name_fits (o_password O) ->
  Forall (entry_ok C) (k_log (z_conn z)) ->
  exists bs rest ms, z_out z = 0 :: bs /\
    server_reads_hello bs = Ok ((txt "ClickHouse Rust-Klickhouse 0.15.2", 22, 9, 54448, o_database O, o_user O, o_password O), rest) /\
    server_reads C rest ms [] /\ (forall ms', server_reads C rest ms' [] -> ms' = ms) /\
    Forall2 sent_as (filter outgoing (k_log (z_conn z))) ms /\
    exists later, k_submitted (z_conn z) = asked ms ++ later.
Proof.
  intros O B z h L P C D K F1 F2 F3 E. pose proof (live_inv O B z L) as I. unfold zinv in I. rewrite P in I. destruct I as (R & OUT).
  destruct (server_reads_log C D K _ E) as (ms & S1 & S2).
  destruct (server_reads_client_hello (o_database O) (o_user O) (o_password O) (flat_map (entry_bytes C) (k_log (z_conn z))) F1 F2 F3) as (body & H1 & H2).
  exists (body ++ flat_map (entry_bytes C) (k_log (z_conn z))), (flat_map (entry_bytes C) (k_log (z_conn z))), ms.
  split; [rewrite OUT; unfold hello_bytes; rewrite H1; reflexivity|]. split; [exact H2|]. split; [exact S1|]. split.
  { intros ms' S'. symmetry. exact (server_reads_det C _ ms [] S1 eq_refl ms' [] S' eq_refl). }
  split; [exact S2|]. destruct (C27_sent_in_order C _ R) as (later & EL). exists (map snd later).
  rewrite (asked_sent _ _ S2), <- map_app, <- EL, number_snd. reflexivity.
Qed.

(** The packets the connection handles (and with C27 the items the callers get) are those of
    the server's byte stream after its hello, in order, however it is cut into reads, as long
    as no request is taken in the middle of a packet (the rest is C30's finding). *)
Theorem C67_packets_from_bytes : forall O B es z h, zrun O B session_init es = Some z -> calm O B es -> z_phase z = ZOpen h ->
  exists rest left, receive_hello (at_revision B 0) (zarrived es) = Ok (h, rest) /\
    decodes (at_revision B (h_revision h)) rest (incoming (k_log (z_conn z))) left.
Proof.
  intros O B es z h R K P. pose proof (session_reads O B es z R K) as J. unfold jinv in J. rewrite P in J.
  destruct J as (J1 & rest & left & J2 & J3 & _). rewrite J1 in J3. eauto.
Qed.

(** [Client::connect] succeeds only after the server has greeted and been sent the start
    query, the first one submitted. *)
Theorem C67_connected_means_greeted : forall O B z, live O B z -> connected (z_conn z) (Ok tt) ->
  exists h query rest sent, z_phase z = ZOpen h /\ k_submitted (z_conn z) = query :: rest /\
    sent_queries (k_log (z_conn z)) = (0%nat, query) :: sent.
Proof.
  intros O B z L K.
  assert (exists st, k_view (z_conn z) 0%nat = VStream st) as (st & V) by (inversion K; eauto).
  pose proof (live_inv O B z L) as I. unfold zinv in I.
  destruct (z_phase z) as [| |h] eqn:P.
  - exfalso. apply (proj2 (C67_nothing_before_hello O B z L ltac:(congruence)) 0%nat st V).
  - exfalso. apply (proj2 (C67_nothing_before_hello O B z L ltac:(congruence)) 0%nat st V).
  - destruct I as (R & _). assert (IN : In 0%nat (map fst (sent_queries (k_log (z_conn z))))) by (apply (C27_streams _ _ 0%nat R); eauto).
    destruct (C27_sent_in_order _ _ R) as (later & EL).
    destruct (sent_queries (k_log (z_conn z))) as [|[q t] sent]; [destruct IN|].
    destruct (k_submitted (z_conn z)) as [|query rest]; [discriminate EL|]. cbn in EL. injection EL as E1 E2 _. subst q t.
    exists h, query, rest, sent. repeat split.
Qed.

(** [connect] submits its settings query before anybody else has the client (client.rs 292-307);
    so the first query the server reads in any session is that one. *)
Theorem C67_first_query : forall O B es z h ms, zrun O B session_init es = Some z -> z_phase z = ZOpen h ->
  (exists later, zsubmitted es = start_query :: later) ->
  Forall2 sent_as (filter outgoing (k_log (z_conn z))) ms ->
  (exists later, zsubmitted es = asked ms ++ later) /\
  (asked ms = [] \/ exists more, asked ms = txt "SET date_time_input_format='best_effort'" :: more).
Proof.
  intros O B es z h ms R P (later & S) F. pose proof (zrun_submitted O B es _ _ R) as Q. cbn [z_conn session_init init k_submitted app] in Q.
  pose proof (live_inv O B z (zrun_live _ _ _ _ _ (live_init _ _) R)) as I. unfold zinv in I. rewrite P in I. destruct I as (RE & _).
  destruct (C27_sent_in_order _ _ RE) as (after & EL). rewrite (asked_sent _ _ F).
  assert (E : zsubmitted es = map snd (sent_queries (k_log (z_conn z))) ++ map snd after) by (rewrite <- Q, <- map_app, <- EL, number_snd; reflexivity).
  split; [eauto|]. destruct (map snd (sent_queries (k_log (z_conn z)))) as [|q more]; [now left|]. right. exists more.
  rewrite S in E. cbn [app] in E. injection E as E _. rewrite <- E. reflexivity.
Qed.
Print Assumptions C67_first_query.

(** Finding: a server that refuses the login (wrong password, say) answers the hello with an
    exception.  For every such exception the connection ends, and what [connect]'s caller is
    told is that a channel was closed: the server's reason does not reach anybody. *)
Theorem C67_login_reason_lost_refuted : forall O B e, exception_ok e ->
  exists z, zrun O B session_init
    [ZCall (Submit start_query); ZSendHello true; ZArrive (enc_packet (PException e)); ZPoll [] WOk] = Some z /\
  connected (z_conn z) (Err EProtocol) /\ k_log (z_conn z) = [] /\ k_task (z_conn z) = TEnded /\
  (forall q st, k_view (z_conn z) q <> VStream st).
Proof.
  intros O B e E.
  assert (R : receive_hello (at_revision B 0) (enc_packet (PException e)) = Err EServerException).
  { unfold receive_hello, rdbind. pose proof (C40_packets (at_revision B 0) (PException e) [] E I) as P. rewrite app_nil_r in P. rewrite P. reflexivity. }
  eexists. split; [|split; [|split; [|split]]].
  - cbn [zrun zstep callers_event step z_conn session_init init k_open k_task k_queue length Nat.ltb Nat.leb z_phase with_reader rstep r_failed z_reader reader_init r_partial r_avail app].
    rewrite R. reflexivity.
  - apply conn_failed. reflexivity.
  - reflexivity.
  - reflexivity.
  - intros [|q] st; discriminate.
Qed.

Definition demo_options : options := {| o_database := txt "db"; o_user := txt "default"; o_password := txt "secret" |}.
Definition demo_greeting : list N := enc_packet (PHello (demo_hello 54429)).

(** Finding: the connection breaking right after the start query was sent makes [connect]
    succeed: the caller holds a client whose connection is gone. *)
Theorem C67_connected_to_nobody_refuted : exists z, zrun demo_options (demo_conn false) session_init
    [ZCall (Submit start_query); ZSendHello true; ZArrive demo_greeting; ZPoll [] WOk; ZTake (txt "id") WOk; ZBroken] = Some z /\
  connected (z_conn z) (Ok tt) /\ k_task (z_conn z) = TEnded /\ incoming (k_log (z_conn z)) = [].
Proof.
  eexists. split; [vm_compute; reflexivity|]. split; [|split; reflexivity].
  match goal with |- connected ?s _ =>
    pose proof (conn_done s {| s_read := []; s_buf := []; s_tx := false; s_rx := true |} eq_refl eq_refl eq_refl eq_refl) as K end.
  exact K.
Qed.

(** A session with the greeting cut in two, a query, its answer cut in two, and an insert. *)
Definition demo_session : list zevent :=
  [ ZCall (Submit start_query); ZSendHello true; ZArrive (firstn 9 demo_greeting); ZPoll [] WOk;
    ZArrive (skipn 9 demo_greeting); ZPoll [] WOk; ZTake (txt "id0") WOk; ZArrive [5]; ZPoll [] WOk;
    ZCall (Submit (txt "INSERT")); ZTake (txt "id1") WOk;
    ZArrive [11; 0]; ZPoll [] WOk; ZArrive [1; 5; 4]; ZPoll [] WOk; ZCall (SubmitData 1 demo_block); ZTake [] WOk; ZPoll [] WOk; ZArrive [5]; ZPoll [] WOk ].

Example C67_nonvacuous : exists z, zrun demo_options (demo_conn false) session_init demo_session = Some z /\
  live demo_options (demo_conn false) z /\ z_phase z = ZOpen (demo_hello 54429) /\
  calm demo_options (demo_conn false) demo_session /\
  Forall (entry_ok (at_revision (demo_conn false) 54429)) (k_log (z_conn z)) /\
  incoming (k_log (z_conn z)) = [PEndOfStream; PTableColumns [] [5]; PPong; PEndOfStream] /\
  filter outgoing (k_log (z_conn z)) = [LQuery 0 start_query (txt "id0"); LData 0 empty_block; LQuery 1 (txt "INSERT") (txt "id1"); LData 1 empty_block; LData 1 demo_block] /\
  connected (z_conn z) (Ok tt).
Proof.
  assert (RUN : exists z, zrun demo_options (demo_conn false) session_init demo_session = Some z) by (vm_compute; eexists; reflexivity).
  destruct RUN as (z & RUN). exists z. split; [exact RUN|]. split; [exact (zrun_live _ _ _ _ _ (live_init _ _) RUN)|].
  split; [|split; [apply calmb_calm; vm_compute; reflexivity|]].
  { enough (E : option_map z_phase (zrun demo_options (demo_conn false) session_init demo_session) = Some (ZOpen (demo_hello 54429))) by
      (rewrite RUN in E; now injection E). vm_compute. reflexivity. }
  assert (LOG : k_log (z_conn z) = [LQuery 0 start_query (txt "id0"); LData 0 empty_block; LRecv PEndOfStream; LQuery 1 (txt "INSERT") (txt "id1");
      LData 1 empty_block; LRecv (PTableColumns [] [5]); LData 1 demo_block; LRecv PPong; LRecv PEndOfStream]).
  { enough (E : option_map (fun z => k_log (z_conn z)) (zrun demo_options (demo_conn false) session_init demo_session) = Some
      [LQuery 0 start_query (txt "id0"); LData 0 empty_block; LRecv PEndOfStream; LQuery 1 (txt "INSERT") (txt "id1");
      LData 1 empty_block; LRecv (PTableColumns [] [5]); LData 1 demo_block; LRecv PPong; LRecv PEndOfStream]) by
      (rewrite RUN in E; cbn [option_map] in E; congruence). vm_compute. reflexivity. }
  rewrite LOG. split; [|split; [reflexivity|split; [reflexivity|]]].
  - assert (FE : block_ok demo_uni demo_tz empty_block).
    { split; [constructor|]. split; [constructor|]. split; [intros k t []|]. split; reflexivity. }
    assert (NF : forall s, In s [start_query; txt "id0"; txt "INSERT"; txt "id1"] -> name_fits s).
    { intros s [<-|[<-|[<-|[<-|[]]]]]; (split; [reflexivity|vm_compute; discriminate]). }
    repeat (apply Forall_cons || apply Forall_nil); try exact I; try (split; apply NF; cbn; auto; fail).
    + split; [exact FE|]. split; [split; [discriminate|reflexivity]|discriminate].
    + split; [exact FE|]. split; [split; [discriminate|reflexivity]|discriminate].
    + split; [exact (proj1 C16_nonvacuous)|]. split; [split; [discriminate|reflexivity]|discriminate].
  - assert (V : k_view (z_conn z) 0%nat = VStream {| s_read := []; s_buf := []; s_tx := false; s_rx := true |}).
    { enough (E : option_map (fun z => k_view (z_conn z) 0%nat) (zrun demo_options (demo_conn false) session_init demo_session) =
        Some (VStream {| s_read := []; s_buf := []; s_tx := false; s_rx := true |})) by (rewrite RUN in E; cbn [option_map] in E; congruence).
      vm_compute. reflexivity. }
    change (Ok tt) with (execute []). exact (conn_done _ _ V eq_refl eq_refl eq_refl).
Qed.

Print Assumptions C67_nothing_before_hello.
Print Assumptions C67_negotiated.
Print Assumptions C67_server_sees.
Print Assumptions C67_packets_from_bytes.
Print Assumptions C67_connected_means_greeted.
Print Assumptions C67_login_reason_lost_refuted.
Print Assumptions C67_connected_to_nobody_refuted.
