(** Properties C27, C28, C29, C48, C49, C52, C53: one connection, many callers.
    All quantify over every reachable state of the connection, i.e. over every interleaving of
    submissions, packets, reads, abandoned streams, write failures and disconnections. *)
From Coq Require Import String Lia.
From Verif Require Import Base Types Text IndexMap Block Progress Protocol Connection ConnectionSpec ConnectionProofs ConnectionExact
  Props_Block Props_Protocol.
Local Open Scope list_scope.
Local Open Scope nat_scope.

(* ===================== C27 ===================== *)

(** Queries go out in the order in which they were submitted, none twice, none invented. *)
Theorem C27_sent_in_order : forall C s, reachable C s ->
  exists rest, number 0 (k_submitted s) = sent_queries (k_log s) ++ rest.
Proof. intros C s R. destruct (reachable_inv C s R) as [I _]. exact (i_prefix _ _ I). Qed.

(** A query goes out only when the server has ended the one before. *)
Theorem C27_one_in_flight : forall C s, reachable C s -> one_at_a_time false (k_log s).
Proof. intros C s R. destruct (reachable_inv C s R) as [I _]. exact (i_serial _ _ I). Qed.

(** What the caller of [q] has read, can read, or is being handed is exactly the server's
    answer to [q]: the blocks (and the exception) received while [q] was in flight, in order.
    A caller that went away has read a prefix of it. *)
Theorem C27_delivery : forall C s q st, reachable C s -> k_view s q = VStream st ->
  (s_rx st = true -> s_read st ++ s_buf st ++ in_transit s q = answer q (k_log s)) /\
  (exists rest, answer q (k_log s) = s_read st ++ rest).
Proof.
  intros C s q st R V. destruct (reachable_inv C s R) as [I _]. pose proof (i_views _ _ I q) as W. unfold view_ok in W.
  rewrite V in W. destruct W as (_ & W2 & W3 & _). split; assumption.
Qed.

(** Only callers of queries that were sent have a stream, and all of them do. *)
Theorem C27_streams : forall C s q, reachable C s ->
  (exists st, k_view s q = VStream st) <-> In q (map fst (sent_queries (k_log s))).
Proof.
  intros C s q R. destruct (reachable_inv C s R) as [I _]. split; [|exact (i_streams _ _ I q)].
  intros [st V]. pose proof (i_views _ _ I q) as W. unfold view_ok in W. rewrite V in W. apply W.
Qed.

Definition demo_query (n : nat) : text := txt "SELECT " ++ [N.of_nat (48 + n)].
Definition demo_exception : server_exception :=
  {| x_code := 241; x_name := txt "DB::Exception"; x_message := txt "Memory limit"; x_stack := []; x_nested := false |}.
Definition demo_progress : progress :=
  {| read_rows := 5; read_bytes := 40; new_total_rows_to_read := 10; new_written_rows := None; new_written_bytes := None |}.
(** Three callers, interleaved: the first gets two blocks, the second an exception. *)
Definition demo_run : list event :=
  [ Submit (demo_query 0); Submit (demo_query 1); Take (txt "id0") WOk; Take [] WOk;
    Packet (PData [] demo_block) [] WOk; Submit (demo_query 2); Packet (PProgress demo_progress) [] WOk; Consume 0;
    Packet (PData [] empty_block) [] WOk; Take [] WOk; Packet PEndOfStream (txt "id1") WOk; Consume 0;
    Packet (PData [] demo_block) [] WOk; Packet (PException demo_exception) (txt "id2") WOk; Consume 1; Consume 1;
    Packet (PData [] demo_block) [] WOk ].

Example C27_nonvacuous : exists s, run (demo_conn false) init demo_run = Some s /\ reachable (demo_conn false) s /\
  sent_queries (k_log s) = [(0, demo_query 0); (1, demo_query 1); (2, demo_query 2)] /\
  answer 0 (k_log s) = [IBlock demo_block; IBlock empty_block] /\
  answer 1 (k_log s) = [IBlock demo_block; IError demo_exception] /\
  answer 2 (k_log s) = [IBlock demo_block] /\
  k_view s 1 = VStream {| s_read := [IBlock demo_block; IError demo_exception]; s_buf := []; s_tx := false; s_rx := true |} /\
  k_published s = [(txt "id0", demo_progress)].
Proof.
  destruct (run (demo_conn false) init demo_run) as [s|] eqn:E; [|vm_compute in E; discriminate E].
  exists s. split; [reflexivity|]. split; [exact (run_reachable _ _ _ _ (reach_init _) E)|].
  vm_compute in E. injection E as <-. vm_compute. repeat split.
Qed.

Print Assumptions C27_sent_in_order.
Print Assumptions C27_one_in_flight.
Print Assumptions C27_delivery.
Print Assumptions C27_streams.

(* ===================== C28 ===================== *)

(** A caller gets at most one exception, it is the last item, and then the query is over... *)
Theorem C28_error_is_last : forall C s q st l1 e l2, reachable C s -> k_view s q = VStream st -> s_rx st = true ->
  s_read st ++ s_buf st ++ in_transit s q = l1 ++ IError e :: l2 -> l2 = [] /\ ended q (k_log s) = true.
Proof.
  intros C s q st l1 e l2 R V RX H. destruct (C27_delivery C s q st R V) as [D _]. rewrite (D RX) in H.
  now apply (answer_shape q (k_log s) l1 e l2).
Qed.
(** ... so that after it the caller sees the end of the stream. *)
Theorem C28_then_end_of_stream : forall C s q st, reachable C s -> k_view s q = VStream st -> ended q (k_log s) = true ->
  (forall i, k_task s <> TSending q i true) -> s_tx st = false.
Proof.
  intros C s q st R V E N. destruct (s_tx st) eqn:T; [|reflexivity].
  apply (closed_iff C s q st R V) in T as [_ [T|[i T]]]; [congruence|]. now elim (N i).
Qed.
(** The exception reaches the query in flight only; the next waiting query is sent at once, and
    nobody else's view changes. *)
Theorem C28_next_query_is_sent : forall C s q u e id s' q2 t2 rest, reachable C s ->
  in_flight (k_log s) = Some (q, u) -> k_pending s = (q2, t2) :: rest ->
  step C s (Packet (PException e) id WOk) = Some s' -> k_task s' = TSelect ->
  k_log s' = k_log s ++ [LRecv (PException e); LQuery q2 t2 id; LData q2 empty_block] /\
  (forall n, n <> q -> n <> q2 -> k_view s' n = k_view s n) /\
  (exists st, k_view s' q = VStream st /\ s_tx st = false).
Proof.
  intros C s q u e id s' q2 t2 rest R F P H T'. destruct (reachable_inv C s R) as [I ID].
  cbn [step] in H. destruct (k_task s) eqn:T; try discriminate H. injection H as <-.
  assert (RU : running s) by (unfold running; rewrite T; discriminate).
  pose proof (i_exec _ _ I RU) as X. rewrite F in X.
  assert (Q : In q (map fst (sent_queries (k_log s)))) by (apply flight_sent in F as [F|F]; [discriminate|exact F]).
  assert (NQ : q2 <> q).
  { intros ->. pose proof (i_numbers _ _ I RU) as NU. rewrite P in NU. cbn in NU.
    assert (ND : NoDup (map fst (number 0 (k_submitted s)))) by (rewrite number_fst; apply seq_NoDup).
    rewrite <- NU, map_app in ND. cbn in ND. apply NoDup_remove_2 in ND. apply ND. apply in_or_app. now left. }
  destruct (i_streams _ _ I q Q) as [st V].
  unfold receive_packet in *. cbn [k_exec add_log] in *. rewrite X in *. unfold deliver in *. cbn [k_view set_exec add_log] in *. rewrite V in *.
  destruct (send_item st (IError e)) as [st'|] eqn:SI; [|discriminate T'].
  unfold delivered, next_query in *. cbn [k_pending set_view set_task set_exec add_log] in *. rewrite P in *.
  cbn. rewrite <- !app_assoc. split; [reflexivity|]. split.
  - intros n N1 N2. destruct (Nat.eqb_spec n q2); [contradiction|]. destruct (Nat.eqb_spec n q); [contradiction|reflexivity].
  - destruct (Nat.eqb_spec q q2) as [E|_]; [congruence|]. rewrite !Nat.eqb_refl. cbn. eauto.
Qed.

Example C28_nonvacuous : exists s s', run (demo_conn false) init (firstn 13 demo_run) = Some s /\
  in_flight (k_log s) = Some (1, txt "id1") /\ k_pending s = [(2, demo_query 2)] /\
  step (demo_conn false) s (Packet (PException demo_exception) (txt "id2") WOk) = Some s' /\ k_task s' = TSelect.
Proof.
  destruct (run (demo_conn false) init (firstn 13 demo_run)) as [s|] eqn:E; [|vm_compute in E; discriminate E].
  vm_compute in E. injection E as <-. eexists. eexists. split; [reflexivity|]. vm_compute. repeat split.
Qed.

Print Assumptions C28_error_is_last.
Print Assumptions C28_then_end_of_stream.
Print Assumptions C28_next_query_is_sent.

(* ===================== C29 ===================== *)

(** Whenever the task waits for something to do and has looked at every request, the queries
    on the wire are the first [1 + number of queries the server has ended] submitted ones: if
    none is in flight, none is waiting, and each further ended query lets one more out. *)
Theorem C29_no_query_forgotten : forall C s, reachable C s -> k_task s = TSelect -> k_queue s = [] ->
  sent_queries (k_log s) = firstn (S (terminators (k_log s))) (number 0 (k_submitted s)).
Proof. exact caught_up. Qed.

(** A request can always be looked at when the task waits. *)
Theorem C29_requests_are_taken : forall C s, reachable C s -> k_task s = TSelect -> k_queue s <> [] ->
  exists s', step C s (Take [] WOk) = Some s' /\ length (k_queue s') < length (k_queue s).
Proof.
  intros C s R T Q. cbn [step]. rewrite T. destruct (k_queue s) as [|r rest] eqn:E; [contradiction|].
  eexists. split; [reflexivity|]. destruct r as [q t|q b]; cbn [handle_request].
  - cbn. destruct (k_pending s), (k_exec s); cbn; lia.
  - destruct (send_data C b [] false); cbn; lia.
Qed.

(** While the connection lives every caller waits or has its stream; when it has ended every
    caller has an error or a stream that is closed. *)
Theorem C29_callers_while_alive : forall C s q, reachable C s -> k_task s <> TEnded -> q < length (k_submitted s) ->
  (exists a, k_view s q = VWaiting a) \/ (exists st, k_view s q = VStream st).
Proof.
  intros C s q R T Q. destruct (reachable_inv C s R) as [I _]. pose proof (i_views _ _ I q) as W. unfold view_ok in W.
  destruct (k_view s q); eauto; [lia|]. destruct W as [W _]. contradiction.
Qed.
Theorem C29_callers_when_ended : forall C s q, reachable C s -> k_task s = TEnded -> q < length (k_submitted s) ->
  k_view s q = VFailed \/ (exists st, k_view s q = VStream st /\ s_tx st = false).
Proof.
  intros C s q R T Q. destruct (reachable_inv C s R) as [I _]. pose proof (i_views _ _ I q) as W. unfold view_ok in W.
  destruct (k_view s q) as [| | |st] eqn:V; auto; [lia| |].
  - destruct W as [W _]. elim W. exact T.
  - right. exists st. split; [reflexivity|]. destruct (s_tx st) eqn:TX; [|reflexivity].
    apply (closed_iff C s q st R V) in TX as [TX _]. elim TX. exact T.
Qed.

Example C29_nonvacuous : exists s, run (demo_conn false) init (firstn 12 demo_run) = Some s /\
  k_task s = TSelect /\ k_queue s = [] /\ terminators (k_log s) = 1 /\ length (k_submitted s) = 3 /\ map fst (sent_queries (k_log s)) = [0; 1] /\
  (exists s', step (demo_conn false) s ReadError = Some s' /\ k_view s' 2 = VFailed).
Proof.
  destruct (run (demo_conn false) init (firstn 12 demo_run)) as [s|] eqn:E; [|vm_compute in E; discriminate E].
  vm_compute in E. injection E as <-. eexists. split; [reflexivity|]. vm_compute. repeat split. eexists. split; reflexivity.
Qed.

Print Assumptions C29_no_query_forgotten.
Print Assumptions C29_requests_are_taken.
Print Assumptions C29_callers_while_alive.
Print Assumptions C29_callers_when_ended.

(* ===================== C48 ===================== *)

(** What is broadcast is exactly the progress packets received while a query was in flight,
    in order, each with the id that was sent with that query. *)
Theorem C48_progress_attribution : forall C s, reachable C s -> k_published s = progress_of None (k_log s).
Proof. intros C s R. destruct (reachable_inv C s R) as [I _]. exact (i_published _ _ I). Qed.

Example C48_nonvacuous : exists s, run (demo_conn false) init (firstn 7 demo_run) = Some s /\
  k_published s = [(txt "id0", demo_progress)] /\
  progress_of None [LRecv (PProgress demo_progress); LQuery 0 [] (txt "a"); LRecv (PProgress demo_progress); LRecv PEndOfStream;
                    LRecv (PProgress demo_progress)] = [(txt "a", demo_progress)].
Proof.
  destruct (run (demo_conn false) init (firstn 7 demo_run)) as [s|] eqn:E; [|vm_compute in E; discriminate E].
  vm_compute in E. injection E as <-. eexists. split; [reflexivity|]. vm_compute. split; reflexivity.
Qed.
Print Assumptions C48_progress_attribution.

(* ===================== C49 ===================== *)

(** Insert data goes out while its query is in flight or after the server has ended it. *)
Theorem C49_in_flight_or_ended : forall C s l1 q b l2, reachable C s -> k_log s = l1 ++ LData q b :: l2 ->
  (exists u, in_flight l1 = Some (q, u)) \/ ended q l1 = true.
Proof. intros C s l1 q b l2 R E. destruct (reachable_inv C s R) as [I _]. exact (i_data _ _ I _ _ _ _ E). Qed.

(** Which of the two: a block goes out while its own query is in flight exactly if the server has
    not ended that query before. *)
Theorem C49_own_query_iff : forall C s l1 q b l2, reachable C s -> k_log s = l1 ++ LData q b :: l2 ->
  (exists u, in_flight l1 = Some (q, u)) <-> ended q l1 = false.
Proof. exact data_in_flight_iff. Qed.

(** In the other case the block goes out all the same: on an idle connection or in the middle of
    whatever query is in flight by then. *)
Theorem C49_late_data_is_sent : forall C s q b st bytes id, reachable C s -> k_open s = true -> k_task s = TSelect -> k_queue s = [] ->
  k_view s q = VStream st -> s_rx st = true -> send_data C b [] false = Ok bytes ->
  exists s', run C s [SubmitData q b; Take id WOk] = Some s' /\ k_log s' = k_log s ++ [LData q b].
Proof.
  intros C s q b st bytes id R O T Q V RX S. destruct (late_data_accepted C s q b st O T V RX) as (s1 & E1 & Q1 & L1); [rewrite Q; cbn; lia|].
  assert (T1 : k_task s1 = TSelect).
  { cbn [step] in E1. rewrite O, T, V, RX, Q in E1. cbn in E1. injection E1 as <-. exact T. }
  rewrite Q in Q1. destruct (data_taken C s1 q b [] bytes id T1 Q1 S) as (s2 & E2 & L2).
  exists s2. cbn [run]. rewrite E1, E2. split; [reflexivity|]. now rewrite L2, L1.
Qed.

(** Finding: so the data of an insert the server has rejected can be sent in the middle of the
    next insert, and the server takes it for data of that one. *)
Definition demo_misplaced : list event :=
  [ Submit (txt "INSERT INTO a FORMAT Native"); Submit (txt "INSERT INTO b FORMAT Native"); Take (txt "id0") WOk; Take [] WOk;
    Packet (PData [] demo_block) [] WOk; Consume 0; Packet (PException demo_exception) (txt "id1") WOk;
    SubmitData 0 demo_block; Take [] WOk ].
Theorem C49_foreign_data_refuted : exists s l1 l2, reachable (demo_conn false) s /\
  k_log s = l1 ++ LData 0 demo_block :: l2 /\ in_flight l1 = Some (1, txt "id1").
Proof.
  destruct (run (demo_conn false) init demo_misplaced) as [s|] eqn:E; [|vm_compute in E; discriminate E].
  exists s. pose proof (run_reachable _ _ _ _ (reach_init _) E) as R.
  exists (firstn 6 (k_log s)), []. split; [exact R|]. vm_compute in E. injection E as <-. vm_compute. split; reflexivity.
Qed.

Example C49_nonvacuous : exists s l1 l2, reachable (demo_conn false) s /\ k_log s = l1 ++ LData 0 demo_block :: l2 /\
  in_flight l1 = Some (0, txt "id0").
Proof.
  destruct (run (demo_conn false) init [Submit (txt "INSERT"); Take (txt "id0") WOk; SubmitData 0 demo_block; Take [] WOk]) as [s|] eqn:E;
    [|vm_compute in E; discriminate E].
  exists s. pose proof (run_reachable _ _ _ _ (reach_init _) E) as R.
  exists (firstn 2 (k_log s)), []. split; [exact R|]. vm_compute in E. injection E as <-. vm_compute. split; reflexivity.
Qed.
Print Assumptions C49_in_flight_or_ended.
Print Assumptions C49_own_query_iff.
Print Assumptions C49_late_data_is_sent.
Print Assumptions C49_foreign_data_refuted.

(* ===================== C52 ===================== *)

(** While the connection lives, a stream that has ended had the complete answer. *)
Theorem C52_complete_while_alive : forall C s q st, reachable C s -> k_task s <> TEnded ->
  k_view s q = VStream st -> s_tx st = false -> s_buf st = [] -> s_rx st = true ->
  ended q (k_log s) = true /\ s_read st = answer q (k_log s).
Proof.
  intros C s q st R T V TX B RX. pose proof (closed_iff C s q st R V) as W.
  assert (EN : ended q (k_log s) = true) by (destruct (ended q (k_log s)) eqn:EN; [reflexivity|]; assert (s_tx st = true) by (apply W; auto); congruence).
  split; [exact EN|]. destruct (C27_delivery C s q st R V) as [D _]. rewrite <- (D RX), B. cbn.
  unfold in_transit. destruct (k_task s) as [|q' i [|]|] eqn:K; rewrite ?app_nil_r; try reflexivity.
  - destruct (Nat.eqb_spec q' q) as [->|NE]; [|now rewrite app_nil_r].
    assert (s_tx st = true) by (apply W; split; [unfold running; rewrite K; exact T|eauto]). congruence.
  - destruct (Nat.eqb_spec q' q) as [->|NE]; [|now rewrite app_nil_r].
    destruct (reachable_inv C s R) as [I _]. destruct (i_sending _ _ I _ _ _ K) as [_ [u X]].
    assert (RU : running s) by (unfold running; rewrite K; discriminate).
    rewrite (i_exec _ _ I RU) in X.
    assert (ended q (k_log s) = false) by (apply (flight_not_ended s []); eauto; apply flight_sent in X as [X|X]; [discriminate|exact X]). congruence.
Qed.

(** Whether it lives or not, a caller that has read its stream to the end has read everything
    the client received for its query; what may be missing is only what the server had not
    delivered when the connection was lost. *)
Theorem C52_nothing_received_is_lost : forall C s q st, reachable C s -> k_view s q = VStream st ->
  s_tx st = false -> s_buf st = [] -> s_rx st = true ->
  s_read st = answer q (k_log s) /\ (ended q (k_log s) = false -> k_task s = TEnded).
Proof.
  intros C s q st R V TX B RX. destruct (k_task s) as [| |] eqn:T.
  - assert (A : k_task s <> TEnded) by congruence. destruct (C52_complete_while_alive C s q st R A V TX B RX). split; [assumption|congruence].
  - assert (A : k_task s <> TEnded) by congruence. destruct (C52_complete_while_alive C s q st R A V TX B RX). split; [assumption|congruence].
  - split; [|reflexivity]. destruct (C27_delivery C s q st R V) as [D _]. rewrite <- (D RX), B. unfold in_transit. rewrite T. cbn. now rewrite app_nil_r.
Qed.

(** However the connection ends while the answer to [q] is incomplete: the caller reads what was
    received so far, and then sees the end of the stream; no item tells it that something is
    missing. *)
Theorem C52_lost_connection_ends_silently : forall C s ev s' q u st, reachable C s -> in_flight (k_log s) = Some (q, u) ->
  k_view s q = VStream st -> s_rx st = true -> step C s ev = Some s' -> gives_up s ev ->
  exists s'', run C s' (repeat (Consume q) (length (s_buf st))) = Some s'' /\
    k_view s'' q = VStream {| s_read := answer q (k_log s); s_buf := []; s_tx := false; s_rx := true |} /\
    ended q (k_log s'') = false /\ Forall (fun i => exists b, i = IBlock b) (answer q (k_log s)).
Proof.
  intros C s ev s' q u st R F V RX H G. destruct (gives_up_ends C s ev s' H G) as (T' & V' & E' & A'). specialize (V' q st V).
  assert (NE : ended q (k_log s) = false).
  { destruct (reachable_inv C s R) as [I _]. apply (flight_not_ended s []); auto.
    - destruct (flight_sent _ _ _ _ F) as [X|X]; [discriminate|exact X].
    - eauto. }
  assert (T : k_task s = TSelect).
  { destruct ev; cbn in G; try contradiction; cbn [step] in H; destruct (k_task s); try discriminate H; reflexivity. }
  assert (AN : s_read st ++ s_buf st = answer q (k_log s)).
  { destruct (C27_delivery C s q st R V) as [D _]. rewrite <- (D RX). unfold in_transit. now rewrite T, app_nil_r. }
  destruct (drain C (s_buf st) s' q _ V' RX eq_refl) as (s2 & RU & V2 & L2 & _). cbn [s_read s_tx] in V2. rewrite AN in V2.
  exists s2. split; [exact RU|]. split; [exact V2|]. split; [rewrite L2; exact (E' q NE)|].
  eapply Forall_impl; [|exact (no_error_before_the_end q (k_log s) NE)]. intros [b|e]; [eauto|contradiction].
Qed.

(** Finding: if the connection breaks in the middle of a result, or the last handle is dropped,
    the stream ends without an error and the caller cannot tell. *)
Theorem C52_truncated_refuted : forall last, In last [[ReadError]; [CloseHandles; Closed]] ->
  exists s st, run (demo_conn false) init ([Submit (demo_query 0); Take (txt "id0") WOk; Packet (PData [] demo_block) [] WOk; Consume 0] ++ last) = Some s /\
  k_view s 0 = VStream st /\ s_tx st = false /\ s_buf st = [] /\ s_rx st = true /\ s_read st = [IBlock demo_block] /\
  ended 0 (k_log s) = false.
Proof.
  intros last [<-|[<-|[]]];
    (match goal with |- exists s st, ?r = Some s /\ _ => destruct r as [s|] eqn:E; [|vm_compute in E; discriminate E] end;
     vm_compute in E; injection E as <-; eexists; eexists; split; [reflexivity|]; vm_compute; repeat split).
Qed.

Example C52_nonvacuous : exists s st, run (demo_conn false) init (firstn 12 demo_run) = Some s /\ k_task s = TSelect /\
  k_view s 0 = VStream st /\ s_tx st = false /\ s_buf st = [] /\ s_rx st = true.
Proof.
  destruct (run (demo_conn false) init (firstn 12 demo_run)) as [s|] eqn:E; [|vm_compute in E; discriminate E].
  vm_compute in E. injection E as <-. eexists. eexists. split; [reflexivity|]. vm_compute. repeat split.
Qed.
Print Assumptions C52_complete_while_alive.
Print Assumptions C52_nothing_received_is_lost.
Print Assumptions C52_lost_connection_ends_silently.
Print Assumptions C52_truncated_refuted.

(* ===================== C53 ===================== *)

(** The task is held up by a caller only if that caller keeps 32 unread items... *)
Theorem C53_held_up_only_by_a_full_stream : forall C s q i next, reachable C s -> k_task s = TSending q i next ->
  (exists s', step C s (Resume [] WOk) = Some s') \/
  (exists st, k_view s q = VStream st /\ s_rx st = true /\ length (s_buf st) = 32).
Proof.
  intros C s q i next R T. destruct (reachable_inv C s R) as [I _]. destruct (i_sending _ _ I _ _ _ T) as [[st V] _].
  cbn [step]. rewrite T, V. unfold send_item. pose proof (i_views _ _ I q) as W. unfold view_ok in W. rewrite V in W.
  destruct W as (_ & _ & _ & _ & L & _). unfold CHANNEL in *.
  destruct (s_rx st) eqn:RX; [|left; eauto]. destruct (Nat.ltb_spec (length (s_buf st)) 32) as [H|H]; [left; eauto|].
  right. exists st. repeat split; auto. lia.
Qed.
(** ... and goes on as soon as it reads one of them or drops the stream. *)
Theorem C53_reading_releases : forall C s q i next st ev s', reachable C s -> k_task s = TSending q i next -> k_view s q = VStream st ->
  (ev = Consume q \/ ev = Abandon q) -> step C s ev = Some s' -> exists s'', step C s' (Resume [] WOk) = Some s''.
Proof.
  intros C s q i next st ev s' R T V EV H. destruct (reachable_inv C s R) as [I _].
  pose proof (i_views _ _ I q) as W. unfold view_ok in W. rewrite V in W. destruct W as (_ & _ & _ & _ & L & _).
  destruct EV as [EV|EV]; subst ev; cbn [step] in H; rewrite V in H.
  - destruct (s_rx st) eqn:RX; [|discriminate H]. destruct (s_buf st) as [|x l] eqn:B; [discriminate H|]. injection H as <-.
    cbn [step k_task k_view set_view]. rewrite T, Nat.eqb_refl. unfold send_item. cbn [s_rx s_buf s_read s_tx]. cbn in L. destruct (Nat.ltb_spec (length l) CHANNEL); [eauto|unfold CHANNEL in *; lia].
  - injection H as <-. cbn. rewrite T, Nat.eqb_refl. unfold send_item. cbn. eauto.
Qed.

(** Until then nothing is sent on the connection, whatever the other callers and the server
    do: the schedule may hold any events except reading or dropping that one stream. *)
Theorem C53_blocked_while_full : forall C s q i next st, reachable C s -> k_task s = TSending q i next ->
  k_view s q = VStream st -> s_rx st = true -> length (s_buf st) = 32 ->
  forall evs s', Forall (fun ev => ev <> Consume q /\ ev <> Abandon q) evs -> run C s evs = Some s' ->
  k_log s' = k_log s /\ k_task s' <> TSelect.
Proof.
  intros C s q i next st R T V RX F evs s' A H. destruct (reachable_inv C s R) as [I _].
  assert (QL : q < length (k_submitted s)).
  { pose proof (i_views _ _ I q) as W. unfold view_ok in W. rewrite V in W. destruct W as (M & _).
    destruct (i_prefix _ _ I) as [rest P]. assert (M' : In q (map fst (number 0 (k_submitted s)))) by (rewrite P, map_app; apply in_or_app; now left).
    rewrite number_fst in M'. apply in_seq in M'. lia. }
  assert (S : stuck s q) by (exists i, next, st; auto).
  destruct (stuck_run C evs s q s' S A H QL) as [S' LG]. split; [exact LG|].
  destruct S' as (i' & n' & st' & T' & _). rewrite T'. discriminate.
Qed.

(** Finding: a caller that keeps one
    result unread blocks every other query, for ever, whatever the others and the server do. *)
Definition demo_stuck : list event :=
  [Submit (demo_query 0); Take (txt "id0") WOk] ++ repeat (Packet (PData [] demo_block) [] WOk) 33.
Theorem C53_unread_stream_blocks_everyone_refuted : exists s, reachable (demo_conn false) s /\
  forall evs s', Forall (fun ev => ev <> Consume 0 /\ ev <> Abandon 0) evs ->
    run (demo_conn false) s (Submit (demo_query 1) :: evs) = Some s' ->
    k_log s' = k_log s /\ ~ In 1 (map fst (sent_queries (k_log s'))) /\ k_task s' <> TEnded.
Proof.
  destruct (run (demo_conn false) init demo_stuck) as [s|] eqn:E; [|vm_compute in E; discriminate E].
  exists s. split; [exact (run_reachable _ _ _ _ (reach_init _) E)|]. intros evs s' A H.
  assert (S : stuck s 0 /\ 0 < length (k_submitted s) /\ map fst (sent_queries (k_log s)) = [0]).
  { vm_compute in E. injection E as <-. split; [|split; [cbn; lia|reflexivity]].
    eexists. eexists. eexists. repeat split. }
  destruct S as (S & L & SE).
  assert (A' : Forall (fun ev => ev <> Consume 0 /\ ev <> Abandon 0) (Submit (demo_query 1) :: evs)) by (constructor; [split; discriminate|exact A]).
  destruct (stuck_run (demo_conn false) _ s 0 s' S A' H L) as [S' LG]. split; [exact LG|]. rewrite LG, SE. split.
  - intros [X|[]]. discriminate X.
  - destruct S' as (i & n & st & T & _). rewrite T. discriminate.
Qed.
Example C53_nonvacuous : exists s q i next st s', run (demo_conn false) init demo_stuck = Some s /\
  k_task s = TSending q i next /\ k_view s q = VStream st /\ step (demo_conn false) s (Consume q) = Some s'.
Proof.
  destruct (run (demo_conn false) init demo_stuck) as [s|] eqn:E; [|vm_compute in E; discriminate E].
  vm_compute in E. injection E as <-. eexists. eexists. eexists. eexists. eexists. eexists. split; [reflexivity|]. vm_compute. repeat split.
Qed.
Print Assumptions C53_held_up_only_by_a_full_stream.
Print Assumptions C53_reading_releases.
Print Assumptions C53_blocked_while_full.
Print Assumptions C53_unread_stream_blocks_everyone_refuted.
