(** Further facts about every reachable connection: where insert data goes, how a stream ends
    when the connection does, what becomes of an exception nobody waits for, and a server that
    waits for the end of the data. *)
From Coq Require Import Lia.
From Verif Require Import Base Types IndexMap Block Progress Protocol Connection ConnectionSpec ConnectionProofs.
Local Open Scope list_scope.
Local Open Scope nat_scope.

Lemma prefix_serial (l1 l2 : list entry) b : one_at_a_time b (l1 ++ l2) -> one_at_a_time b l1.
Proof.
  revert b. induction l1 as [|[q t id|q d|p] l1 IH]; intros b H; [exact I| | |]; cbn in *.
  - destruct H as [E H]. split; [exact E|]. now apply IH.
  - now apply IH.
  - now apply IH.
Qed.

(** A block goes out while its own query is in flight exactly if the server has not ended that query. *)
Lemma data_in_flight_iff C s l1 q b l2 : reachable C s -> k_log s = l1 ++ LData q b :: l2 ->
  (exists u, in_flight l1 = Some (q, u)) <-> ended q l1 = false.
Proof.
  intros R E. destruct (reachable_inv C s R) as [I _].
  assert (A : one_at_a_time (isSome (@None (nat * text))) l1) by (pose proof (i_serial _ _ I) as W; rewrite E in W; exact (prefix_serial _ _ _ W)).
  assert (B : NoDup (map fst (sent_queries l1))) by (pose proof (sent_nodup _ _ I) as W; rewrite E, sent_app, map_app in W; exact (nodup_left _ _ W)).
  assert (FL : forall u, in_flight l1 = Some (q, u) -> ended q l1 = false).
  { intros u F1. destruct (flight_sent _ _ _ _ F1) as [X|X]; [discriminate|]. apply (proj1 (flight_ended l1 None q A B X)). eauto. }
  destruct (i_data _ _ I _ _ _ _ E) as [[u F]|EN].
  - split; [|eauto]. intros [u' F1]. eauto.
  - split; [|congruence]. intros [u F1]. eauto.
Qed.
Lemma data_taken C s q b rest bytes id : k_task s = TSelect -> k_queue s = RData q b :: rest -> send_data C b [] false = Ok bytes ->
  exists s', step C s (Take id WOk) = Some s' /\ k_log s' = k_log s ++ [LData q b].
Proof. intros T Q S. cbn [step]. rewrite T, Q. eexists. split; [reflexivity|]. cbn [handle_request]. now rewrite S. Qed.
(** The caller of an insert that the server has already ended can still hand over a block. *)
Lemma late_data_accepted C s q b st : k_open s = true -> k_task s = TSelect -> k_view s q = VStream st -> s_rx st = true ->
  length (k_queue s) < 1024 -> exists s', step C s (SubmitData q b) = Some s' /\ k_queue s' = k_queue s ++ [RData q b] /\ k_log s' = k_log s.
Proof.
  intros O T V RX L. cbn [step]. rewrite O, T, V, RX. destruct (Nat.ltb_spec (length (k_queue s)) 1024); [|lia]. cbn. eauto.
Qed.

(** The connection ends: whatever the reason, every open stream ends there, without an item. *)
Lemma no_error_before_the_end q log : ended q log = false -> Forall (fun i => match i with IError _ => False | _ => True end) (answer q log).
Proof.
  intros E. apply Forall_forall. intros i Hi. destruct i as [b|e]; [exact I|]. apply in_split in Hi as (l1 & l2 & X).
  apply answer_shape in X as [_ X]. congruence.
Qed.
Lemma gives_up_ends C s ev s' : step C s ev = Some s' -> gives_up s ev -> k_task s' = TEnded /\
  (forall q st, k_view s q = VStream st -> k_view s' q = VStream {| s_read := s_read st; s_buf := s_buf st; s_tx := false; s_rx := s_rx st |}) /\
  (forall q, ended q (k_log s) = false -> ended q (k_log s') = false) /\ (forall q, answer q (k_log s') = answer q (k_log s)).
Proof.
  intros H G. destruct ev; cbn in G; try contradiction; cbn [step] in H.
  - destruct (k_queue s) as [|[q t|q b] rest]; try contradiction. destruct (k_task s) eqn:T; try discriminate H. injection H as <-.
    cbn [handle_request]. destruct (send_data C b [] false); [destruct w; [contradiction| |]|..]; cbn;
      (split; [reflexivity|]; split; [intros q0 st V; rewrite V; reflexivity|auto]).
  - destruct p; try contradiction. destruct (k_task s) eqn:T; try discriminate H. injection H as <-. cbn.
    split; [reflexivity|]. split; [intros q0 st V; rewrite V; reflexivity|].
    assert (EH : forall l, ended_here (l ++ [LRecv (PHello h)]) = ended_here l) by (intros l; rewrite ended_here_snoc; cbn; now rewrite Bool.orb_false_r).
    assert (AH : forall l, answer_here (l ++ [LRecv (PHello h)]) = answer_here l).
    { induction l as [|[q0 t0 i0|q0 d0|p0] l IH]; cbn; auto. destruct p0; cbn; rewrite ?IH; auto. }
    split.
    + intros q. induction (k_log s) as [|[q0 t0 i0|q0 d0|p0] l IH]; cbn; auto. destruct (Nat.eqb q0 q); [now rewrite EH|exact IH].
    + intros q. induction (k_log s) as [|[q0 t0 i0|q0 d0|p0] l IH]; cbn; auto. destruct (Nat.eqb q0 q); [apply AH|exact IH].
  - destruct (k_task s) eqn:T; try discriminate H. injection H as <-. cbn.
    split; [reflexivity|]. split; [intros q0 st V; rewrite V; reflexivity|auto].
  - destruct (k_task s) eqn:T; try discriminate H. destruct (k_open s); [discriminate H|]. destruct (k_queue s); [|discriminate H]. injection H as <-. cbn.
    split; [reflexivity|]. split; [intros q0 st V; rewrite V; reflexivity|auto].
Qed.

(** Reading what is left in a closed channel. *)
Lemma drain C : forall buf s q st, k_view s q = VStream st -> s_rx st = true -> s_buf st = buf ->
  exists s', run C s (repeat (Consume q) (length buf)) = Some s' /\
    k_view s' q = VStream {| s_read := s_read st ++ buf; s_buf := []; s_tx := s_tx st; s_rx := true |} /\
    k_log s' = k_log s /\ k_task s' = k_task s /\ (forall n, n <> q -> k_view s' n = k_view s n).
Proof.
  induction buf as [|i buf IH]; intros s q st V RX B.
  - exists s. cbn. split; [reflexivity|]. rewrite V, app_nil_r. destruct st; cbn in *; subst. auto.
  - cbn [length repeat run step]. rewrite V, RX, B.
    match goal with |- exists s', run C ?s1 _ = _ /\ _ => destruct (IH s1 q {| s_read := s_read st ++ [i]; s_buf := buf; s_tx := s_tx st; s_rx := true |}) as (s' & R & V' & L & T & O) end.
    + cbn. now rewrite Nat.eqb_refl.
    + reflexivity.
    + reflexivity.
    + exists s'. split; [exact R|]. cbn in V'. rewrite <- app_assoc in V'. split; [exact V'|]. split; [exact L|]. split; [exact T|].
      intros n N. rewrite (O n N). cbn. destruct (Nat.eqb_spec n q); [contradiction|reflexivity].
Qed.

(** An exception for a query whose caller no longer listens reaches nobody. *)
Lemma heard_drop v : heard (drop_tx v) = heard v. Proof. now destruct v. Qed.
Lemma exception_unheard C s q u st e id w s' : reachable C s -> in_flight (k_log s) = Some (q, u) -> k_view s q = VStream st -> s_rx st = false ->
  step C s (Packet (PException e) id w) = Some s' -> forall n, heard (k_view s' n) = heard (k_view s n).
Proof.
  intros R F V RX H n. destruct (reachable_inv C s R) as [I ID]. cbn [step] in H. destruct (k_task s) eqn:T; try discriminate H. injection H as <-.
  assert (RU : running s) by (unfold running; rewrite T; discriminate).
  pose proof (i_exec _ _ I RU) as X. rewrite F in X.
  unfold receive_packet. cbn [k_exec add_log]. rewrite X. unfold deliver. cbn [k_view set_exec add_log]. rewrite V.
  assert (SI : send_item st (IError e) = SDone st) by (unfold send_item; now rewrite RX). rewrite SI. unfold delivered.
  match goal with |- heard (k_view (next_query ?s1 _ _) n) = _ => set (S1 := s1) end.
  assert (HV : forall m, heard (k_view S1 m) = heard (k_view s m)).
  { intros m. unfold S1. cbn. destruct (Nat.eqb_spec m q) as [->|]; [|reflexivity]. rewrite Nat.eqb_refl. cbn. now rewrite V. }
  rewrite <- (HV n). unfold next_query. destruct (k_pending S1) as [|[q2 t2] rest] eqn:P; [reflexivity|].
  assert (HQ : heard (k_view S1 q2) = []).
  { rewrite HV. destruct (k_view s q2) as [| | |st2] eqn:V2; try reflexivity. exfalso.
    pose proof (i_views _ _ I q2) as W. unfold view_ok in W. rewrite V2 in W. destruct W as (W & _).
    pose proof (i_numbers _ _ I RU) as NU. change (k_pending S1) with (k_pending s) in P. rewrite P in NU. cbn in NU.
    assert (ND : NoDup (map fst (number 0 (k_submitted s)))) by (rewrite number_fst; apply seq_NoDup).
    rewrite <- NU, map_app in ND. cbn in ND. apply NoDup_remove_2 in ND. apply ND. apply in_or_app. now left. }
  clearbody S1. unfold dispatch. destruct w; cbn; rewrite ?heard_drop; auto;
    (destruct (Nat.eqb_spec n q2) as [->|]; cbn; auto).
Qed.

(** ** A server that waits for the end of the data it was promised *)
Lemma closing_snoc log e : closing_blocks (log ++ [e]) =
  match e with LQuery _ _ _ => 0 | LData _ b => if is_empty b then S (closing_blocks log) else closing_blocks log | LRecv _ => closing_blocks log end.
Proof. unfold closing_blocks. rewrite fold_left_app. reflexivity. Qed.
Lemma closing_step C s ev s' x : inv s -> in_flight (k_log s) = Some x -> quiet ev -> Forall no_closing (k_queue s) -> no_closing_event ev ->
  step C s ev = Some s' -> closing_blocks (k_log s') = closing_blocks (k_log s) /\ Forall no_closing (k_queue s').
Proof.
  intros [I ID] F Q NC NE H.
  assert (EX : running s -> k_exec s = Some x) by (intros R; now rewrite (i_exec _ _ I R)).
  destruct ev; cbn [step] in H.
  - destruct (k_open s); [|discriminate H]. destruct (k_task s); try discriminate H;
      (destruct (Nat.ltb (length (k_queue s)) 1024); [|discriminate H]); injection H as <-; cbn;
      (split; [reflexivity|]; apply Forall_app; split; [exact NC|]; constructor; [exact Logic.I|constructor]).
  - destruct (k_open s); [|discriminate H]. destruct (k_task s); try discriminate H; destruct (k_view s q) as [| | |st]; try discriminate H;
      (destruct (s_rx st && Nat.ltb (length (k_queue s)) 1024)%bool; [|discriminate H]); injection H as <-; cbn;
      (split; [reflexivity|]; apply Forall_app; split; [exact NC|]; constructor; [exact NE|constructor]).
  - destruct (k_task s) eqn:T; try discriminate H. destruct (k_queue s) as [|r rest]; [discriminate H|]. injection H as <-.
    assert (R : running s) by (unfold running; rewrite T; discriminate). rewrite (EX R) in *.
    pose proof (Forall_inv NC) as N0. pose proof (Forall_inv_tail NC) as N1.
    destruct r as [q t|q b]; cbn [handle_request].
    + cbn [k_pending k_exec set_queue]. rewrite (EX R). destruct (k_pending s); cbn; auto.
    + cbn in N0. destruct (send_data C b [] false); [destruct w|..]; cbn [k_log add_log set_queue k_queue finish]; auto. rewrite closing_snoc, N0. auto.
  - destruct (k_task s) eqn:T; try discriminate H. injection H as <-.
    assert (R : running s) by (unfold running; rewrite T; discriminate).
    assert (G : closing_blocks (k_log s ++ [LRecv p]) = closing_blocks (k_log s)) by now rewrite closing_snoc.
    unfold receive_packet. cbn [k_exec add_log]. rewrite (EX R). destruct x as [qx ux].
    destruct p; try (cbn; split; [exact G|auto]; fail); try discriminate Q.
    unfold deliver. cbn [k_view add_log]. destruct (k_view s qx) as [| | |st]; try (cbn; auto; fail). destruct (send_item st (IBlock b)); cbn; auto.
  - destruct (k_task s); try discriminate H. injection H as <-. cbn. auto.
  - destruct (k_task s) as [|q i next|] eqn:T; try discriminate H.
    assert (R : running s) by (unfold running; rewrite T; discriminate).
    destruct (i_sending _ _ I q i next T) as [[st V] NX]. rewrite V in H. destruct (send_item st i) eqn:SI; [|discriminate H]. injection H as <-.
    destruct next; [rewrite (EX R) in NX; discriminate NX|]. unfold deliver. rewrite V, SI. cbn. auto.
  - destruct (k_view s q) as [| | |st]; try discriminate H. destruct (s_rx st); [|discriminate H]. destruct (s_buf st); [discriminate H|]. injection H as <-. auto.
  - destruct (k_view s q) as [| | |st]; try discriminate H; injection H as <-; auto.
  - injection H as <-. auto.
  - destruct (k_task s); try discriminate H. destruct (k_open s); [discriminate H|]. destruct (k_queue s); [|discriminate H]. injection H as <-. cbn. auto.
Qed.

Lemma open_insert_run C evs : forall s s' x, inv s -> in_flight (k_log s) = Some x -> closing_blocks (k_log s) <= 1 -> Forall no_closing (k_queue s) ->
  Forall no_closing_event evs -> server_waits C s evs -> run C s evs = Some s' ->
  in_flight (k_log s') = Some x /\ sent_queries (k_log s') = sent_queries (k_log s).
Proof.
  induction evs as [|ev evs IH]; intros s s' x I F CB NC NE SW H; cbn in H; [injection H as <-; auto|].
  destruct SW as [W1 W2]. destruct (step C s ev) as [s1|] eqn:E; [|discriminate H].
  assert (Q : quiet ev). { destruct ev; cbn; auto. destruct (ends p) eqn:EP; [|reflexivity]. specialize (W1 eq_refl). lia. }
  destruct (held_step C s ev s1 x I F Q E) as [F1 S1].
  destruct (closing_step C s ev s1 x I F Q NC (Forall_inv NE) E) as [C1 N1].
  destruct (IH s1 s' x (step_inv C s ev s1 I E) F1) as [F2 S2]; auto; [lia|exact (Forall_inv_tail NE)|].
  split; [exact F2|]. now rewrite S2.
Qed.
