(** Property C66: what a connection pool may rely on. *)
From Coq Require Import String Lia.
From Verif Require Import Base Types Text IndexMap Block BlockSpec BlockProofs Progress Protocol Connection ConnectionSpec ConnectionProofs
  Api ApiProofs RawRow Numeric Utf8 Convert Manager Props_Protocol Props_Connection Props_Api.
Local Open Scope list_scope.
Local Open Scope N_scope.

(** A connection reported broken stays broken and never sends anything again... *)
Theorem C66_broken_is_final : forall C s evs s', has_broken s = true -> run C s evs = Some s' -> has_broken s' = true /\ k_log s' = k_log s.
Proof.
  intros C s evs. revert s. induction evs as [|ev evs IH]; intros s s' B H; cbn in H; [injection H as <-; auto|].
  destruct (step C s ev) as [s1|] eqn:E; [|discriminate H].
  assert (T : k_task s = TEnded) by (unfold has_broken in B; now destruct (k_task s)).
  destruct (task_ended_step C s ev s1 T E) as [T1 L1]. destruct (IH s1 s') as [A1 A2]; [unfold has_broken; now rewrite T1|exact H|].
  split; [exact A1|congruence].
Qed.
(** ... accepts no query, and leaves nobody waiting: every submitted query has failed or its stream has ended. *)
Theorem C66_broken_refuses : forall C s, reachable C s -> has_broken s = true ->
  (forall t, step C s (Submit t) = None) /\
  (forall q, (q < length (k_submitted s))%nat -> k_view s q = VFailed \/ exists st, k_view s q = VStream st /\ s_tx st = false).
Proof.
  intros C s R B. assert (T : k_task s = TEnded) by (unfold has_broken in B; now destruct (k_task s)). split.
  - intros t. cbn [step]. rewrite T. now destruct (k_open s).
  - intros q Q. destruct (reachable_inv C s R) as [I _]. pose proof (i_views _ _ I q) as W. unfold view_ok in W.
    destruct (k_view s q) as [|a| |st]; [lia| |auto|].
    + destruct W as [RU _]. elim RU. exact T.
    + right. exists st. split; [reflexivity|]. destruct W as (_ & _ & _ & _ & _ & TX). destruct (s_tx st); [|reflexivity].
      destruct (proj1 TX eq_refl) as [RU _]. elim RU. exact T.
Qed.
(** A connection not reported broken takes the next query (unless 1024 requests wait already). *)
Theorem C66_not_broken_accepts : forall C s t, has_broken s = false -> k_open s = true -> (length (k_queue s) < 1024)%nat ->
  exists s', step C s (Submit t) = Some s'.
Proof.
  intros C s t B O L. cbn [step]. rewrite O. apply Nat.ltb_lt in L. rewrite L. unfold has_broken in B. destruct (k_task s); try discriminate B; eauto.
Qed.

Lemma execute_no_error items : execute items = Ok tt -> forall e, ~ In (IError e) items.
Proof.
  unfold execute. intros H e I. destruct (query_collect _ items) as [out| |] eqn:E; try discriminate H. clear H.
  apply collect_ok in E. assert (M : In (Err EServerException) (query (fun row : list (text * ty * value) => Ok row) items)).
  { unfold query. apply in_flat_map. exists (IError e). split; [exact I|now left]. }
  rewrite E in M. apply in_map_iff in M as (x & X & _). discriminate X.
Qed.
Lemma executed_ok C s q : reachable C s -> has_broken s = false -> executed s q = Some (Ok tt) ->
  ended q (k_log s) = true /\ forall e, ~ In (IError e) (answer q (k_log s)).
Proof.
  intros R B E. assert (T : k_task s <> TEnded) by (intros T; unfold has_broken in B; rewrite T in B; discriminate B).
  unfold executed, finished in E. destruct (k_view s q) as [| | |st] eqn:V; try discriminate E.
  destruct (s_rx st) eqn:RX, (s_tx st) eqn:TX, (s_buf st) eqn:BF; cbn [andb negb] in E; try discriminate E.
  injection E as E. cbn [rbind] in E.
  destruct (C52_complete_while_alive C s q st R T V TX BF RX) as [EN RD]. split; [exact EN|].
  rewrite <- RD. now apply execute_no_error.
Qed.
(** A connection that [connect] returned and that is not reported broken has been set up: the server
    has finished the settings query and the prequel and reported no exception for them. *)
Theorem C66_connected : forall C s prequel, reachable C s -> connected prequel s = Some (Ok tt) -> has_broken s = false ->
  (ended 0 (k_log s) = true /\ forall e, ~ In (IError e) (answer 0 (k_log s))) /\
  (prequel = true -> ended 1 (k_log s) = true /\ forall e, ~ In (IError e) (answer 1 (k_log s))).
Proof.
  intros C s pre R E B. unfold connected in E. destruct (executed s 0) as [[[]| |]|] eqn:E0; try discriminate E.
  split; [now apply (executed_ok C)|]. intros ->. now apply (executed_ok C).
Qed.
(** ... and an exception for one of them fails [connect]. *)
Theorem C66_failed_setup_reported : forall C s q e, reachable C s -> has_broken s = false -> In (IError e) (answer q (k_log s)) ->
  executed s q <> Some (Ok tt).
Proof. intros C s q e R B I E. destruct (executed_ok C s q R B E) as [_ N]. exact (N e I). Qed.

(** When the connection's task ends before it took the settings query (or the prequel), [connect] fails
    with a protocol error. *)
Theorem C66_lost_setup_reported : forall s prequel,
  (k_view s 0 = VFailed -> connected prequel s = Some (Err EProtocol)) /\
  (k_view s 1 = VFailed -> connected false s = Some (Ok tt) -> connected true s = Some (Err EProtocol)).
Proof.
  intros s pre. unfold connected. split.
  - intros V. unfold executed, finished. now rewrite V.
  - intros V H. destruct (executed s 0) as [[u| |]|] eqn:E; try discriminate H. unfold executed, finished. now rewrite V.
Qed.
Print Assumptions C66_lost_setup_reported.
Example C66_lost_nonvacuous :
  (exists s, run (demo_conn false) init [Submit set_query; ReadError] = Some s /\ k_view s 0 = VFailed) /\
  (exists s, run (demo_conn false) init [Submit set_query; Take (txt "id0") WOk; Packet PEndOfStream [] WOk; Submit (txt "USE db"); ReadError] = Some s /\
     k_view s 1 = VFailed /\ connected false s = Some (Ok tt)).
Proof.
  split; match goal with |- exists s, ?r = Some s /\ _ => destruct r as [s|] eqn:E; [|vm_compute in E; discriminate E] end;
    exists s; (split; [reflexivity|]); vm_compute in E; injection E as <-; vm_compute; repeat split.
Qed.

(** [is_valid] succeeds exactly if the first row of the answer holds a text in its first column. *)
Lemma string_from_row m v : unit_deserialize RString m = Ok v -> exists x, v = XStr x.
Proof.
  destruct m as [|[[n t] w] m]; cbn [unit_deserialize from_sql]; [discriminate|]. unfold rstring_from.
  destruct t; try discriminate; destruct w; try discriminate; destruct (utf8_decode _) as [x|]; intros H; try discriminate H; exists x; congruence.
Qed.
Theorem C66_is_valid_iff : forall items, Forall proper_item items ->
  is_valid items = Ok tt <->
  exists x rest, flat_map (fun i => match i with
      | IBlock b => map (fun n => unit_deserialize RString (row_of b n)) (seq 0 (N.to_nat (b_rows b)))
      | IError _ => [Err EServerException] end) items = Ok (XStr x) :: rest.
Proof.
  intros items P. unfold is_valid, query_one. rewrite (C32_query _ (unit_deserialize RString) items P).
  destruct (flat_map _ items) as [|r rest] eqn:F; cbn [rmap].
  - split; [discriminate|]. intros (x & r & H). discriminate H.
  - split.
    + intros H. destruct r as [v| |]; try discriminate H.
      assert (X : exists x, v = XStr x).
      { assert (I : In (Ok v) (Ok v :: rest)) by now left. rewrite <- F in I. apply in_flat_map in I as ([b|e] & _ & I).
        - apply in_map_iff in I as (n & E & _). exact (string_from_row _ _ E).
        - destruct I as [I|[]]. discriminate I. }
      destruct X as [x ->]. eauto.
    + intros (x & r' & H). injection H as -> ->. reflexivity.
Qed.

(** When the server closes the connection while the settings query runs, [connect] reports success
    nevertheless: the pool gets a connection that is already broken and was never set up. *)
Theorem C66_dead_connection_handed_out_refuted : exists s,
  run (demo_conn false) init [Submit set_query; Take (txt "id0") WOk; ReadError] = Some s /\
  connected false s = Some (Ok tt) /\ has_broken s = true /\ ended 0 (k_log s) = false.
Proof.
  destruct (run _ _ _) as [s|] eqn:E; [|vm_compute in E; discriminate E]. exists s. split; [reflexivity|].
  vm_compute in E. injection E as <-. vm_compute. repeat split.
Qed.
(** After a failed insert the connection counts as neither broken nor invalid: [has_broken] stays
    false and the query of [is_valid] is never sent, so [is_valid] never returns. *)
Theorem C66_blocked_connection_not_broken_refuted : exists s,
  run (demo_conn false) init
    [Submit (txt "INSERT INTO t FORMAT Native"); Take (txt "id0") WOk; Packet (PData [] demo_header) [] WOk; Consume 0; Abandon 0;
     Submit (txt "select '';"); Take [] WOk] = Some s /\ has_broken s = false /\
  (forall evs s', Forall quiet evs -> run (demo_conn false) s evs = Some s' -> has_broken s' = false -> finished s' 1 = None).
Proof.
  match goal with |- exists s, ?r = Some s /\ _ => destruct r as [s|] eqn:E; [|vm_compute in E; discriminate E] end.
  exists s. pose proof (run_reachable _ _ _ _ (reach_init _) E) as R. split; [reflexivity|].
  assert (F : k_task s = TSelect /\ in_flight (k_log s) = Some (0%nat, txt "id0") /\ map fst (sent_queries (k_log s)) = [0%nat] /\ length (k_submitted s) = 2%nat).
  { vm_compute in E. injection E as <-. vm_compute. repeat split. }
  destruct F as (T & F & S1 & L). split; [unfold has_broken; now rewrite T|]. intros evs s' Q H B.
  assert (N : ~ In 1%nat (map fst (sent_queries (k_log s')))).
  { rewrite (C55_waits_for_the_server _ _ _ _ _ R F Q H), S1. intros [X|[]]. discriminate X. }
  pose proof (run_reachable _ _ _ _ R H) as R'. destruct (reachable_inv _ _ R') as [I _]. pose proof (i_views _ _ I 1%nat) as W.
  unfold finished. unfold view_ok in W. destruct (k_view s' 1) as [|a| |st]; try reflexivity.
  - destruct W as [W _]. unfold has_broken in B. rewrite W in B. discriminate B.
  - destruct W as [W _]. elim (N W).
Qed.

(** Hypotheses of the above are met. *)
Definition valid_block : block := {| b_info := default_info; b_rows := 1; b_types := [(txt "''", TString)]; b_data := [(txt "''", [VString []])] |}.
Example C66_nonvacuous : exists s, run (demo_conn false) init
    [Submit set_query; Take (txt "id0") WOk; Packet PEndOfStream [] WOk; Submit (txt "USE db"); Take (txt "id1") WOk; Packet PEndOfStream [] WOk] = Some s /\
  connected true s = Some (Ok tt) /\ has_broken s = false /\
  is_valid [IBlock valid_block] = Ok tt /\ is_valid [] = Err EMissingRow /\ proper_item (IBlock valid_block).
Proof.
  match goal with |- exists s, ?r = Some s /\ _ => destruct r as [s|] eqn:E; [|vm_compute in E; discriminate E] end.
  exists s. split; [reflexivity|]. vm_compute in E. injection E as <-. split; [vm_compute; reflexivity|]. split; [vm_compute; reflexivity|].
  split; [vm_compute; reflexivity|]. split; [vm_compute; reflexivity|].
  split; [repeat (apply Forall_cons || apply Forall_nil); reflexivity|]. split; [|split; [discriminate|reflexivity]].
  intros k K. cbn in K. destruct K as [<-|[]]; vm_compute; discriminate.
Qed.
Print Assumptions C66_broken_is_final.
Print Assumptions C66_broken_refuses.
Print Assumptions C66_not_broken_accepts.
Print Assumptions C66_connected.
Print Assumptions C66_failed_setup_reported.
Print Assumptions C66_is_valid_iff.
Print Assumptions C66_dead_connection_handed_out_refuted.
Print Assumptions C66_blocked_connection_not_broken_refuted.
