(** Property C87: subscribers to the progress of a connection's queries. *)
From Coq Require Import String Lia.
From Verif Require Import Base Types Text Block Progress Protocol Connection ConnectionSpec ConnectionProofs Broadcast BroadcastSpec BroadcastProofs Props_Connection Props_Block Props_Protocol.
Local Open Scope list_scope.
Local Open Scope nat_scope.

(** Whatever happens on the connection and among the subscribers after someone subscribes: what that
    subscriber has been told accounts for a run of the progress packets that arrived since then, from the
    first one on, each with the id of the query that was in flight; every gap is announced with its size; and as
    long as no more events came than the channel holds, there is no gap. *)
Theorem C87_accounted : forall C cap s0 s1 evs s2, 0 < cap -> breachable C cap s0 ->
  bstep C cap s0 BSubscribe = Some s1 -> brun C cap s1 evs = Some s2 ->
  exists r seen to_come, nth_error (b_subs s2) (length (b_subs s0)) = Some r /\
    progress_of None (k_log (b_conn s2)) = progress_of None (k_log (b_conn s0)) ++ seen ++ to_come /\
    accounts (b_notes r) seen /\ length seen = length (events_of (b_notes r)) + missing (b_notes r) /\
    (length (seen ++ to_come) <= cap -> events_of (b_notes r) = seen).
Proof.
  intros C cap s0 s1 evs s2 P R0 E1 E2.
  destruct (told C cap s0 s1 evs s2 P R0 E1 E2) as (r & seen & to_come & N & L & A & X & G).
  exists r, seen, to_come. split; [exact N|]. split.
  - assert (R1 := br_step C cap s0 BSubscribe s1 R0 E1). cbn [bstep] in E1. destruct (k_open (b_conn s0)); [|discriminate]. injection E1 as <-.
    destruct (brun_keeps C cap evs _ _ (length (b_subs s0)) {| b_start := length (k_published (b_conn s0)); b_next := length (k_published (b_conn s0)); b_notes := [] |} R1 E2)
      as (R2 & _ & _).
    { cbn [b_subs]. rewrite nth_error_app2 by lia. now rewrite Nat.sub_diag. }
    destruct (reachable_inv C _ (breachable_conn C cap s0 R0)) as [I0 _]. destruct (reachable_inv C _ (breachable_conn C cap s2 R2)) as [I2 _].
    now rewrite <- (i_published _ _ I0), <- (i_published _ _ I2).
  - split; [exact A|]. split; [now apply accounts_length|]. intros LE. apply (accounts_no_gap _ _ A). now apply G.
Qed.

(** The client's channel: a subscriber never more than 128 events behind misses nothing, and the
    129th loses one. *)
Theorem C87_capacity : forall C s0 s1 evs s2, breachable C RETAINED s0 ->
  bstep C RETAINED s0 BSubscribe = Some s1 -> brun C RETAINED s1 evs = Some s2 ->
  exists r seen to_come, nth_error (b_subs s2) (length (b_subs s0)) = Some r /\
    progress_of None (k_log (b_conn s2)) = progress_of None (k_log (b_conn s0)) ++ seen ++ to_come /\
    (length (seen ++ to_come) <= 128 -> events_of (b_notes r) = seen).
Proof.
  intros C s0 s1 evs s2 R0 E1 E2. assert (P : 0 < RETAINED) by (vm_compute; lia).
  destruct (C87_accounted C RETAINED s0 s1 evs s2 P R0 E1 E2) as (r & seen & to_come & N & L & _ & _ & G).
  exists r, seen, to_come. split; [exact N|]. split; [exact L|exact G].
Qed.
Theorem C87_overrun : forall s r, length (k_published s) = b_next r + 129 ->
  recv RETAINED s r = Some {| b_start := b_start r; b_next := S (b_next r); b_notes := b_notes r ++ [Lagged 1] |}.
Proof.
  intros s r L. unfold recv. rewrite L. change RETAINED with 128. destruct (nth_error (k_published s) (b_next r)) as [e|] eqn:E.
  - destruct (Nat.leb_spec (b_next r + 129) (b_next r + 128)); [lia|]. do 2 f_equal; try lia. do 3 f_equal. lia.
  - apply nth_error_None in E. lia.
Qed.

(** A receiver waits exactly while it has been told everything and someone could still publish. *)
Theorem C87_waits_iff : forall C cap s i r, 0 < cap -> breachable C cap s -> nth_error (b_subs s) i = Some r ->
  (bstep C cap s (BRecv i) = None <-> b_next r = length (k_published (b_conn s)) /\ (k_open (b_conn s) = true \/ k_task (b_conn s) <> TEnded)).
Proof.
  intros C cap s i r CP R N. cbn [bstep]. rewrite N.
  pose proof (proj1 (Forall_forall _ _) (placed_all C cap s CP R) r (nth_error_In _ _ N)) as [O _ _]. unfold recv.
  assert (SL : senders_left (b_conn s) = true <-> k_open (b_conn s) = true \/ k_task (b_conn s) <> TEnded).
  { unfold senders_left. rewrite orb_true_iff. destruct (k_task (b_conn s)); intuition discriminate. }
  destruct (nth_error (k_published (b_conn s)) (b_next r)) as [e|] eqn:NE.
  - assert (LT : b_next r < length (k_published (b_conn s))) by (apply nth_error_Some; congruence).
    split; [destruct (Nat.leb _ _); discriminate|]. intros [X _]. lia.
  - apply nth_error_None in NE. rewrite <- SL. destruct (senders_left (b_conn s)); cbn [option_map].
    + split; [intros _; split; [lia|reflexivity]|reflexivity].
    + split; [discriminate|intros [_ X]; discriminate X].
Qed.

(** The end is reported only when all has been told, the connection's task is over and no Client
    handle is left. *)
Theorem C87_end : forall C cap s r, 0 < cap -> breachable C cap s -> In r (b_subs s) -> In NoMore (b_notes r) ->
  b_next r = length (k_published (b_conn s)) /\ k_open (b_conn s) = false /\ k_task (b_conn s) = TEnded.
Proof.
  intros C cap s r CP R I E. pose proof (proj1 (Forall_forall _ _) (placed_all C cap s CP R) r I) as [_ _ F].
  destruct (F E) as [SL N]. split; [exact N|]. unfold senders_left in SL. apply orb_false_iff in SL as [O T].
  split; [exact O|]. destruct (k_task (b_conn s)); try discriminate; reflexivity.
Qed.

(** So a subscriber of a dead connection is not told so: once the task has ended, a receiver that has
    been told everything waits for ever, whatever happens, until the last Client handle is dropped. *)
Theorem C87_dead_connection_refuted : forall C cap evs s s' i r, 0 < cap -> breachable C cap s ->
  k_task (b_conn s) = TEnded -> k_open (b_conn s) = true ->
  nth_error (b_subs s) i = Some r -> b_next r = length (k_published (b_conn s)) ->
  ~ In (BConn CloseHandles) evs -> brun C cap s evs = Some s' ->
  nth_error (b_subs s') i = Some r /\ bstep C cap s' (BRecv i) = None.
Proof.
  intros C cap evs. induction evs as [|ev evs IH]; intros s s' i r CP R T O N X NI H; cbn [brun] in H.
  - injection H as <-. split; [exact N|]. apply (C87_waits_iff C cap s i r CP R N). auto.
  - destruct (bstep C cap s ev) as [s1|] eqn:E; [|discriminate].
    assert (NI' : ~ In (BConn CloseHandles) evs) by (intros I; apply NI; now right).
    assert (NE : ev <> BConn CloseHandles) by (intros ->; apply NI; now left).
    assert (K : k_task (b_conn s1) = TEnded /\ k_open (b_conn s1) = true /\ nth_error (b_subs s1) i = Some r /\ k_published (b_conn s1) = k_published (b_conn s)).
    { pose proof E as E0. destruct ev as [ev| |j]; cbn [bstep] in E.
      - destruct (step C (b_conn s) ev) as [k|] eqn:S; [|discriminate]. injection E as <-. cbn [b_conn b_subs].
        destruct (task_ended_step C _ _ _ T S) as [T' L]. split; [exact T'|].
        assert (RC := breachable_conn C cap s R). destruct (reachable_inv C _ RC) as [I0 _]. destruct (reachable_inv C _ (reach_step C _ ev _ RC S)) as [I1 _].
        split; [|split; [exact N|now rewrite (i_published _ _ I0), (i_published _ _ I1), L]].
        destruct ev; cbn [step] in S; rewrite ?T, ?O in S; try discriminate S; try (now elim NE).
        + destruct (k_view (b_conn s) q) as [|a| |st]; try discriminate S. destruct (s_rx st), (s_buf st); try discriminate S. injection S as <-. exact O.
        + destruct (k_view (b_conn s) q) as [|a| |st]; try discriminate S; injection S as <-; exact O.
      - rewrite O in E. injection E as <-. cbn [b_conn b_subs]. rewrite nth_error_app1; [auto|]. apply nth_error_Some. congruence.
      - destruct (nth_error (b_subs s) j) as [x|] eqn:NJ; [|discriminate]. destruct (Nat.eq_dec j i) as [->|D].
        + rewrite NJ in N. injection N as ->. rewrite (proj2 (C87_waits_iff C cap s i r CP R NJ)) in E0 by auto. discriminate E0.
        + destruct (recv cap (b_conn s) x) as [x'|]; [|discriminate]. injection E as <-. cbn [b_conn b_subs].
          rewrite nth_set_sub_other by congruence. auto. }
    destruct K as (T1 & O1 & N1 & P1). apply (IH s1 s' i r CP (br_step C cap s ev s1 R E) T1 O1 N1); auto. now rewrite P1.
Qed.

(** One connection with three subscribers, a channel of two events (the arithmetic is the same), three
    progress packets, and a broken connection: the first subscriber reads too late, the
    second comes too late, the third came in between. *)
Definition p_ (n : N) : progress := {| read_rows := n; read_bytes := 0; new_total_rows_to_read := 0; new_written_rows := None; new_written_bytes := None |}.
Definition broadcast_run : list bevent :=
  [ BConn (Submit (demo_query 0)); BConn (Take (txt "id0") WOk); BSubscribe;
    BConn (Packet (PProgress (p_ 1)) [] WOk); BSubscribe; BConn (Packet (PProgress (p_ 2)) [] WOk); BRecv 1; BConn (Packet (PProgress (p_ 3)) [] WOk);
    BSubscribe; BRecv 0; BRecv 0; BRecv 1; BConn ReadError; BRecv 0 ].
Example C87_nonvacuous : exists s, brun (demo_conn false) 2 b_init broadcast_run = Some s /\
  map b_notes (b_subs s) = [ [Lagged 1; Got (txt "id0", p_ 2); Got (txt "id0", p_ 3)]; [Got (txt "id0", p_ 2); Got (txt "id0", p_ 3)]; [] ] /\
  k_task (b_conn s) = TEnded /\ k_open (b_conn s) = true /\ bstep (demo_conn false) 2 s (BRecv 0) = None /\
  (exists s', brun (demo_conn false) 2 s [BConn CloseHandles; BRecv 2] = Some s' /\ map b_notes (skipn 2 (b_subs s')) = [[NoMore]]).
Proof.
  destruct (brun (demo_conn false) 2 b_init broadcast_run) as [s|] eqn:E; [|vm_compute in E; discriminate E].
  vm_compute in E. injection E as <-. eexists. split; [reflexivity|]. split; [vm_compute; reflexivity|]. split; [reflexivity|]. split; [reflexivity|]. split; [vm_compute; reflexivity|].
  eexists. split; vm_compute; reflexivity.
Qed.

Print Assumptions C87_accounted.
Print Assumptions C87_capacity.
Print Assumptions C87_overrun.
Print Assumptions C87_waits_iff.
Print Assumptions C87_end.
Print Assumptions C87_dead_connection_refuted.
