(** Property C70: on a connection that stays up, with a server that ends its queries and callers
    that read their results, every query submitted is sent, ended, and read to the end. *)
From Coq Require Import String Lia.
From Verif Require Import Base Types Text IndexMap Block Progress Protocol Connection ConnectionSpec ConnectionProofs
  LivenessSpec LivenessProofs Props_Block Props_Protocol Props_Connection.
Local Open Scope list_scope.
Local Open Scope nat_scope.

(** The query itself goes out. *)
Theorem C70_every_query_is_sent : forall C st ev, execution C st ev -> stays_up st -> callers_read st ev -> task_goes_on st ev -> requests_taken st ev -> server_answers st ev ->
  forall n q, q < length (k_submitted (st n)) -> exists m, n <= m /\ In q (map fst (sent_queries (k_log (st m)))).
Proof.
  intros C st ev EX UP CA GO RT SA n q L. destruct (every_query_sent C st ev EX UP (task_comes_back C st ev EX UP CA GO) RT SA q n L) as (m & L1 & H).
  exists m. split; [exact L1|]. now apply (sent_iff C st ev EX).
Qed.
(** The server's end of it arrives. *)
Theorem C70_every_query_is_ended : forall C st ev, execution C st ev -> stays_up st -> callers_read st ev -> task_goes_on st ev -> requests_taken st ev -> server_answers st ev ->
  forall n q, q < length (k_submitted (st n)) -> exists m, n <= m /\ ended q (k_log (st m)) = true.
Proof. intros C st ev EX UP CA GO RT SA n q L. exact (every_query_ended C st ev EX UP (task_comes_back C st ev EX UP CA GO) RT SA q n L). Qed.
(** And a caller that keeps reading comes to the end of its stream, having read exactly what the
    server answered to its query. *)
Theorem C70_every_reader_gets_its_answer : forall C st ev, execution C st ev -> stays_up st -> callers_read st ev -> task_goes_on st ev -> requests_taken st ev -> server_answers st ev ->
  forall n q, keeps_reading st ev q -> q < length (k_submitted (st n)) ->
  exists m v, n <= m /\ k_view (st m) q = VStream v /\ s_tx v = false /\ s_buf v = [] /\
    ended q (k_log (st m)) = true /\ s_read v = answer q (k_log (st m)).
Proof.
  intros C st ev EX UP CA GO RT SA n q KR L. destruct (reader_sees_end C st ev EX UP (task_comes_back C st ev EX UP CA GO) RT SA q KR n L) as (m & v & L1 & V & T & B & RX & E).
  exists m, v. split; [exact L1|]. split; [exact V|]. split; [exact T|]. split; [exact B|]. split; [exact E|].
  exact (proj1 (C52_nothing_received_is_lost C (st m) q v (ex_reachable C st ev EX m) V T B RX)).
Qed.

(** A finite run, after which nothing happens any more, as an execution. *)
Definition states_of (C : conn) (evs : list event) (n : nat) : state := match run C init (firstn n evs) with Some s => s | None => init end.
Lemma run_snoc C evs : forall s e, run C s (evs ++ [e]) = match run C s evs with Some s' => step C s' e | None => None end.
Proof.
  induction evs as [|x evs IH]; intros s e; cbn; [destruct (step C s e); reflexivity|]. destruct (step C s x); [apply IH|reflexivity].
Qed.
Lemma firstn_S {A} (l : list A) : forall n, firstn (S n) l = match nth_error l n with Some e => firstn n l ++ [e] | None => firstn n l end.
Proof.
  induction l as [|x l IH]; intros [|n]; try reflexivity. cbn [nth_error]. change (firstn (S (S n)) (x :: l)) with (x :: firstn (S n) l).
  rewrite IH. now destruct (nth_error l n).
Qed.
Lemma run_prefix C evs : forall s s', run C s evs = Some s' -> forall n, exists s1, run C s (firstn n evs) = Some s1.
Proof.
  induction evs as [|e evs IH]; intros s s' H n; [exists s; now destruct n|]. destruct n as [|n]; [exists s; reflexivity|]. cbn in *. destruct (step C s e) as [s2|] eqn:E; [exact (IH s2 s' H n)|discriminate].
Qed.
Lemma states_execution C evs s : run C init evs = Some s -> execution C (states_of C evs) (nth_error evs).
Proof.
  intros H. split; [reflexivity|]. intros n. unfold states_of. rewrite firstn_S. destruct (nth_error evs n) as [e|] eqn:E; [|reflexivity].
  destruct (run_prefix C evs init s H n) as [s1 R1]. destruct (run_prefix C evs init s H (S n)) as [s2 R2].
  rewrite firstn_S, E in R2. rewrite R2. rewrite run_snoc, R1 in R2. now rewrite R1.
Qed.
Lemma states_end C evs s n : run C init evs = Some s -> length evs <= n -> states_of C evs n = s.
Proof. intros H L. unfold states_of. rewrite firstn_all2 by exact L. now rewrite H. Qed.

(** Three callers; the first gets two blocks, the second an exception, the third an empty result. *)
Definition demo_complete : list event := demo_run ++ [Packet PEndOfStream [] WOk; Consume 2].
Example C70_nonvacuous : exists st ev, execution (demo_conn false) st ev /\ stays_up st /\ callers_read st ev /\ task_goes_on st ev /\ requests_taken st ev /\ server_answers st ev /\
  keeps_reading st ev 0 /\ keeps_reading st ev 1 /\ keeps_reading st ev 2 /\ length (k_submitted (st 6)) = 3 /\
  sent_queries (k_log (st 6)) = [(0, demo_query 0)].
Proof.
  destruct (run (demo_conn false) init demo_complete) as [s|] eqn:E; [|vm_compute in E; discriminate E].
  exists (states_of (demo_conn false) demo_complete), (nth_error demo_complete).
  assert (END : forall n, 19 <= n -> states_of (demo_conn false) demo_complete n = s) by (intros n L; apply states_end; [exact E|exact L]).
  assert (FIN : k_task s = TSelect /\ k_queue s = [] /\ in_flight (k_log s) = None /\ (forall q v, k_view s q = VStream v -> s_buf v = [])).
  { vm_compute in E. injection E as <-. split; [reflexivity|]. split; [reflexivity|]. split; [reflexivity|].
    intros q v V. destruct q as [|[|[|q]]]; [vm_compute in V; injection V as <-; reflexivity..|vm_compute in V; discriminate V]. }
  destruct FIN as (T & Q & F & B).
  assert (LATE : forall P : nat -> Prop, (forall m, 19 <= m -> P m) -> forall n, exists m, n <= m /\ P m).
  { intros P H n. exists (n + 19). split; [lia|]. apply H. lia. }
  assert (KR : forall q, q < 3 -> keeps_reading (states_of (demo_conn false) demo_complete) (nth_error demo_complete) q).
  { intros q Lq. split.
    - intros n X. apply nth_error_In in X. vm_compute in X. repeat (destruct X as [X|X]; [discriminate X|]). destruct X.
    - intros n. apply LATE. intros m L. left. rewrite END by exact L. intros v V. exact (B q v V). }
  split; [exact (states_execution _ _ _ E)|]. split; [|split; [|split; [|split; [|split; [|split; [|split; [|split; [|split]]]]]]]].
  - intros n. assert (ALL : forallb (fun n => match k_task (states_of (demo_conn false) demo_complete n) with TEnded => false | _ => true end) (seq 0 19) = true) by (vm_compute; reflexivity).
    destruct (Nat.lt_ge_cases n 19) as [L|L]; [|rewrite END by exact L; rewrite T; discriminate].
    pose proof (proj1 (forallb_forall _ _) ALL n ltac:(apply in_seq; lia)) as X. cbv beta in X. intros Y. rewrite Y in X. discriminate X.
  - intros q n. apply LATE. intros m L. left. rewrite END by exact L. exact (B q).
  - intros n. apply LATE. intros m L. left. rewrite END by exact L. intros q i next X. rewrite T in X. discriminate X.
  - intros n. apply LATE. intros m L. left. now rewrite END by exact L.
  - intros n. apply LATE. intros m L. left. now rewrite END by exact L.
  - apply KR. lia.
  - apply KR. lia.
  - apply KR. lia.
  - vm_compute. reflexivity.
  - vm_compute. reflexivity.
Qed.

Print Assumptions C70_every_query_is_sent.
Print Assumptions C70_every_query_is_ended.
Print Assumptions C70_every_reader_gets_its_answer.
