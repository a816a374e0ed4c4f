(** C89: a statement whose connection breaks. *)
From Coq Require Import String.
From Verif Require Import Base Types Text IndexMap Block Progress Protocol Connection ConnectionSpec ConnectionProofs ConnectionExact Api ApiProofs Manager
  Props_Block Props_Protocol Props_Connection Props_Api Props_Manager Literal Query Lock Migrate MigrateProofs Props_Migrate Lost.
Local Open Scope list_scope.

(** [execute] reports success exactly if its result stream has ended - by the server's end of the query or by the end of
    the connection - and no exception was received. *)
Theorem C89_success_iff : forall C s q, reachable C s -> Forall proper_item (answer q (k_log s)) ->
  executed s q = Some (Ok tt) <->
  (exists st, k_view s q = VStream st /\ s_rx st = true /\ s_tx st = false /\ s_buf st = []) /\
  (ended q (k_log s) = true \/ k_task s = TEnded) /\ (forall e, ~ In (IError e) (answer q (k_log s))).
Proof.
  intros C s q R P. unfold executed, finished. split.
  - intros E. destruct (k_view s q) as [| | |st] eqn:V; try discriminate E.
    destruct (s_rx st) eqn:RX, (s_tx st) eqn:TX, (s_buf st) eqn:BF; cbn [andb negb] in E; try discriminate E.
    injection E as E. cbn [rbind] in E.
    destruct (C52_nothing_received_is_lost C s q st R V TX BF RX) as [RD EN].
    split; [exists st; auto|]. split.
    + destruct (ended q (k_log s)) eqn:X; [now left|right; now apply EN].
    + rewrite <- RD. now apply execute_no_error.
  - intros ((st & V & RX & TX & BF) & _ & N). rewrite V, RX, TX, BF. cbn [andb negb rbind].
    destruct (C52_nothing_received_is_lost C s q st R V TX BF RX) as [RD _]. rewrite RD, (execute_spec _ P).
    destruct (existsb is_error (answer q (k_log s))) eqn:X; [|reflexivity].
    apply existsb_exists in X as ([b|e] & I & X); [discriminate X|]. destruct (N e I).
Qed.
Print Assumptions C89_success_iff.

(** However the connection ends while the statement is in flight: after reading what has arrived, the caller is told that it
    succeeded. *)
Theorem C89_cut_statement_succeeds : forall C s ev s' q u st, reachable C s -> in_flight (k_log s) = Some (q, u) ->
  k_view s q = VStream st -> s_rx st = true -> step C s ev = Some s' -> gives_up s ev -> Forall proper_item (answer q (k_log s)) ->
  exists s'', run C s' (repeat (Consume q) (length (s_buf st))) = Some s'' /\ ended q (k_log s'') = false /\ executed s'' q = Some (Ok tt).
Proof.
  intros C s ev s' q u st R F V RX H G P. destruct (C52_lost_connection_ends_silently C s ev s' q u st R F V RX H G) as (s2 & RU & V2 & E2 & B).
  exists s2. split; [exact RU|]. split; [exact E2|]. unfold executed, finished. rewrite V2. cbn [s_rx s_tx s_buf s_read andb negb rbind].
  rewrite (execute_spec _ P). destruct (existsb is_error (answer q (k_log s))) eqn:X; [|reflexivity].
  apply existsb_exists in X as (i & I & X). destruct (proj1 (Forall_forall _ _) B i I) as [b ->]. discriminate X.
Qed.
Print Assumptions C89_cut_statement_succeeds.

(** Every later statement fails: it cannot be submitted any more. *)
Theorem C89_later_statements_fail : forall C s evs s', k_task s = TEnded -> run C s evs = Some s' ->
  k_task s' = TEnded /\ forall t, step C s' (Submit t) = None.
Proof.
  intros C s evs s' T H. assert (B : has_broken s = true) by (unfold has_broken; now rewrite T).
  destruct (C66_broken_is_final C s evs s' B H) as [B' _]. assert (T' : k_task s' = TEnded) by (unfold has_broken in B'; now destruct (k_task s')).
  split; [exact T'|]. intros t. cbn [step]. rewrite T'. now destruct (k_open s').
Qed.
Print Assumptions C89_later_statements_fail.

(** "a statement reported as successful was completed by the server" is false of the code. *)
Theorem C89_success_is_completion_refuted : exists s, reachable (demo_conn false) s /\ executed s 0 = Some (Ok tt) /\
  ended 0 (k_log s) = false /\ forall p, ~ In (LRecv p) (k_log s).
Proof.
  destruct (run (demo_conn false) init [Submit (demo_query 0); Take (txt "id0") WOk; ReadError]) as [s|] eqn:E; [|vm_compute in E; discriminate E].
  exists s. split.
  - assert (RR : forall evs s0 s1, reachable (demo_conn false) s0 -> run (demo_conn false) s0 evs = Some s1 -> reachable (demo_conn false) s1).
    { induction evs as [|ev evs IH]; intros s0 s1 R H; cbn [run] in H; [injection H as <-; exact R|].
      destruct (step (demo_conn false) s0 ev) as [s2|] eqn:X; [|discriminate H]. apply (IH s2 s1); [econstructor; eauto|exact H]. }
    exact (RR _ _ _ (reach_init _) E).
  - vm_compute in E. injection E as <-. split; [reflexivity|]. split; [reflexivity|]. intros p [H|[H|[]]]; discriminate H.
Qed.
Print Assumptions C89_success_is_completion_refuted.

(** ** Migrations *)
Lemma seen_nth closed : forall fs i, reply_at (seen closed fs) i = Some ROk ->
  fate_at fs i = Some (Answered ROk) \/ (fate_at fs i = Some Cut /\ forall j, (i < j)%nat -> reply_at (seen closed fs) j <> Some ROk).
Proof.
  unfold reply_at, fate_at.
  induction fs as [|[[r|] b] fs IH]; intros i H.
  - destruct i; discriminate H.
  - destruct i as [|i]; cbn in H |- *.
    + injection H as ->. now left.
    + destruct (IH i H) as [F|[F L]]; [now left|]. right. split; [exact F|]. intros [|j] J; [lia|]. cbn. apply L. lia.
  - assert (T : forall j, option_map fst (nth_error (map (fun x : fate * bool => (RErr closed, snd x)) fs) j) <> Some ROk).
    { intros j. rewrite nth_error_map. destruct (nth_error fs j); cbn; discriminate. }
    destruct i as [|i]; cbn in H |- *.
    + right. split; [reflexivity|]. intros [|j] J; [lia|]. cbn. apply T.
    + destruct (T i H).
Qed.

(** A migration that reports success has really run: the server confirmed the creation of the lock and every statement of
    the scripts.  Only the release of the lock may be unconfirmed. *)
Theorem C89_migration_success : forall U tokenize t scripts closed fs trace n,
  execute U tokenize t scripts (seen closed fs) = (trace, Done n) ->
  let all := flat_map (statements_of U tokenize t) scripts in
  exists a, trace = a ++ [Sent (create_lock t)] ++ map Sent all ++ [Sent (drop_lock t)] /\
    (forall i, (i <= List.length all)%nat -> fate_at fs (List.length a + i) = Some (Answered ROk)) /\
    (fate_at fs (List.length trace - 1) = Some (Answered ROk) \/ fate_at fs (List.length trace - 1) = Some Cut).
Proof.
  intros U tok t scripts closed fs trace n H all.
  destruct (C50_runs_in_order_under_the_lock U tok t scripts (seen closed fs) trace (Done n) H) as (a & k & b & TR & _ & _ & _ & CR & _ & -> & K & B & OKS).
  fold all in TR, K, OKS. subst k b. rewrite firstn_all in TR.
  destruct CR as (a' & -> & C0); [right; discriminate|]. rewrite app_length in OKS. cbn [List.length] in OKS.
  exists a'. split; [rewrite TR, <- app_assoc; reflexivity|].
  assert (L : (List.length trace - 1 = List.length a' + 1 + List.length all)%nat).
  { rewrite TR, !app_length, map_length. cbn [List.length]. lia. }
  assert (LAST := OKS (List.length all) (le_n _)). split.
  - intros i Hi. assert (X : reply_at (seen closed fs) (List.length a' + i) = Some ROk).
    { destruct i as [|i]; [now rewrite Nat.add_0_r|]. replace (List.length a' + S i)%nat with (List.length a' + 1 + i)%nat by lia. apply OKS. lia. }
    destruct (seen_nth closed fs _ X) as [F|[_ F]]; [exact F|]. exfalso. apply (F (List.length a' + 1 + List.length all)%nat); [lia|exact LAST].
  - rewrite L. destruct (seen_nth closed fs _ LAST) as [F|[F _]]; auto.
Qed.
Print Assumptions C89_migration_success.

(** "... and the lock has been released" is false of the code: cut at the release, the migration reports success all the same, and
    the lock table may be there for good. *)
Definition C89_closed : text := txt "protocol error: failed to send query: channel closed".
Theorem C89_released_refuted : forall U tokenize t scripts closed,
  let all := flat_map (statements_of U tokenize t) scripts in
  snd (execute U tokenize t scripts (seen closed ((Answered ROk, false) :: map (fun _ => (Answered ROk, false)) all ++ [(Cut, false)]))) = Done (List.length scripts).
Proof.
  intros U tok t scripts closed all. unfold execute.
  assert (S1 : forall (l : list text) fs, seen closed (map (fun _ => (Answered ROk, false)) l ++ fs) = map (fun _ => (ROk, false)) l ++ seen closed fs).
  { induction l as [|x l IH]; intros fs; cbn [map app seen]; [reflexivity|]. now rewrite IH. }
  cbn [seen]. rewrite S1. cbn [acquire]. fold all.
  assert (RA : forall l rs, run_all l (map (fun _ => (ROk, false)) l ++ rs) = (map Sent l, inl rs)).
  { induction l as [|x l IH]; intros rs; cbn [map app run_all]; [reflexivity|]. now rewrite IH. }
  now rewrite RA.
Qed.
Print Assumptions C89_released_refuted.

(** A cut at any statement of the scripts makes the migration fail at the next statement it tries to send. *)
Theorem C89_migration_cut : forall U tokenize t scripts closed k late rest,
  let all := flat_map (statements_of U tokenize t) scripts in
  (k < List.length all)%nat -> rest <> [] ->
  snd (execute U tokenize t scripts (seen closed ((Answered ROk, false) :: map (fun _ => (Answered ROk, false)) (firstn k all) ++ (Cut, late) :: rest))) = Failed closed.
Proof.
  intros U tok t scripts closed k late rest all K NE. unfold execute.
  assert (S1 : forall (l : list text) fs, seen closed (map (fun _ => (Answered ROk, false)) l ++ fs) = map (fun _ => (ROk, false)) l ++ seen closed fs).
  { induction l as [|x l IH]; intros fs; cbn [map app seen]; [reflexivity|]. now rewrite IH. }
  cbn [seen]. rewrite S1. cbn [acquire]. fold all. cbn [seen].
  destruct rest as [|[f b] rest]; [contradiction|]. cbn [map snd].
  assert (X : exists x, run_all all (map (fun _ : text => (ROk, false)) (firstn k all) ++ (ROk, late) :: (RErr closed, b) :: map (fun x : fate * bool => (RErr closed, snd x)) rest)
                        = (x, inr (Failed closed)) \/
              run_all all (map (fun _ : text => (ROk, false)) (firstn k all) ++ (ROk, late) :: (RErr closed, b) :: map (fun x : fate * bool => (RErr closed, snd x)) rest)
                        = (x, inl ((RErr closed, b) :: map (fun x : fate * bool => (RErr closed, snd x)) rest))).
  { clear S1. revert k K. generalize all. induction all0 as [|x l IH]; intros k K; [cbn in K; lia|]. destruct k as [|k].
    - cbn [firstn map app run_all]. destruct l as [|y l]; cbn [run_all]; eexists; [right|left]; reflexivity.
    - cbn [firstn map app run_all]. destruct (IH k) as [a [A|A]]; [cbn in K; lia| |]; rewrite A; eexists; [left|right]; reflexivity. }
  destruct X as [x [X|X]]; rewrite X; reflexivity.
Qed.
Print Assumptions C89_migration_cut.

(** Non-vacuity: two scripts, four statements; cut at the release, and cut at the third statement. *)
Example C89_nonvacuous :
  execute U0 W OnClient [txt "x"; txt "y"] (seen C89_closed ((Answered (RErr (txt "Table already exists.")), false) :: repeat (Answered ROk, false) 5 ++ [(Cut, false)])) =
  ([Sent (create_lock OnClient); Sent (create_lock OnClient); Sent (txt "A;"); Sent (txt "B"); Sent (txt "A;"); Sent (txt "B"); Sent (drop_lock OnClient)], Done 2) /\
  execute U0 W OnClient [txt "x"; txt "y"] (seen C89_closed (repeat (Answered ROk, false) 3 ++ [(Cut, false); (Cut, false)])) =
  ([Sent (create_lock OnClient); Sent (txt "A;"); Sent (txt "B"); Sent (txt "A;"); Sent (txt "B"); Spawned (drop_lock OnClient)], Failed C89_closed) /\
  contains (txt "already exists") C89_closed = false.
Proof. repeat split; vm_compute; reflexivity. Qed.
