(** C33, C34: the lock tables and the migration runner. *)
From Coq Require Import String.
From Verif Require Import Base Types Text Lock LockProofs LockSql.
Local Open Scope list_scope.
Local Open Scope N_scope.

(** A history written as the list of its events. *)
Fixpoint run (w : world) (es : list event) : option (list (world * event) * world) :=
  match es with
  | [] => Some ([], w)
  | e :: es => match lstep w e with
               | Some w' => match run w' es with Some (h, w'') => Some ((w, e) :: h, w'') | None => None end
               | None => None
               end
  end.
Lemma run_history_from es : forall h0 w h w', history h0 w -> run w es = Some (h, w') -> history (h0 ++ h) w'.
Proof.
  induction es as [|e es IH]; intros h0 w h w' H R; cbn [run] in R.
  - injection R as <- <-. now rewrite app_nil_r.
  - destruct (lstep w e) as [w1|] eqn:E; [|discriminate]. destruct (run w1 es) as [[h1 w2]|] eqn:E2; [|discriminate].
    injection R as <- <-. replace (h0 ++ (w, e) :: h1) with ((h0 ++ [(w, e)]) ++ h1) by now rewrite <- app_assoc.
    apply (IH _ w1); [econstructor; eauto|assumption].
Qed.
Lemma run_history es h w : run w_init es = Some (h, w) -> history h w.
Proof. intros R. exact (run_history_from es [] w_init h w h_nil R). Qed.

(** ** C33 *)
(** After every history - any number of tasks, every interleaving of sending, executing and
    answering, every cancellation and failure, connections that break while the lock is held, being
    released or slept for - in which nobody reset the lock and no connection broke while its task was
    waiting for the answer to an attempt at it, at most one task has a handle of it. *)
Theorem C33_mutual_exclusion : forall h w n i j, history h w -> (forall s, In s h -> resets n s = false) -> (forall s, In s h -> cuts n s = false) ->
  holds w i n -> holds w j n -> i = j.
Proof. exact mutual_exclusion. Qed.
Print Assumptions C33_mutual_exclusion.

(** Whatever connections broke: at most one task has a handle and a living connection. *)
Theorem C33_live_exclusion : forall h w n i j, history h w -> (forall s, In s h -> resets n s = false) ->
  holds_live w i n -> holds_live w j n -> i = j.
Proof. exact live_exclusion. Qed.
Print Assumptions C33_live_exclusion.

(** Without that proviso mutual exclusion is false of the code.  In every state, a task whose connection
    breaks while it waits for the answer to its attempt gets a handle, whoever has one already, whether the
    server has refused it or has not seen the statement at all: [execute] returned [Ok(())] (C89).  Nothing
    else changes, so it has it together with the holder. *)
Theorem C33_lost_connection_grants : forall w j n, (l_phase (w_tasks w j) = PCreating \/ l_phase (w_tasks w j) = PRefused) -> l_name (w_tasks w j) = n ->
  exists w', lstep w (ELost j) = Some w' /\ holds w' j n /\ (forall m, w_table w' m = w_table w m) /\
    (forall i, i <> j -> w_tasks w' i = w_tasks w i).
Proof. exact lost_connection_grants. Qed.
Print Assumptions C33_lost_connection_grants.
(** Giving back a handle with a dead connection sends nothing to the server: no table changes, and a table that was created for it is
    lost (nobody is left to drop it). *)
Theorem C33_dead_release : forall w i n, holds w i n -> ~ holds_live w i n ->
  exists w', lstep w (ERelease i) = Some w' /\ ~ holds w' i n /\ (forall m, w_table w' m = w_table w m) /\
    (forall cl, outstanding cl (w_tasks w' i) <> Some (drop_statement n cl)) /\
    (l_phase (w_tasks w i) = PHeldDead -> l_phase (w_tasks w' i) = PLost).
Proof. exact dead_release. Qed.
Print Assumptions C33_dead_release.
Theorem C33_lost_connection_refuted : exists h w, history h w /\ (forall s, In s h -> forall m, resets m s = false) /\
  holds_live w 0 (txt "jobs") /\ holds w 1 (txt "jobs").
Proof.
  assert (R : exists h w, run w_init [ECall 0 (txt "jobs") KLock; EExec 0; EReply 0; ECall 1 (txt "jobs") KTry; EExec 1; ELost 1] = Some (h, w)) by (eexists; eexists; vm_compute; reflexivity).
  destruct R as (h & w & R). exists h, w. split; [exact (run_history _ _ _ R)|].
  vm_compute in R. injection R as <- <-. repeat split.
  intros s Hs m. cbn [In] in Hs. repeat (destruct Hs as [<-|Hs]; [reflexivity|]). destruct Hs.
Qed.
Print Assumptions C33_lost_connection_refuted.

(** An attempt is granted exactly when nobody is responsible for the lock: no holder, nobody about to
    be told that it is the holder, no release under way and nobody who lost it. *)
Theorem C33_granted_iff_free : forall h w n j, history h w -> (forall s, In s h -> resets n s = false) ->
  l_phase (w_tasks w j) = PCreating -> l_name (w_tasks w j) = n ->
  exists w1 w2, lstep w (EExec j) = Some w1 /\ lstep w1 (EReply j) = Some w2 /\
    (holds w2 j n <-> forall i, ~ owns w i n).
Proof. exact granted_iff_free. Qed.
Print Assumptions C33_granted_iff_free.

(** A refused attempt leaves every table and every other task as it was; [try_lock] is over,
    the others will try again after the documented pause. *)
Theorem C33_refused_changes_nothing : forall w j, l_phase (w_tasks w j) = PCreating -> w_table w (l_name (w_tasks w j)) = true ->
  exists w1 w2, lstep w (EExec j) = Some w1 /\ lstep w1 (EReply j) = Some w2 /\
    w_now w2 = w_now w /\ (forall m, w_table w2 m = w_table w m) /\ (forall i, i <> j -> w_tasks w2 i = w_tasks w i) /\
    l_name (w_tasks w2 j) = l_name (w_tasks w j) /\
    l_phase (w_tasks w2 j) = match l_kind (w_tasks w j) with
                             | KTry => PIdle | KLock => PSleeping (w_now w + 100) | KMigrate => PSleeping (w_now w + 250) end.
Proof. exact refused_changes_nothing. Qed.
Print Assumptions C33_refused_changes_nothing.

(** Releasing makes the lock available: the next CREATE to be executed gets it. *)
Theorem C33_release_makes_available : forall w i j n, holds_live w i n -> l_phase (w_tasks w j) = PCreating -> l_name (w_tasks w j) = n ->
  exists w1 w2 w3 w4, lstep w (ERelease i) = Some w1 /\ lstep w1 (EExec i) = Some w2 /\
    lstep w2 (EExec j) = Some w3 /\ lstep w3 (EReply j) = Some w4 /\ holds_live w4 j n /\ ~ holds w4 i n.
Proof. exact release_makes_available. Qed.
Print Assumptions C33_release_makes_available.

(** Locks with different names do not interfere: a step of a task working on one lock leaves the
    table and every holder of another one alone. *)
Theorem C33_independent_names : forall w e w' i n, lstep w e = Some w' ->
  (e = EExec i \/ e = EReply i \/ e = EWake i \/ e = ERelease i \/ e = ECancel i \/ e = ELost i \/ e = EFail i) ->
  l_name (w_tasks w i) <> n -> w_table w' n = w_table w n /\ (forall j, holds w' j n <-> holds w j n).
Proof. exact independent_names. Qed.
Print Assumptions C33_independent_names.

Definition L : text := txt "jobs".
(** Two tasks ask; one gets it; after its release the other one gets it. *)
Definition C33_schedule : list event :=
  [ECall 0 L KTry; ECall 1 L KLock; EExec 0; EExec 1; EReply 1; EReply 0; ETick 100; EWake 1; ERelease 0].
Example C33_nonvacuous : exists h w, run w_init C33_schedule = Some (h, w) /\ (forall s, In s h -> resets L s = false) /\ (forall s, In s h -> cuts L s = false) /\
  l_phase (w_tasks w 1%nat) = PCreating /\ (exists i, owns w i L).
Proof.
  eexists. eexists. split; [vm_compute; reflexivity|]. repeat split.
  - intros s Hs. cbn [In] in Hs. repeat (destruct Hs as [<-|Hs]; [reflexivity|]). destruct Hs.
  - intros s Hs. cbn [In] in Hs. repeat (destruct Hs as [<-|Hs]; [reflexivity|]). destruct Hs.
  - exists 0%nat. split; reflexivity.
Qed.
Example C33_handover : exists h w, run w_init (C33_schedule ++ [EExec 0; EExec 1; EReply 1])%list = Some (h, w) /\ holds w 1 L /\ ~ holds w 0 L.
Proof.
  eexists. eexists. split; [vm_compute; reflexivity|]. split; [split; reflexivity|]. intros [X _]. vm_compute in X. discriminate.
Qed.

(** "a failed attempt changes nothing" is false of the code when the attempt fails by being dropped
    (a timeout around [lock]) after the server executed its CREATE: nobody
    holds the lock, no release is under way, and every later attempt is refused, however long it
    waits, until somebody calls [reset]: nobody ever has a handle with a living connection. *)
Theorem C33_abandoned_attempt_refuted : exists h w, history h w /\ (forall s, In s h -> forall n, resets n s = false) /\
  (forall i, ~ holds w i L) /\ l_phase (w_tasks w 0%nat) <> PDropping /\
  (forall h' w', history (h ++ h') w' -> (forall s, In s h' -> resets L s = false) -> (forall i, holds_live w' i L -> False)).
Proof. exact abandoned_attempt. Qed.
Print Assumptions C33_abandoned_attempt_refuted.

(** The statements that the lock sends do exactly this to the server's tables: for a name that is an
    SQL word, with or without a cluster, the server reads the table [_lock_<name>] in it, creates or
    drops that table and no other, and the creation is refused exactly when the table is there. *)
Theorem C33_statements : forall w i w' cl T, lstep w (EExec i) = Some w' -> word (l_name (w_tasks w i)) -> cluster_text cl -> shows T w ->
  exists stmt T' ok, outstanding cl (w_tasks w i) = Some stmt /\ serves T stmt T' ok /\
    (forall T2 ok2, serves T stmt T2 ok2 -> T2 = T' /\ ok2 = ok) /\
    shows T' w' /\ (forall t, t <> txt "_lock_" ++ l_name (w_tasks w i) -> T' t = T t) /\
    (l_phase (w_tasks w i) = PCreating -> l_phase (w_tasks w' i) = if ok then PCreated else PRefused).
Proof. exact statements_do_it. Qed.
Print Assumptions C33_statements.
Example C33_statements_nv : word L /\ cluster_text (on_cluster (txt "c1")) /\ shows (fun _ => false) w_init /\
  create_statement L (on_cluster (txt "c1")) = txt "CREATE TABLE _lock_jobs ON CLUSTER c1 (i Int64)ENGINE=Null" /\
  drop_statement L [] = txt "DROP TABLE IF EXISTS _lock_jobs SYNC".
Proof. split; [repeat constructor|]. split; [right; now exists (txt "c1")|]. split; [intros n _; reflexivity|]. split; reflexivity. Qed.

(** The name is pasted into the statement as it is: two locks with different names that are not
    words can be one and the same table. *)
Theorem C33_any_name_refuted : exists n m : text, n <> m /\ exists t,
  follows (txt "CREATE TABLE ") (create_statement n []) t /\ follows (txt "CREATE TABLE ") (create_statement m []) t.
Proof.
  exists (txt "jobs"), (txt "jobs "). split; [discriminate|]. exists (txt "_lock_jobs").
  split; [exists (txt " (i Int64)ENGINE=Null")|exists (txt "  (i Int64)ENGINE=Null")]; (split; [reflexivity|]; split; [repeat constructor|reflexivity]).
Qed.
Print Assumptions C33_any_name_refuted.

(** ** C34 *)
(** A migration runs while it has the lock's handle and a living connection: with a dead one every statement it
    goes on to send fails. *)
(** As long as no migration waits for more than a minute and nobody resets the lock by hand, at most
    one runs.  (Without that proviso they run together: the next theorems.) *)
Theorem C34_exclusive : forall h w i j, history h w ->
  (forall s, In s h -> forall k, l_kind (w_tasks (fst s) k) = KMigrate -> waiting (l_phase (w_tasks (fst s) k)) = true ->
     w_now (fst s) - l_start (w_tasks (fst s) k) <= 60000) ->
  (forall s m, In s h -> snd s <> EReset m) ->
  holds_live w i migration_lock -> holds_live w j migration_lock -> i = j.
Proof. exact migrations_exclusive. Qed.
Print Assumptions C34_exclusive.

(** In every state: a migration that wakes up after having waited for more than a minute takes the
    lock although another one is running, and both run. *)
Theorem C34_takes_the_lock_by_force : forall w i j u, holds_live w i migration_lock -> i <> j ->
  l_kind (w_tasks w j) = KMigrate -> l_name (w_tasks w j) = migration_lock ->
  l_phase (w_tasks w j) = PSleeping u -> u <= w_now w -> 60000 < w_now w - l_start (w_tasks w j) ->
  exists w', runs w [EWake j; EExec j; EReply j; EExec j; EReply j] w' /\ holds_live w' i migration_lock /\ holds_live w' j migration_lock /\
    (forall k, k <> j -> w_tasks w' k = w_tasks w k).
Proof. exact takes_by_force. Qed.
Print Assumptions C34_takes_the_lock_by_force.
(** And once two run, the end of one lets a third one in beside the other, without any waiting. *)
Theorem C34_release_lets_a_third_in : forall w i j k, holds_live w i migration_lock -> holds_live w j migration_lock -> i <> j -> k <> i -> k <> j ->
  l_phase (w_tasks w k) = PCreating -> l_name (w_tasks w k) = migration_lock ->
  exists w', runs w [ERelease i; EExec i; EExec k; EReply k] w' /\ holds_live w' j migration_lock /\ holds_live w' k migration_lock /\ ~ holds_live w' i migration_lock.
Proof. exact release_lets_a_third_in. Qed.
Print Assumptions C34_release_lets_a_third_in.

(** Two migrations run at the same time once the second one has waited for a minute. *)
Definition C34_schedule : list event :=
  [ECall 0 [] KMigrate; EExec 0; EReply 0; ECall 1 [] KMigrate; EExec 1; EReply 1; ETick 60001; EWake 1; EExec 1; EReply 1; EExec 1; EReply 1].
Theorem C34_slow_migration_refuted : exists h w, history h w /\ (forall s, In s h -> forall m, snd s <> EReset m) /\
  holds_live w 0 migration_lock /\ holds_live w 1 migration_lock.
Proof.
  assert (R : exists h w, run w_init C34_schedule = Some (h, w)) by (eexists; eexists; vm_compute; reflexivity).
  destruct R as (h & w & R). exists h, w. split; [exact (run_history _ _ _ R)|].
  vm_compute in R. injection R as <- <-. repeat split.
  intros s Hs m. cbn [In] in Hs. repeat (destruct Hs as [<-|Hs]; [cbn [snd]; discriminate|]). destruct Hs.
Qed.
Print Assumptions C34_slow_migration_refuted.

(** And then the first one's release takes the second one's lock away: a third migration starts
    while the second is still running. *)
Theorem C34_release_steals_refuted : exists h w, history h w /\ (forall s, In s h -> forall m, snd s <> EReset m) /\
  ~ holds_live w 0 migration_lock /\ holds_live w 1 migration_lock /\ holds_live w 2 migration_lock.
Proof.
  assert (R : exists h w, run w_init (C34_schedule ++ [ERelease 0; EExec 0; ECall 2 [] KMigrate; EExec 2; EReply 2])%list = Some (h, w)) by (eexists; eexists; vm_compute; reflexivity).
  destruct R as (h & w & R). exists h, w. split; [exact (run_history _ _ _ R)|].
  vm_compute in R. injection R as <- <-. repeat split.
  - intros s Hs m. cbn [In] in Hs. repeat (destruct Hs as [<-|Hs]; [cbn [snd]; discriminate|]). destruct Hs.
  - intros [X _]. vm_compute in X. discriminate.
Qed.
Print Assumptions C34_release_steals_refuted.

(** The hypotheses of the partial theorem are met by a run in which a migration waits for another. *)
Example C34_nonvacuous : exists h w, history h w /\ holds_live w 1 migration_lock /\
  (forall s, In s h -> forall k, l_kind (w_tasks (fst s) k) = KMigrate -> waiting (l_phase (w_tasks (fst s) k)) = true ->
     w_now (fst s) - l_start (w_tasks (fst s) k) <= 60000) /\ (forall s m, In s h -> snd s <> EReset m) /\ w_now w = 59000.
Proof.
  assert (R : exists h w, run w_init [ECall 0 [] KMigrate; EExec 0; EReply 0; ECall 1 [] KMigrate; EExec 1; EReply 1; ETick 59000; ERelease 0; EExec 0; EWake 1; EExec 1; EReply 1] = Some (h, w)) by (eexists; eexists; vm_compute; reflexivity).
  destruct R as (h & w & R). exists h, w. split; [exact (run_history _ _ _ R)|].
  vm_compute in R. injection R as <- <-. repeat split.
  - intros s Hs k _ _. cbn [In] in Hs. repeat (destruct Hs as [<-|Hs]; [cbn [fst w_now]; lia|]). destruct Hs.
  - intros s m Hs. cbn [In] in Hs. repeat (destruct Hs as [<-|Hs]; [cbn [snd]; discriminate|]). destruct Hs.
Qed.
