(** Property C92: what [try_lock], [lock] and a handle do with the answers they get. *)
From Coq Require Import String Lia.
From Verif Require Import Base Types Text TypeText Block Protocol Connection ConnectionSpec Api ApiProofs Errors Lock Migrate MigrateProofs LockCalls LockCallsProofs Props_Migrate Props_Block Props_TypeText.
Local Open Scope list_scope.
Local Open Scope N_scope.

(** The words "already exists" stand in the text of a server exception exactly if they stand in its name, its message
    or its stack trace: nothing that the client puts around them can make or break them. *)
Theorem C92_words : forall D e,
  taken (display D (emitted e)) <-> taken (x_name e) \/ taken (x_message e) \/ taken (x_stack e).
Proof. intros D e. apply taken_server. Qed.
Print Assumptions C92_words.

(** The exception says that the lock table exists. *)
Definition says_taken (e : server_exception) : Prop := taken (x_name e) \/ taken (x_message e) \/ taken (x_stack e).

Lemma answer_first items : match answer_of items with
  | None => forall e, ~ In (IError e) items
  | Some k => exists blocks e rest, items = map IBlock blocks ++ IError e :: rest /\ k = emitted e
  end.
Proof.
  unfold answer_of. induction items as [|[b|e] items IH]; cbn [first_error].
  - intros e [].
  - destruct (first_error items) as [k|].
    + destruct IH as (bs & e & rest & -> & ->). now exists (b :: bs), e, rest.
    + intros e [X|X]; [discriminate X|now apply (IH e)].
  - now exists [], e, items.
Qed.
Lemma answer_given blocks e rest : answer_of (map IBlock blocks ++ IError e :: rest) = Some (emitted e).
Proof. unfold answer_of. induction blocks as [|b bs IH]; [reflexivity|exact IH]. Qed.
Lemma contains_false D k : contains (txt "already exists") (display D k) = false <-> ~ taken (display D k).
Proof.
  unfold taken. rewrite <- contains_iff. destruct (contains _ _); split; congruence.
Qed.

(** [answer_of] is what [execute] (C32) makes of the result stream, with the error in full. *)
Theorem C92_answer_is_execute : forall items, Forall proper_item items -> (Api.execute items = Ok tt <-> answer_of items = None).
Proof.
  intros items P. rewrite execute_spec by exact P. clear P. unfold answer_of.
  induction items as [|[b|e] items IH]; cbn; [now split|exact IH|split; discriminate].
Qed.
Print Assumptions C92_answer_is_execute.

(** [try_lock] sends one CREATE.  It returns a handle exactly if the server's answer has no exception in it, none
    exactly if the first exception says that the table exists, and otherwise that exception. *)
Theorem C92_try_lock : forall D l items acts out, try_lock D l (answer_of items) = (acts, out) ->
  acts = [ASent (create_statement (k_name l) (k_cluster l))] /\
  (out = THandle <-> forall e, ~ In (IError e) items) /\
  (out = TNone <-> exists blocks e rest, items = map IBlock blocks ++ IError e :: rest /\ says_taken e) /\
  (forall k, out = TError k <-> exists blocks e rest, items = map IBlock blocks ++ IError e :: rest /\ ~ says_taken e /\ k = emitted e).
Proof.
  intros D l items acts out H. unfold try_lock in H. injection H as <- <-. split; [reflexivity|].
  pose proof (answer_first items) as F.
  assert (U : forall bs e rest, items = map IBlock bs ++ IError e :: rest -> answer_of items = Some (emitted e)) by (intros bs e rest ->; apply answer_given).
  destruct (answer_of items) as [k|] eqn:A.
  - destruct F as (bs & e & rest & E & ->). 
    assert (N : ~ (forall e0, ~ In (IError e0) items)).
    { intros X. apply (X e). rewrite E. apply in_or_app. right. now left. }
    destruct (contains (txt "already exists") (display D (emitted e))) eqn:C.
    + apply contains_iff in C. change (taken (display D (emitted e))) in C. rewrite C92_words in C.
      split; [split; [discriminate|intros X; elim (N X)]|]. split; [split; [|reflexivity]; intros _; now exists bs, e, rest|].
      intros k. split; [discriminate|]. intros (bs' & e' & rest' & E' & NT & _). elim NT.
      pose proof (U _ _ _ E') as G. injection G as G1 G2 G3 G4. unfold says_taken. rewrite <- G2, <- G3, <- G4. exact C.
    + apply contains_false in C. rewrite C92_words in C.
      split; [split; [discriminate|intros X; elim (N X)]|]. split.
      * split; [discriminate|]. intros (bs' & e' & rest' & E' & T). elim C. pose proof (U _ _ _ E') as G. injection G as G1 G2 G3 G4. unfold says_taken in T. now rewrite G2, G3, G4.
      * intros k. split; [intros [= <-]; now exists bs, e, rest|]. intros (bs' & e' & rest' & E' & NT & ->). f_equal. pose proof (U _ _ _ E') as G. now injection G as G1 G2 G3 G4; unfold emitted; rewrite G1, G2, G3, G4.
  - split; [split; [intros _; exact F|reflexivity]|].
    split; [split; [discriminate|intros (bs & e & rest & E & _); pose proof (U _ _ _ E); discriminate]|].
    intros k. split; [discriminate|]. intros (bs & e & rest & E & _). pose proof (U _ _ _ E); discriminate.
Qed.
Print Assumptions C92_try_lock.

(** [lock] tries again after every refusal, each time with the same CREATE and after a pause of 100 ms: after [n]
    refusals it has sent n+1 of them.  It returns a handle exactly if the answer after the refusals has no exception,
    an error exactly if it has another one, and does not return as long as it is refused. *)
Theorem C92_lock : forall D l answers acts out, lock_loop D l answers = (acts, out) ->
  exists refused rest, answers = map Some refused ++ rest /\ (forall k, In k refused -> taken (display D k)) /\
    acts = concat (repeat [ASent (create_statement (k_name l) (k_cluster l)); ASlept 100] (List.length refused)) ++ [ASent (create_statement (k_name l) (k_cluster l))] /\
    match out with
    | LHandle => exists rest', rest = None :: rest'
    | LError k => (exists rest', rest = Some k :: rest') /\ ~ taken (display D k)
    | LPending => rest = []
    end.
Proof.
  intros D l answers acts out H. destruct (lock_loop_spec D l answers) as (rf & rest & E & F & A & O).
  rewrite H in A, O. cbn [fst snd] in A, O. exists rf, rest. split; [exact E|]. split; [now apply Forall_forall|]. now split.
Qed.
Print Assumptions C92_lock.

(** The first attempt of [lock] is a [try_lock]; it goes on exactly where [try_lock] gives up. *)
Theorem C92_lock_is_try_lock_again : forall D l a rest,
  lock_loop D l (a :: rest) =
    match try_lock D l a with
    | (acts, THandle) => (acts, LHandle)
    | (acts, TError k) => (acts, LError k)
    | (acts, TNone) => (acts ++ ASlept 100 :: fst (lock_loop D l rest), snd (lock_loop D l rest))
    end.
Proof.
  intros D l [k|] rest; cbn [lock_loop try_lock]; [|reflexivity]. destruct (contains _ _); [|reflexivity]. now destruct (lock_loop D l rest).
Qed.
Print Assumptions C92_lock_is_try_lock_again.

(** With a client whose connection has ended before the call, both fail. *)
Theorem C92_closed_client : forall D l rest,
  snd (try_lock D l (Some closed_error)) = TError closed_error /\ snd (lock_loop D l (Some closed_error :: rest)) = LError closed_error.
Proof. intros D l rest. split; reflexivity. Qed.
Print Assumptions C92_closed_client.

(** The statements, for a lock made by [ClickhouseLock::new(client, name)] with or without [with_cluster(c)]. *)
Theorem C92_statement_texts : forall D name c a,
  fst (try_lock D (new_lock name) a) = [ASent (txt "CREATE TABLE _lock_" ++ name ++ txt " (i Int64)ENGINE=Null")] /\
  fst (try_lock D (with_cluster (new_lock name) c) a) = [ASent (txt "CREATE TABLE _lock_" ++ name ++ txt " ON CLUSTER " ++ c ++ txt " (i Int64)ENGINE=Null")] /\
  hrun (new_lock name) HHeld [HUnlock; HPoll false true] = Some (HAsked ByUnlock, [txt "DROP TABLE IF EXISTS _lock_" ++ name ++ txt " SYNC"]) /\
  hrun (with_cluster (new_lock name) c) HHeld [HDrop; HPoll false true] =
    Some (HAsked ByDrop, [txt "DROP TABLE IF EXISTS _lock_" ++ name ++ txt " ON CLUSTER " ++ c ++ txt " SYNC"]) /\
  (* the last cluster named counts *)
  (forall c', with_cluster (with_cluster (new_lock name) c') c = with_cluster (new_lock name) c).
Proof.
  intros D name c a. unfold try_lock, hrun, hstep, queue_up, create_statement, drop_statement, lock_table, with_cluster, on_cluster, new_lock.
  cbn [fst k_name k_cluster]. rewrite <- !app_assoc. cbn [app]. split; [reflexivity|]. split; [reflexivity|]. split; [reflexivity|]. split; [reflexivity|]. reflexivity.
Qed.
Print Assumptions C92_statement_texts.

Example C92_nonvacuous :
  let taken_answer := [IError {| x_code := 57; x_name := txt "DB::Exception"; x_message := txt "Table default._lock_jobs already exists."; x_stack := []; x_nested := false |}] in
  let denied := [IBlock demo_block; IError {| x_code := 497; x_name := txt "DB::Exception"; x_message := txt "Not enough privileges"; x_stack := []; x_nested := false |}] in
  let l := new_lock (txt "jobs") in
  snd (try_lock demo_tz l (answer_of [IBlock demo_block])) = THandle /\
  snd (try_lock demo_tz l (answer_of taken_answer)) = TNone /\
  (exists k, snd (try_lock demo_tz l (answer_of denied)) = TError k) /\
  lock_loop demo_tz (with_cluster l (txt "c")) (map answer_of [taken_answer; taken_answer; []]) =
    ([ASent (txt "CREATE TABLE _lock_jobs ON CLUSTER c (i Int64)ENGINE=Null"); ASlept 100;
      ASent (txt "CREATE TABLE _lock_jobs ON CLUSTER c (i Int64)ENGINE=Null"); ASlept 100;
      ASent (txt "CREATE TABLE _lock_jobs ON CLUSTER c (i Int64)ENGINE=Null")], LHandle).
Proof. split; [reflexivity|]. split; [vm_compute; reflexivity|]. split; [eexists; vm_compute; reflexivity|]. vm_compute. reflexivity. Qed.

(** The code of the exception is not consulted: one about something else that mentions the words counts as "taken" -
    [lock] would wait for ever -, and one that is TABLE_ALREADY_EXISTS (57) but does not say it in those words is an error. *)
Theorem C92_code_refuted :
  (exists e, x_code e <> 57%Z /\ forall D l, snd (try_lock D l (answer_of [IError e])) = TNone) /\
  (exists e, x_code e = 57%Z /\ forall D l, exists k, snd (try_lock D l (answer_of [IError e])) = TError k).
Proof.
  split.
  - exists {| x_code := 253; x_name := txt "DB::Exception"; x_message := txt "Replica r1 already exists"; x_stack := []; x_nested := false |}.
    split; [discriminate|]. intros D l. reflexivity.
  - exists {| x_code := 57; x_name := txt "DB::Exception"; x_message := txt "TABLE_ALREADY_EXISTS"; x_stack := []; x_nested := false |}.
    split; [reflexivity|]. intros D l. eexists. reflexivity.
Qed.
Print Assumptions C92_code_refuted.

(** Giving a handle back, by [unlock] or by dropping it, sends the DROP of its table at most once - also when the future
    of [unlock] is dropped at any point, or the runtime ends -, and once exactly if the client took the request. *)
Theorem C92_release_once : forall l es s qs, hrun l HHeld es = Some (s, qs) ->
  (qs = [drop_statement (k_name l) (k_cluster l)] /\ In (HPoll false true) es) \/ (qs = [] /\ ~ In (HPoll false true) es).
Proof. intros l es s qs R. exact (proj1 (hrun_reach l es s qs R)). Qed.
Print Assumptions C92_release_once.

(** Nothing is sent only in three cases: the connection had ended (and [unlock] says so), the runtime ended before the
    task spawned by the drop could do it, or the future of [unlock] was dropped while it was waiting for room in the
    client's queue.  In particular an [unlock] that returns success has sent it. *)
Theorem C92_release_is_sent : forall l es w r qs, hrun l HHeld es = Some (HOver w r, qs) ->
  qs = [drop_statement (k_name l) (k_cluster l)] \/
  (r = Some (Some closed_error) /\ exists es' room, es = es' ++ [HPoll true room]) \/
  (w = ByDrop /\ r = None /\ exists es', es = es' ++ [HShutdown]) \/
  (w = ByUnlock /\ r = None /\ exists es', es = es' ++ [HPoll false false; HAbandon]).
Proof.
  intros l es w r qs R. destruct (hrun_reach l es _ _ R) as [[[Q _]|[Q _]] H]; [now left|]. right.
  destruct w, r as [a|]; (destruct H as [H|H]; [elim (H Q)|]).
  - left. destruct H as [-> H]. now split.
  - right. right. split; [reflexivity|]. now split.
  - left. destruct H as [-> H]. now split.
  - right. left. split; [reflexivity|]. now split.
Qed.
Print Assumptions C92_release_is_sent.

(** The last two do happen, on a living connection: the lock stays taken, and nobody is told. *)
Theorem C92_cancelled_unlock_refuted : forall l,
  hrun l HHeld [HUnlock; HPoll false false; HAbandon] = Some (HOver ByUnlock None, []) /\
  hrun l HHeld [HDrop; HShutdown] = Some (HOver ByDrop None, []) /\
  (* dropped before it was polled, it is as good as dropping the handle *)
  hrun l HHeld [HUnlock; HAbandon; HPoll false true; HAnswer None] = Some (HOver ByDrop (Some None), [drop_statement (k_name l) (k_cluster l)]).
Proof. intros l. split; [reflexivity|]. split; reflexivity. Qed.
Print Assumptions C92_cancelled_unlock_refuted.

Example C92_release_nonvacuous :
  hrun (new_lock (txt "jobs")) HHeld [HUnlock; HPoll false false; HPoll false true; HAnswer None] =
    Some (HOver ByUnlock (Some None), [txt "DROP TABLE IF EXISTS _lock_jobs SYNC"]) /\
  hrun (new_lock (txt "jobs")) HHeld [HUnlock; HPoll true true] = Some (HOver ByUnlock (Some (Some closed_error)), []).
Proof. split; reflexivity. Qed.
