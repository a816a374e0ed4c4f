(** Property C95: waiting for a lock. *)
From Coq Require Import String Lia.
From Verif Require Import Base Types Text Lock LockProofs.
Local Open Scope list_scope.
Local Open Scope N_scope.

(** A task that waits in [lock], or in a migration for no more than a minute, and whose pause is over gets the lock if it is free
    when its next attempt is executed: one attempt is enough, and nothing else changes. *)
Theorem C95_free_is_taken : forall w j n u, l_phase (w_tasks w j) = PSleeping u -> l_name (w_tasks w j) = n -> u <= w_now w ->
  (l_kind (w_tasks w j) = KMigrate -> w_now w - l_start (w_tasks w j) <= 60000) -> w_table w n = false ->
  exists w', runs w [EWake j; EExec j; EReply j] w' /\ holds_live w' j n /\ w_now w' = w_now w /\
    (forall m, m <> n -> w_table w' m = w_table w m) /\ (forall i, i <> j -> w_tasks w' i = w_tasks w i).
Proof.
  intros w j n u P Nm U K F.
  assert (S1 : lstep w (EWake j) = Some (put w j (set_phase (w_tasks w j) PCreating))).
  { cbn [lstep]. rewrite P. destruct (N.ltb_spec (w_now w) u); [lia|]. destruct (l_kind (w_tasks w j)); try reflexivity.
    unfold MIGRATE_PATIENCE. destruct (N.ltb_spec 60000 (w_now w - l_start (w_tasks w j))) as [X|_]; [specialize (K eq_refl); lia|reflexivity]. }
  set (w1 := put w j (set_phase (w_tasks w j) PCreating)) in *.
  assert (T1 : w_tasks w1 j = set_phase (w_tasks w j) PCreating) by apply put_same.
  set (w2 := put (set_table w1 n true) j (set_phase (w_tasks w1 j) PCreated)).
  assert (S2 : lstep w1 (EExec j) = Some w2).
  { cbn [lstep]. rewrite T1. cbn [set_phase l_phase l_name]. rewrite Nm. change (w_table w1 n) with (w_table w n). rewrite F. unfold w2. now rewrite T1. }
  assert (T2 : w_tasks w2 j = set_phase (w_tasks w1 j) PCreated) by apply put_same.
  exists (put w2 j (set_phase (w_tasks w2 j) PHolds)). split; [|split; [|split; [|split]]].
  - eapply runs_cons; [exact S1|]. eapply runs_cons; [exact S2|]. eapply runs_cons; [|apply runs_nil]. cbn [lstep]. rewrite T2. reflexivity.
  - split; rewrite put_same; [reflexivity|]. rewrite T2, T1. exact Nm.
  - reflexivity.
  - intros m NE. unfold w2. cbn [put set_table w_table]. destruct (text_eqb m n) eqn:E; [apply text_eqb_eq in E; contradiction|reflexivity].
  - intros i NE. rewrite put_other by exact NE. unfold w2. rewrite put_other by exact NE. cbn [set_table w_tasks]. unfold w1. now rewrite put_other by exact NE.
Qed.
Print Assumptions C95_free_is_taken.

(** Events for which task 1 holds the lock and gives it back and takes it again [k] times, while task 0 is waiting in [lock]. *)
Definition C95_start (n : text) : list event := [ECall 1 n KLock; EExec 1; EReply 1; ECall 0 n KLock; EExec 0; EReply 0].
Definition C95_round (n : text) : list event := [ERelease 1; EExec 1; ECall 1 n KLock; EExec 1; EReply 1; ETick 100; EWake 0; EExec 0; EReply 0].

Definition waiting_for (w : world) (n : text) : Prop :=
  l_phase (w_tasks w 1) = PHolds /\ l_name (w_tasks w 1) = n /\
  l_phase (w_tasks w 0) = PSleeping (w_now w + 100) /\ l_name (w_tasks w 0) = n /\ l_kind (w_tasks w 0) = KLock /\ w_table w n = true.
Lemma same_name n : text_eqb n n = true.
Proof. now apply text_eqb_eq. Qed.
Lemma runs_app w es1 w1 es2 w2 : runs w es1 w1 -> runs w1 es2 w2 -> runs w (es1 ++ es2) w2.
Proof. induction 1 as [|w e w1' es w2' S R IH]; intros R2; [exact R2|]. cbn [app]. eapply runs_cons; [exact S|]. now apply IH. Qed.
Lemma round_again w n : waiting_for w n -> exists w', runs w (C95_round n) w' /\ waiting_for w' n.
Proof.
  intros (P1 & N1 & P0 & N0 & K0 & T). unfold C95_round.
  destruct w as [now table tasks]. cbn [w_tasks w_now w_table] in *.
  eexists. split.
  - eapply runs_cons; [cbn [lstep w_tasks]; rewrite P1; reflexivity|].
    eapply runs_cons; [cbn [lstep w_tasks put Nat.eqb set_phase l_phase l_name]; reflexivity|].
    eapply runs_cons; [cbn [lstep w_tasks put set_table Nat.eqb set_phase l_phase l_name]; reflexivity|].
    eapply runs_cons; [cbn [lstep w_tasks w_table put set_table Nat.eqb set_phase l_phase l_name]; rewrite N1, same_name; reflexivity|].
    eapply runs_cons; [cbn [lstep w_tasks w_table put set_table Nat.eqb set_phase l_phase l_name]; reflexivity|].
    eapply runs_cons; [cbn [lstep]; reflexivity|].
    eapply runs_cons; [cbn [lstep w_tasks w_now put set_table Nat.eqb set_phase l_phase l_name l_kind]; rewrite P0, K0; rewrite (proj2 (N.ltb_ge _ _) (N.le_refl _)); reflexivity|].
    eapply runs_cons; [cbn [lstep w_tasks w_table put set_table Nat.eqb set_phase l_phase l_name]; rewrite N0, same_name; reflexivity|].
    eapply runs_cons; [cbn [lstep w_tasks w_table w_now put set_table Nat.eqb set_phase l_phase l_name l_kind]; rewrite K0; reflexivity|].
    apply runs_nil.
  - split; [reflexivity|]. split; [reflexivity|]. split; [reflexivity|]. split; [exact N0|]. split; [exact K0|].
    cbn [w_table put set_table]. now rewrite same_name.
Qed.

(** There is no queue at the lock: however often it is given back, a task that is waiting for it may be refused every time, because
    its attempts, one every 100 ms, all fall into times when another task has taken it again. *)
Theorem C95_starvation_refuted : forall n k, exists w,
  runs w_init (C95_start n ++ concat (repeat (C95_round n) k)) w /\ holds_live w 1 n /\ ~ holds w 0 n /\
  l_phase (w_tasks w 0) = PSleeping (w_now w + 100) /\
  (* the lock was given back k times, and task 0 has made k+1 attempts *)
  List.length (filter (fun e => match e with ERelease 1 => true | _ => false end) (C95_start n ++ concat (repeat (C95_round n) k))) = k /\
  List.length (filter (fun e => match e with EExec 0 => true | _ => false end) (C95_start n ++ concat (repeat (C95_round n) k))) = S k.
Proof.
  intros n k.
  assert (A : exists w, runs w_init (C95_start n) w /\ waiting_for w n).
  { eexists. split.
    - unfold C95_start. eapply runs_cons; [reflexivity|]. eapply runs_cons; [reflexivity|]. eapply runs_cons; [reflexivity|].
      eapply runs_cons; [reflexivity|]. eapply runs_cons; [cbn [lstep w_tasks w_table put set_table Nat.eqb set_phase l_phase l_name]; rewrite same_name; reflexivity|].
      eapply runs_cons; [reflexivity|]. apply runs_nil.
    - split; [reflexivity|]. split; [reflexivity|]. split; [reflexivity|]. split; [reflexivity|]. split; [reflexivity|].
      cbn [w_table put set_table l_name set_phase w_tasks Nat.eqb]. now rewrite same_name. }
  assert (B : exists w, runs w_init (C95_start n ++ concat (repeat (C95_round n) k)) w /\ waiting_for w n).
  { destruct A as (w & R & W). clear - R W.
    assert (G : forall k w, waiting_for w n -> exists w', runs w (concat (repeat (C95_round n) k)) w' /\ waiting_for w' n).
    { clear. induction k as [|k IH]; intros w W; [exists w; split; [apply runs_nil|exact W]|].
      destruct (round_again w n W) as (w1 & R1 & W1). destruct (IH w1 W1) as (w2 & R2 & W2). exists w2. split; [|exact W2].
      cbn [repeat concat]. now apply (runs_app _ _ w1). }
    destruct (G k w W) as (w' & R' & W'). exists w'. split; [|exact W']. now apply (runs_app _ _ w). }
  destruct B as (w & R & P1 & N1 & P0 & N0 & K0 & T). exists w. split; [exact R|]. split; [split; assumption|].
  split; [intros [X _]; revert X; rewrite P0; discriminate|]. split; [exact P0|].
  assert (C1 : forall f, filter f (C95_start n ++ concat (repeat (C95_round n) k)) = filter f (C95_start n) ++ concat (repeat (filter f (C95_round n)) k)).
  { intros f. rewrite filter_app. f_equal. clear. induction k as [|k IH]; [reflexivity|]. cbn [repeat concat]. now rewrite filter_app, IH. }
  rewrite !C1. split.
  - cbn [C95_start C95_round filter app]. clear. induction k as [|k IH]; [reflexivity|]. cbn [repeat concat app List.length]. now f_equal.
  - cbn [C95_start C95_round filter app List.length]. f_equal. clear. induction k as [|k IH]; [reflexivity|]. cbn [repeat concat app List.length]. now f_equal.
Qed.
Print Assumptions C95_starvation_refuted.

Example C95_nonvacuous : exists w, runs w_init [ECall 1 (txt "a") KLock; EExec 1; EReply 1; ECall 0 (txt "a") KLock; EExec 0; EReply 0; ERelease 1; EExec 1; ETick 150] w /\
  l_phase (w_tasks w 0) = PSleeping 100 /\ l_name (w_tasks w 0) = txt "a" /\ 100 <= w_now w /\ l_kind (w_tasks w 0) <> KMigrate /\ w_table w (txt "a") = false.
Proof.
  eexists. split; [repeat (eapply runs_cons; [vm_compute; reflexivity|]); apply runs_nil|].
  split; [reflexivity|]. split; [reflexivity|]. split; [vm_compute; discriminate|]. split; [discriminate|]. vm_compute. reflexivity.
Qed.
