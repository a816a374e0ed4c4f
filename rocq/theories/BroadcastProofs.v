(** Proofs about progress subscribers. *)
From Coq Require Import Lia.
From Verif Require Import Base Types Text Block Progress Protocol Connection ConnectionSpec ConnectionProofs SessionProofs Broadcast BroadcastSpec.
Local Open Scope list_scope.
Local Open Scope nat_scope.

Lemma accounts_app notes l more rest : accounts notes l -> ~ In NoMore notes -> accounts more rest -> accounts (notes ++ more) (l ++ rest).
Proof.
  intros A NI M. induction A as [|e notes l A IH|n missed notes l P L A IH|notes F]; cbn [app].
  - exact M.
  - constructor. apply IH. intros I. apply NI. now right.
  - rewrite <- app_assoc. constructor; auto. apply IH. intros I. apply NI. now right.
  - exfalso. apply NI. now left.
Qed.
Lemma accounts_end notes l : accounts notes l -> accounts (notes ++ [NoMore]) l.
Proof.
  induction 1 as [|e notes l A IH|n missed notes l P L A IH|notes F]; cbn [app].
  - constructor. constructor.
  - now constructor.
  - now constructor.
  - constructor. apply Forall_app. split; [exact F|]. repeat constructor.
Qed.
Lemma accounts_length notes l : accounts notes l -> length l = length (events_of notes) + missing notes.
Proof.
  induction 1 as [|e notes l A IH|n missed notes l P L A IH|notes F]; cbn [events_of missing length]; try lia.
  - rewrite app_length. lia.
  - induction F as [|x r E _ IH]; [reflexivity|]. subst x. exact IH.
Qed.

(** The broadcast events only grow. *)
Lemma step_published C s ev s' : reachable C s -> step C s ev = Some s' -> exists l, k_published s' = k_published s ++ l.
Proof.
  intros R H. destruct (step_log C s ev s' H) as (new & E & _).
  destruct (reachable_inv C s R) as [I _]. destruct (reachable_inv C s' (reach_step C s ev s' R H)) as [I' _].
  rewrite (i_published _ _ I), (i_published _ _ I'), E, progress_app. eauto.
Qed.
Lemma breachable_conn C cap s : breachable C cap s -> reachable C (b_conn s).
Proof.
  induction 1 as [|s ev s' R IH H]; [constructor|]. destruct ev as [ev| |i]; cbn [bstep] in H.
  - destruct (step C (b_conn s) ev) as [k|] eqn:E; [|discriminate]. injection H as <-. cbn [b_conn]. now apply (reach_step C (b_conn s) ev).
  - destruct (k_open (b_conn s)); [|discriminate]. injection H as <-. exact IH.
  - destruct (nth_error (b_subs s) i) as [r|]; [|discriminate]. destruct (recv cap (b_conn s) r); [|discriminate]. injection H as <-. exact IH.
Qed.

Lemma nth_set_sub l i r x : nth_error l i = Some x -> nth_error (set_sub i r l) i = Some r.
Proof. revert i. induction l as [|y l IH]; intros [|i]; cbn; try discriminate; auto. Qed.
Lemma nth_set_sub_other l i j r : j <> i -> nth_error (set_sub i r l) j = nth_error l j.
Proof. revert i j. induction l as [|y l IH]; intros [|i] [|j] H; cbn; try reflexivity; try congruence. apply IH. congruence. Qed.

(** A receiver's place. *)
Record placed (cap : nat) (s : state) (r : sub) : Prop := {
  pl_order : b_start r <= b_next r <= length (k_published s);
  pl_notes : exists seen, firstn (b_next r) (k_published s) = firstn (b_start r) (k_published s) ++ seen /\ accounts (b_notes r) seen;
  pl_end : In NoMore (b_notes r) -> senders_left s = false /\ b_next r = length (k_published s) }.

Lemma senders_left_step C s ev s' : senders_left s = false -> step C s ev = Some s' -> senders_left s' = false /\ k_log s' = k_log s.
Proof.
  unfold senders_left. intros H E. apply orb_false_iff in H as [O T].
  assert (T' : k_task s = TEnded) by (destruct (k_task s); try discriminate; reflexivity).
  destruct (task_ended_step C s ev s' T' E) as [T2 L]. split; [|exact L]. rewrite T2. apply orb_false_iff. split; [|reflexivity].
  destruct ev; cbn [step] in E; rewrite ?T', ?O in E; try discriminate E.
  - destruct (k_view s q) as [|a| |st]; try discriminate E. destruct (s_rx st), (s_buf st); try discriminate E. injection E as <-. exact O.
  - destruct (k_view s q) as [|a| |st]; try discriminate E; injection E as <-; exact O.
  - injection E as <-. reflexivity.
Qed.

Lemma firstn_more {A} n (l m : list A) : n <= length l -> firstn n (l ++ m) = firstn n l.
Proof. intros H. rewrite firstn_app. replace (n - length l) with 0 by lia. cbn [firstn]. apply app_nil_r. Qed.

Lemma placed_all C cap s : 0 < cap -> breachable C cap s -> Forall (placed cap (b_conn s)) (b_subs s).
Proof.
  intros CP R. induction R as [|s ev s' R IH H]; [constructor|]. pose proof (breachable_conn C cap s R) as RC.
  destruct ev as [ev| |i]; cbn [bstep] in H.
  - destruct (step C (b_conn s) ev) as [k|] eqn:E; [|discriminate]. injection H as <-. cbn [b_conn b_subs].
    eapply Forall_impl; [|exact IH]. intros r [O (seen & ES & A) F]. destruct (step_published C _ _ _ RC E) as [l EL].
    constructor.
    + rewrite EL, app_length. lia.
    + exists seen. rewrite EL, !firstn_more by lia. auto.
    + intros I. destruct (F I) as [SL N]. destruct (senders_left_step C _ _ _ SL E) as [SL' L]. split; [exact SL'|]. rewrite N.
      destruct (reachable_inv C _ RC) as [I1 _]. destruct (reachable_inv C _ (reach_step C _ ev _ RC E)) as [I2 _].
      now rewrite (i_published _ _ I1), (i_published _ _ I2), L.
  - destruct (k_open (b_conn s)) eqn:O; [|discriminate]. injection H as <-. cbn [b_conn b_subs]. apply Forall_app. split; [exact IH|].
    constructor; [|constructor]. constructor; cbn [b_start b_next b_notes].
    + lia.
    + exists []. split; [now rewrite app_nil_r|constructor].
    + intros [].
  - destruct (nth_error (b_subs s) i) as [r|] eqn:N; [|discriminate]. destruct (recv cap (b_conn s) r) as [r'|] eqn:E; [|discriminate]. injection H as <-. cbn [b_conn b_subs].
    pose proof (proj1 (Forall_forall _ _) IH r (nth_error_In _ _ N)) as [OR (seen & ES & A) F].
    assert (P : placed cap (b_conn s) r').
    { unfold recv in E. destruct (nth_error (k_published (b_conn s)) (b_next r)) as [e|] eqn:NE.
      - assert (NI : ~ In NoMore (b_notes r)).
        { intros I. destruct (F I) as [_ X]. assert (nth_error (k_published (b_conn s)) (b_next r) <> None) as Y by congruence. apply nth_error_Some in Y. lia. }
        assert (LT : b_next r < length (k_published (b_conn s))) by (apply nth_error_Some; congruence).
        assert (NI' : forall n, ~ In NoMore (b_notes r ++ [Lagged n]) /\ ~ In NoMore (b_notes r ++ [Got e])).
        { intros n. split; intros I; apply in_app_or in I as [I|[I|[]]]; try discriminate I; now apply NI. }
        destruct (Nat.leb_spec (length (k_published (b_conn s))) (b_next r + cap)) as [LE|GT]; injection E as <-; constructor; cbn [b_start b_next b_notes].
        + lia.
        + exists (seen ++ [e]). split; [|apply accounts_app; [exact A|exact NI|repeat constructor]].
          rewrite app_assoc, <- ES. clear - NE. revert NE. generalize (k_published (b_conn s)) as l. generalize (b_next r) as n.
          induction n as [|n IH]; intros [|y l] NE; cbn in *; try discriminate; [now injection NE as ->|]. f_equal. now apply IH.
        + intros I. exfalso. now apply (proj2 (NI' 0)).
        + lia.
        + set (n := length (k_published (b_conn s)) - cap) in *.
          exists (seen ++ (firstn (n - b_next r) (skipn (b_next r) (k_published (b_conn s))))). split.
          * rewrite app_assoc, <- ES. replace n with (b_next r + (n - b_next r)) at 1 by lia.
            rewrite <- (firstn_skipn (b_next r) (k_published (b_conn s))) at 1. rewrite firstn_app, firstn_length, Nat.min_l by lia.
            rewrite firstn_all2 by (rewrite firstn_length; lia). do 2 f_equal. lia.
          * apply accounts_app; [exact A|exact NI|].
            rewrite <- (app_nil_r (firstn _ _)). constructor; [lia| |constructor]. rewrite firstn_length, skipn_length. lia.
        + intros I. exfalso. eapply (proj1 (NI' _)), I.
      - apply nth_error_None in NE. destruct (senders_left (b_conn s)) eqn:SL; [discriminate|]. injection E as <-. constructor; cbn [b_start b_next b_notes].
        + exact OR.
        + exists seen. split; [exact ES|now apply accounts_end].
        + intros _. split; [exact SL|lia]. }
    apply Forall_forall. intros x I. apply In_nth_error in I as [j J]. destruct (Nat.eq_dec j i) as [->|NEQ].
    + rewrite (nth_set_sub _ _ _ _ N) in J. injection J as <-. exact P.
    + rewrite (nth_set_sub_other _ _ _ _ NEQ) in J. exact (proj1 (Forall_forall _ _) IH x (nth_error_In _ _ J)).
Qed.

(** Without a gap the notes are the events themselves. *)
Lemma accounts_no_gap notes l : accounts notes l -> missing notes = 0 -> events_of notes = l.
Proof.
  induction 1 as [|e notes l A IH|n missed notes l P L A IH|notes F]; cbn [events_of missing]; intros M.
  - reflexivity.
  - f_equal. auto.
  - lia.
  - induction F as [|x r E _ IH]; [reflexivity|]. subst x. exact (IH M).
Qed.

(** A receiver that was never more than [cap] events behind has missed none: here, one whose
    channel has carried at most [cap] events since it was created. *)
Lemma no_gap C cap s : 0 < cap -> breachable C cap s -> Forall (fun r => length (k_published (b_conn s)) <= b_start r + cap -> missing (b_notes r) = 0) (b_subs s).
Proof.
  intros CP R. induction R as [|s ev s' R IH H]; [constructor|]. pose proof (breachable_conn C cap s R) as RC.
  pose proof (placed_all C cap s CP R) as PL.
  destruct ev as [ev| |i]; cbn [bstep] in H.
  - destruct (step C (b_conn s) ev) as [k|] eqn:E; [|discriminate]. injection H as <-. cbn [b_conn b_subs].
    destruct (step_published C _ _ _ RC E) as [l EL]. eapply Forall_impl; [|exact IH]. intros r P L. apply P. rewrite EL, app_length in L. lia.
  - destruct (k_open (b_conn s)) eqn:O; [|discriminate]. injection H as <-. cbn [b_conn b_subs]. apply Forall_app. split; [exact IH|].
    repeat constructor.
  - destruct (nth_error (b_subs s) i) as [r|] eqn:N; [|discriminate]. destruct (recv cap (b_conn s) r) as [r'|] eqn:E; [|discriminate]. injection H as <-. cbn [b_conn b_subs].
    pose proof (proj1 (Forall_forall _ _) IH r (nth_error_In _ _ N)) as P. cbn beta in P.
    pose proof (proj1 (Forall_forall _ _) PL r (nth_error_In _ _ N)) as [OR _ _].
    assert (K : forall a b, missing (a ++ b) = missing a + missing b).
    { induction a as [|[e|n|] a IHa]; intros b; cbn [app missing]; rewrite ?IHa; lia. }
    assert (Q : length (k_published (b_conn s)) <= b_start r' + cap -> missing (b_notes r') = 0).
    { unfold recv in E. destruct (nth_error (k_published (b_conn s)) (b_next r)) as [e|] eqn:NE.
      - destruct (Nat.leb_spec (length (k_published (b_conn s))) (b_next r + cap)) as [LE|GT]; injection E as <-; cbn [b_start b_notes]; intros L; rewrite K; cbn [missing].
        + rewrite (P L). reflexivity.
        + lia.
      - destruct (senders_left (b_conn s)); [discriminate|]. injection E as <-. cbn [b_start b_notes]. intros L. rewrite K, (P L). reflexivity. }
    apply Forall_forall. intros x I. apply In_nth_error in I as [j J]. destruct (Nat.eq_dec j i) as [->|NEQ].
    + rewrite (nth_set_sub _ _ _ _ N) in J. injection J as <-. exact Q.
    + rewrite (nth_set_sub_other _ _ _ _ NEQ) in J. exact (proj1 (Forall_forall _ _) IH x (nth_error_In _ _ J)).
Qed.

(** Along a run: a receiver keeps its number and its start, and the events only grow. *)
Lemma bstep_keeps C cap s ev s' i r : breachable C cap s -> bstep C cap s ev = Some s' -> nth_error (b_subs s) i = Some r ->
  (exists r', nth_error (b_subs s') i = Some r' /\ b_start r' = b_start r) /\ exists l, k_published (b_conn s') = k_published (b_conn s) ++ l.
Proof.
  intros R H N. destruct ev as [ev| |j]; cbn [bstep] in H.
  - destruct (step C (b_conn s) ev) as [k|] eqn:E; [|discriminate]. injection H as <-. split; [now exists r|].
    exact (step_published C _ _ _ (breachable_conn C cap s R) E).
  - destruct (k_open (b_conn s)); [|discriminate]. injection H as <-. cbn [b_conn b_subs]. split; [|exists []; now rewrite app_nil_r].
    exists r. split; [|reflexivity]. rewrite nth_error_app1; [exact N|]. apply nth_error_Some. congruence.
  - destruct (nth_error (b_subs s) j) as [x|] eqn:NJ; [|discriminate]. destruct (recv cap (b_conn s) x) as [x'|] eqn:E; [|discriminate]. injection H as <-. cbn [b_conn b_subs].
    split; [|exists []; now rewrite app_nil_r]. destruct (Nat.eq_dec i j) as [->|NE].
    + rewrite NJ in N. injection N as ->. exists x'. split; [now apply (nth_set_sub _ _ _ r)|]. unfold recv in E.
      destruct (nth_error _ (b_next r)); [destruct (Nat.leb _ _); injection E as <-; reflexivity|]. destruct (senders_left _); [discriminate|]. now injection E as <-.
    + exists r. split; [|reflexivity]. now rewrite nth_set_sub_other.
Qed.
Lemma brun_keeps C cap evs : forall s s' i r, breachable C cap s -> brun C cap s evs = Some s' -> nth_error (b_subs s) i = Some r ->
  breachable C cap s' /\ (exists r', nth_error (b_subs s') i = Some r' /\ b_start r' = b_start r) /\ exists l, k_published (b_conn s') = k_published (b_conn s) ++ l.
Proof.
  induction evs as [|ev evs IH]; intros s s' i r R H N; cbn [brun] in H.
  - injection H as <-. split; [exact R|]. split; [now exists r|]. exists []. now rewrite app_nil_r.
  - destruct (bstep C cap s ev) as [s1|] eqn:E; [|discriminate]. destruct (bstep_keeps C cap s ev s1 i r R E N) as [(r1 & N1 & S1) [l1 L1]].
    destruct (IH s1 s' i r1 (br_step C cap s ev s1 R E) H N1) as (R' & (r' & N' & S') & [l2 L2]). split; [exact R'|].
    split; [exists r'; split; [exact N'|congruence]|]. exists (l1 ++ l2). rewrite L2, L1. now rewrite app_assoc.
Qed.

(** The whole story of one subscriber. *)
Lemma told C cap s0 s1 evs s2 : 0 < cap -> breachable C cap s0 -> bstep C cap s0 BSubscribe = Some s1 -> brun C cap s1 evs = Some s2 ->
  exists r seen to_come, nth_error (b_subs s2) (length (b_subs s0)) = Some r /\
    k_published (b_conn s2) = k_published (b_conn s0) ++ seen ++ to_come /\ accounts (b_notes r) seen /\
    b_next r = length (k_published (b_conn s0) ++ seen) /\
    (length (seen ++ to_come) <= cap -> missing (b_notes r) = 0).
Proof.
  intros CP R0 E1 E2. assert (R1 := br_step C cap s0 BSubscribe s1 R0 E1). cbn [bstep] in E1.
  destruct (k_open (b_conn s0)); [|discriminate]. injection E1 as <-. cbn [b_conn b_subs] in *.
  destruct (brun_keeps C cap evs _ _ (length (b_subs s0)) {| b_start := length (k_published (b_conn s0)); b_next := length (k_published (b_conn s0)); b_notes := [] |} R1 E2)
    as (R2 & (r & N & S) & [l L]).
  { cbn [b_subs]. rewrite nth_error_app2 by lia. now rewrite Nat.sub_diag. }
  cbn [b_start b_conn] in *. pose proof (proj1 (Forall_forall _ _) (placed_all C cap s2 CP R2) r (nth_error_In _ _ N)) as [O (seen & ES & A) _].
  pose proof (proj1 (Forall_forall _ _) (no_gap C cap s2 CP R2) r (nth_error_In _ _ N)) as G. cbn beta in G.
  rewrite S in ES, O, G. rewrite L in ES at 2. rewrite firstn_more in ES by lia. rewrite firstn_all in ES.
  exists r, seen, (skipn (b_next r) (k_published (b_conn s2))). split; [exact N|]. split; [|split; [exact A|split]].
  - rewrite app_assoc, <- ES. now rewrite firstn_skipn.
  - rewrite <- ES, firstn_length. lia.
  - intros LE. apply G. rewrite <- (firstn_skipn (b_next r) (k_published (b_conn s2))), ES, <- app_assoc, app_length. lia.
Qed.
