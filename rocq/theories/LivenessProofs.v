(** Every query is answered: proofs. *)
From Coq Require Import Lia.
From Verif Require Import Base Types IndexMap Block Progress Protocol Connection ConnectionSpec ConnectionProofs
  SessionSpec SessionProofs LivenessSpec.
Local Open Scope list_scope.
Local Open Scope nat_scope.

(** How many queries have been taken out of the request queue. *)
Definition taken (s : state) : nat := length (sent_queries (k_log s)) + length (k_pending s).

Lemma dispatch_taken s q t id w : running (dispatch s q t id w) ->
  k_queue (dispatch s q t id w) = k_queue s /\ k_submitted (dispatch s q t id w) = k_submitted s /\
  length (sent_queries (k_log (dispatch s q t id w))) = S (length (sent_queries (k_log s))) /\ k_pending (dispatch s q t id w) = k_pending s.
Proof.
  unfold dispatch. destruct w; [|intros R; now elim R|intros R; now elim R]. intros _. cbn. rewrite !sent_app, !app_length. cbn. repeat split. lia.
Qed.
Lemma next_taken s id w : running (next_query s id w) ->
  k_queue (next_query s id w) = k_queue s /\ k_submitted (next_query s id w) = k_submitted s /\ taken (next_query s id w) = taken s.
Proof.
  unfold next_query, taken. destruct (k_pending s) as [|[q t] rest] eqn:P; [intros _; rewrite P; auto|].
  intros R. destruct (dispatch_taken (set_pending s rest) q t id w R) as (A & B & D & E). rewrite A, B, D, E. cbn. repeat split. lia.
Qed.
Lemma deliver_taken s q i next id w : running (deliver s q i next id w) ->
  k_queue (deliver s q i next id w) = k_queue s /\ k_submitted (deliver s q i next id w) = k_submitted s /\ taken (deliver s q i next id w) = taken s.
Proof.
  unfold deliver, delivered. destruct (k_view s q) as [| | |v]; [| | |destruct (send_item v i)]; try (destruct next; [|cbn; auto]);
    try (intros R; destruct (next_taken _ id w R) as (A & B & D); rewrite A, B, D; cbn; auto). cbn. auto.
Qed.
Lemma log_recv_taken s p : taken (add_log s (LRecv p)) = taken s.
Proof. unfold taken. cbn. rewrite sent_app, app_length. cbn. now rewrite Nat.add_0_r. Qed.
Lemma recv_taken s p id w : running (receive_packet s p id w) ->
  k_queue (receive_packet s p id w) = k_queue s /\ k_submitted (receive_packet s p id w) = k_submitted s /\ taken (receive_packet s p id w) = taken s.
Proof.
  pose proof (log_recv_taken s p) as L. unfold receive_packet. set (s1 := add_log s (LRecv p)) in *.
  assert (Q : k_queue s1 = k_queue s /\ k_submitted s1 = k_submitted s) by (split; reflexivity). destruct Q as [Q1 Q2]. rewrite <- L, <- Q1, <- Q2. clearbody s1. clear L Q1 Q2 s.
  assert (O : k_queue s1 = k_queue s1 /\ k_submitted s1 = k_submitted s1 /\ taken s1 = taken s1) by auto.
  destruct p; try (intros _; exact O).
  - intros R. now elim R.
  - destruct (k_exec s1) as [[q u]|]; [|intros R; now elim R]. apply deliver_taken.
  - destruct (k_exec s1) as [[q u]|]; [|intros R; now elim R]. intros R. destruct (deliver_taken _ _ _ _ _ _ R) as (A & B & D). rewrite A, B, D. auto.
  - destruct (k_exec s1) as [[q u]|]; intros _; auto.
  - destruct (k_exec s1) as [[q u]|]; [|intros R; now elim R]. intros R. destruct (next_taken _ _ _ R) as (A & B & D). rewrite A, B, D. auto.
Qed.

(** One step: requests are taken from the front, or appended at the back. *)
Lemma step_queue C s e s' : step C s e = Some s' -> running s' ->
  length (k_submitted s) <= length (k_submitted s') /\
  ((exists r id w, e = Take id w /\ k_queue s = r :: k_queue s' /\ taken s' = taken s + length (queue_queries [r])) \/
   ((forall id w, e <> Take id w) /\ (exists new, k_queue s' = k_queue s ++ new) /\ taken s' = taken s)).
Proof.
  intros H R.
  assert (SAME : forall s1, k_queue s1 = k_queue s /\ k_submitted s1 = k_submitted s /\ taken s1 = taken s ->
    length (k_submitted s) <= length (k_submitted s1) /\ (exists new, k_queue s1 = k_queue s ++ new) /\ taken s1 = taken s).
  { intros s1 (A & B & D). rewrite A, B, D. split; [lia|]. split; [exists []; now rewrite app_nil_r|reflexivity]. }
  assert (FIN : forall P : Prop, running (finish s) -> P) by (intros P X; now elim X).
  destruct e; cbn [step] in H.
  - destruct (k_open s); [|discriminate H]. destruct (k_task s); try discriminate H;
      (destruct (Nat.ltb (length (k_queue s)) 1024); [|discriminate H]); injection H as <-; cbn;
      (split; [rewrite app_length; cbn; lia|]; right; split; [discriminate|]; split; [eauto|reflexivity]).
  - destruct (k_open s); [|discriminate H]. destruct (k_task s); try discriminate H; destruct (k_view s q) as [| | |v]; try discriminate H;
      (destruct (s_rx v && Nat.ltb (length (k_queue s)) 1024)%bool; [|discriminate H]); injection H as <-; cbn;
      (split; [lia|]; right; split; [discriminate|]; split; [eauto|reflexivity]).
  - destruct (k_task s) eqn:T; try discriminate H. destruct (k_queue s) as [|r rest] eqn:Q; [discriminate H|]. injection H as <-.
    destruct r as [q t|q b]; cbn [handle_request] in *.
    + change (k_pending (set_queue s rest)) with (k_pending s) in *. change (k_exec (set_queue s rest)) with (k_exec s) in *.
      assert (D : match k_pending s with [] => match k_exec s with None => True | _ => False end | _ => False end \/
        match k_pending s with [] => match k_exec s with None => dispatch (set_queue s rest) q t id w | _ => set_pending (set_queue s rest) (k_pending s ++ [(q, t)]) end
          | _ => set_pending (set_queue s rest) (k_pending s ++ [(q, t)]) end = set_pending (set_queue s rest) (k_pending s ++ [(q, t)])).
      { destruct (k_pending s); [destruct (k_exec s)|]; auto. }
      destruct D as [D|D].
      * destruct (k_pending s) eqn:P; [|contradiction]. destruct (k_exec s); [contradiction|].
        destruct (dispatch_taken _ _ _ _ _ R) as (A & B & L & PD). rewrite B. cbn. split; [lia|]. left. exists (RQuery q t), id, w. rewrite A. cbn.
        split; [reflexivity|]. split; [reflexivity|]. unfold taken. rewrite L, PD. cbn. lia.
      * match goal with |- context [taken ?X] => replace X with (set_pending (set_queue s rest) (k_pending s ++ [(q, t)])) by (symmetry; exact D) end.
        cbn. split; [lia|]. left. exists (RQuery q t), id, w. split; [reflexivity|]. split; [reflexivity|]. unfold taken. cbn. rewrite app_length. cbn. lia.
    + destruct (send_data C b [] false); [destruct w|..]; try (now elim R). cbn. split; [lia|]. left. exists (RData q b), id, WOk.
      split; [reflexivity|]. split; [reflexivity|]. unfold taken. cbn. rewrite sent_app, app_length. cbn. lia.
  - destruct (k_task s) eqn:T; try discriminate H. injection H as <-. destruct (SAME _ (recv_taken s p id w R)) as (A & B & D).
    split; [exact A|]. right. split; [discriminate|]. auto.
  - destruct (k_task s) eqn:T; try discriminate H. injection H as <-. now elim R.
  - destruct (k_task s) as [|q i next|] eqn:T; try discriminate H. destruct (k_view s q) as [| | |v]; try discriminate H. destruct (send_item v i); try discriminate H. injection H as <-.
    destruct (SAME _ (deliver_taken s q i next id w R)) as (A & B & D). split; [exact A|]. right. split; [discriminate|]. auto.
  - destruct (k_view s q) as [| | |v]; try discriminate H. destruct (s_rx v); try discriminate H. destruct (s_buf v); try discriminate H. injection H as <-.
    cbn. split; [lia|]. right. split; [discriminate|]. split; [exists []; now rewrite app_nil_r|reflexivity].
  - destruct (k_view s q) as [| | |v]; try discriminate H; injection H as <-; cbn;
      (split; [lia|]; right; split; [discriminate|]; split; [exists []; now rewrite app_nil_r|reflexivity]).
  - injection H as <-. cbn. split; [lia|]. right. split; [discriminate|]. split; [exists []; now rewrite app_nil_r|reflexivity].
  - destruct (k_task s); try discriminate H. destruct (k_open s); [discriminate H|]. destruct (k_queue s); [|discriminate H]. injection H as <-. now elim R.
Qed.

Lemma queue_at l i x : nth_error (queue_queries l) i = Some x ->
  exists pre post, l = pre ++ RQuery (fst x) (snd x) :: post /\ length (queue_queries pre) = i.
Proof.
  revert i; induction l as [|[q t|q b] l IH]; intros i H; cbn in H.
  - now destruct i.
  - destruct i as [|i]; cbn in H.
    + injection H as <-. exists [], l. split; reflexivity.
    + destruct (IH i H) as (pre & post & -> & L). exists (RQuery q t :: pre), post. cbn. split; [reflexivity|lia].
  - destruct (IH i H) as (pre & post & -> & L). exists (RData q b :: pre), post. cbn. split; [reflexivity|exact L].
Qed.
Lemma flight_after_end new p c : incoming new = [p] -> ends p = true -> sent_queries new = [] -> in_flight_from c new = None.
Proof.
  revert c. assert (Z : forall new c, incoming new = [] -> sent_queries new = [] -> in_flight_from c new = c).
  { clear. induction new as [|[q t i|q b|x] new IH]; intros c A B; cbn in *; try discriminate; auto. }
  induction new as [|[q t i|q b|x] new IH]; intros c A E B; cbn in *; try discriminate; auto.
  injection A as -> A. rewrite E. now apply Z.
Qed.

Section Execution.
  Context (C : conn) (st : nat -> state) (ev : nat -> option event) (EX : execution C st ev).

  Lemma ex_reachable n : reachable C (st n).
  Proof.
    induction n as [|n IH]; [rewrite (proj1 EX); constructor|]. pose proof (proj2 EX n) as H. destruct (ev n) as [e|].
    - econstructor; eauto.
    - now rewrite H.
  Qed.
  Lemma ex_inv n : inv_with (st n) [].
  Proof. exact (proj1 (reachable_inv C _ (ex_reachable n))). Qed.
  Lemma ex_log n m : n <= m -> exists new, k_log (st m) = k_log (st n) ++ new.
  Proof.
    induction 1 as [|m L IH]; [exists []; now rewrite app_nil_r|]. destruct IH as [new IH]. pose proof (proj2 EX m) as H.
    destruct (ev m) as [e|].
    - apply step_log in H as (new' & H & _). exists (new ++ new'). now rewrite H, IH, app_assoc.
    - exists new. now rewrite H.
  Qed.
  Definition count n : nat := length (sent_queries (k_log (st n))).
  Lemma count_mono n m : n <= m -> count n <= count m.
  Proof. intros L. destruct (ex_log n m L) as [new E]. unfold count. rewrite E, sent_app, app_length. lia. Qed.
  Lemma sent_iff n q : In q (map fst (sent_queries (k_log (st n)))) <-> q < count n.
  Proof.
    destruct (i_prefix _ _ (ex_inv n)) as [rest P]. apply (f_equal (map fst)) in P. rewrite number_fst, map_app in P.
    unfold count. set (l := sent_queries (k_log (st n))) in *. rewrite <- (map_length fst l).
    assert (E : map fst l = seq 0 (length (map fst l))).
    { assert (F : firstn (length (map fst l)) (seq 0 (length (k_submitted (st n)))) = map fst l) by (rewrite P, firstn_app, firstn_all, Nat.sub_diag; cbn; now rewrite app_nil_r).
      rewrite <- F at 1. assert (LE : length (map fst l) <= length (k_submitted (st n))).
      { apply (f_equal (@length nat)) in P. rewrite seq_length, app_length in P. lia. }
      clear - LE. revert LE. generalize (length (map fst l)) as a, (length (k_submitted (st n))) as b. intros a b LE.
      replace b with (a + (b - a)) by lia. rewrite seq_app, firstn_app, seq_length, Nat.sub_diag. cbn. rewrite app_nil_r.
      rewrite <- (seq_length a 0) at 1. apply firstn_all. }
    rewrite E. rewrite in_seq. rewrite seq_length. lia.
  Qed.
  Lemma sub_mono (UPS : stays_up st) n m : n <= m -> length (k_submitted (st n)) <= length (k_submitted (st m)).
  Proof.
    induction 1 as [|m L IH]; [lia|]. etransitivity; [exact IH|]. pose proof (proj2 EX m) as H. destruct (ev m) as [e|]; [|now rewrite H].
    pose proof (UPS (S m)) as UP. apply (step_queue C _ _ _ H) in UP as [UP _]. exact UP.
  Qed.

  (** Nothing in flight, and nothing sent since: still nothing in flight. *)
  Lemma idle_still n m : n <= m -> count n = count m -> in_flight (k_log (st n)) = None -> in_flight (k_log (st m)) = None.
  Proof.
    intros L E F. destruct (ex_log n m L) as [new X]. unfold in_flight in *. rewrite X, flight_app, F.
    assert (S : sent_queries new = []).
    { unfold count in E. rewrite X, sent_app, app_length in E. destruct (sent_queries new); [reflexivity|cbn in E; lia]. }
    clear - S. induction new as [|[q t i|q b|p] new IH]; cbn in *; [reflexivity|discriminate|auto|]. destruct (ends p); auto.
  Qed.

  Definition task_returns : Prop := forall n, exists m, n <= m /\ k_task (st m) = TSelect.
  Context (UP : stays_up st) (CR : task_returns) (RT : requests_taken st ev) (SA : server_answers st ev).

  Lemma taken_mono n m : n <= m -> taken (st n) <= taken (st m).
  Proof.
    induction 1 as [|m L IH]; [lia|]. etransitivity; [exact IH|]. pose proof (proj2 EX m) as H. destruct (ev m) as [e|]; [|now rewrite H].
    destruct (step_queue C _ _ _ H (UP (S m))) as [_ [(r & id & w & _ & _ & E)|(_ & _ & E)]]; lia.
  Qed.
  Lemma numbers n : sent_queries (k_log (st n)) ++ k_pending (st n) ++ queue_queries (k_queue (st n)) = number 0 (k_submitted (st n)).
  Proof. exact (i_numbers _ _ (ex_inv n) (UP n)). Qed.

  Lemma leaves_queue_at d : forall n k pre post t, length pre = d -> k_queue (st n) = pre ++ RQuery k t :: post ->
    length (queue_queries pre) + taken (st n) = k -> exists m, n <= m /\ k < taken (st m).
  Proof.
    induction d as [d IHd] using lt_wf_ind. intros n k pre post t D Q K.
    destruct (RT n) as (m & L & F).
    assert (G : forall j n post, n + j = m -> k_queue (st n) = pre ++ RQuery k t :: post -> length (queue_queries pre) + taken (st n) = k ->
              exists m, n <= m /\ k < taken (st m)).
    { clear n post Q K L. induction j as [|j IHj]; intros n post E Q K.
      - assert (n = m) by lia. subst n. destruct F as [F|(id & w & F)]; [rewrite F in Q; destruct pre; discriminate Q|].
        pose proof (proj2 EX m) as H. rewrite F in H. destruct (step_queue C _ _ _ H (UP (S m))) as [_ [(r & id' & w' & _ & Q' & T)|(N & _)]]; [|now elim (N id w)].
        rewrite Q in Q'. destruct pre as [|r' pre]; cbn [app] in Q'.
        + injection Q' as <- Q'. exists (S m). split; [lia|]. rewrite T. cbn in *. lia.
        + injection Q' as <- Q'. destruct (IHd (length pre)) with (n := S m) (k := k) (pre := pre) (post := post) (t := t) as (m2 & L2 & H2); auto.
          * cbn in D. lia.
          * rewrite T. destruct r'; cbn in *; lia.
          * exists m2. split; [lia|exact H2].
      - pose proof (proj2 EX n) as H. destruct (ev n) as [e|] eqn:EV.
        + destruct (step_queue C _ _ _ H (UP (S n))) as [_ [(r & id' & w' & _ & Q' & T)|(N & [new Q'] & T)]].
          * rewrite Q in Q'. destruct pre as [|r' pre]; cbn [app] in Q'.
            -- injection Q' as <- Q'. exists (S n). split; [lia|]. rewrite T. cbn in *. lia.
            -- injection Q' as <- Q'. destruct (IHd (length pre)) with (n := S n) (k := k) (pre := pre) (post := post) (t := t) as (m2 & L2 & H2); auto.
               ++ cbn in D. lia.
               ++ rewrite T. destruct r'; cbn in *; lia.
               ++ exists m2. split; [lia|exact H2].
          * rewrite Q, <- app_assoc in Q'. cbn [app] in Q'. destruct (IHj (S n) (post ++ new)) as (m2 & L2 & H2); [lia|exact Q'|lia|].
            exists m2. split; [lia|exact H2].
        + destruct (IHj (S n) post) as (m2 & L2 & H2); [lia|now rewrite H|now rewrite H|]. exists m2. split; [lia|exact H2]. }
    destruct (G (m - n) n post) as (m2 & L2 & H2); auto; [lia|]. eauto.
  Qed.
  Lemma leaves_queue n k : k < length (k_submitted (st n)) -> exists m, n <= m /\ k < taken (st m).
  Proof.
    intros L. destruct (Nat.lt_ge_cases k (taken (st n))) as [H|H]; [exists n; auto|].
    pose proof (numbers n) as NU. unfold taken in H.
    assert (X : exists x, nth_error (number 0 (k_submitted (st n))) k = Some x /\ fst x = k).
    { clear - L. assert (G : forall l a k, k < length l -> exists x, nth_error (number a l) k = Some x /\ fst x = a + k).
      { induction l as [|t l IH]; intros a j J; [cbn in J; lia|]. destruct j as [|j]; cbn.
        - exists (a, t). split; [reflexivity|]. cbn. lia.
        - destruct (IH (S a) j) as (x & E1 & E2); [cbn in J; lia|]. exists x. split; [exact E1|lia]. }
      exact (G _ 0 k L). }
    destruct X as ([k' t] & X & E). cbn in E. subst k'. rewrite <- NU, app_assoc, nth_error_app2 in X by (rewrite app_length; lia).
    rewrite app_length in X. destruct (queue_at _ _ _ X) as (pre & post & Q & LP). cbn in Q.
    apply (leaves_queue_at (length pre) n k pre post t eq_refl Q). unfold taken. lia.
  Qed.

  (** Once the connection is idle whoever is next has been sent. *)
  Lemma idle_then_sent n k : k < taken (st n) -> count n = k -> in_flight (k_log (st n)) = None -> exists m, n <= m /\ k < count m.
  Proof.
    intros K E F. destruct (CR n) as (m & L & T). exists m. split; [exact L|].
    destruct (Nat.lt_ge_cases k (count m)) as [H|H]; [exact H|exfalso].
    pose proof (count_mono n m L) as M. assert (E2 : count n = count m) by lia.
    pose proof (idle_still n m L E2 F) as F2.
    destruct (reachable_inv C _ (ex_reachable m)) as [I ID]. rewrite <- (i_exec _ _ I (UP m)) in F2. pose proof (ID T F2) as P.
    pose proof (taken_mono n m L) as TM. unfold taken in TM at 2. rewrite P in TM. cbn in TM. unfold count in *. lia.
  Qed.
  Lemma next_is_sent n k : k < taken (st n) -> count n = k -> exists m, n <= m /\ k < count m.
  Proof.
    intros K E. destruct (SA n) as (m & L & [F|(p & id & w & EV & EN)]).
    - destruct (Nat.lt_ge_cases k (count m)) as [H|H]; [eauto|]. pose proof (count_mono n m L). pose proof (taken_mono n m L).
      destruct (idle_then_sent m k) as (m2 & L2 & H2); [lia|lia|exact F|]. exists m2. split; [lia|exact H2].
    - destruct (Nat.lt_ge_cases k (count (S m))) as [H|H]; [exists (S m); split; [lia|exact H]|].
      assert (L1 : n <= S m) by lia. pose proof (count_mono n (S m) L1). pose proof (taken_mono n (S m) L1).
      pose proof (proj2 EX m) as ST. rewrite EV in ST. destruct (step_log _ _ _ _ ST) as (new & LG & IN).
      assert (F : in_flight (k_log (st (S m))) = None).
      { unfold in_flight. rewrite LG, flight_app. apply (flight_after_end new p); [exact IN|exact EN|].
        assert (M : count n <= count m) by now apply (count_mono). unfold count in *. rewrite LG, sent_app, app_length in H.
        destruct (sent_queries new); [reflexivity|cbn in H; lia]. }
      destruct (idle_then_sent (S m) k) as (m2 & L2 & H2); [lia|lia|exact F|]. exists m2. split; [lia|exact H2].
  Qed.
  Lemma every_query_sent q : forall n, q < length (k_submitted (st n)) -> exists m, n <= m /\ q < count m.
  Proof.
    induction q as [|q IH]; intros n L.
    - destruct (leaves_queue n 0 L) as (m & L1 & T). destruct (Nat.lt_ge_cases 0 (count m)) as [H|H]; [eauto|].
      destruct (next_is_sent m 0 T) as (m2 & L2 & H2); [lia|]. exists m2. split; [lia|exact H2].
    - destruct (IH n) as (m & L1 & H1); [lia|]. assert (LS : S q < length (k_submitted (st m))) by (pose proof (sub_mono UP n m L1); lia).
      destruct (leaves_queue m (S q) LS) as (m2 & L2 & T). pose proof (count_mono m m2 L2).
      destruct (Nat.lt_ge_cases (S q) (count m2)) as [H2|H2]; [exists m2; split; [lia|exact H2]|].
      destruct (next_is_sent m2 (S q) T) as (m3 & L3 & H3); [lia|]. exists m3. split; [lia|exact H3].
  Qed.

  Lemma ended_kept n m q : n <= m -> ended q (k_log (st n)) = true -> ended q (k_log (st m)) = true.
  Proof.
    intros L E. destruct (ex_log n m L) as [new ->]. revert E. clear.
    assert (G : forall l, ended_here l = true -> ended_here (l ++ new) = true).
    { induction l as [|[q0 t i|q0 b|p] l IH]; cbn; try discriminate; auto. destruct (ends p); auto. }
    generalize (k_log (st n)) as l. induction l as [|[q' t i|q' b|p] l IH]; cbn; try discriminate; auto. destruct (Nat.eqb q' q); auto.
  Qed.
  Lemma idle_ended n q : q < count n -> in_flight (k_log (st n)) = None -> ended q (k_log (st n)) = true.
  Proof.
    intros S F. apply (sent_iff) in S. destruct (ended q (k_log (st n))) eqn:E; [reflexivity|].
    apply (flight_not_ended (st n) [] q (ex_inv n) S) in E as [u E]. congruence.
  Qed.
  Lemma every_query_ended q n : q < length (k_submitted (st n)) -> exists m, n <= m /\ ended q (k_log (st m)) = true.
  Proof.
    intros L. destruct (every_query_sent q n L) as (m & L1 & H1). destruct (SA m) as (m2 & L2 & [F|(p & id & w & EV & EN)]).
    - exists m2. split; [lia|]. apply idle_ended; [|exact F]. pose proof (count_mono m m2 L2). lia.
    - exists (S m2). split; [lia|]. pose proof (proj2 EX m2) as ST. rewrite EV in ST. destruct (step_log _ _ _ _ ST) as (new & LG & IN).
      pose proof (count_mono m m2 L2) as M. assert (S2 : In q (map fst (sent_queries (k_log (st m2))))) by (apply (sent_iff); lia).
      rewrite LG. clear - IN EN S2. revert S2. generalize (k_log (st m2)) as l.
      assert (G : forall l, ended_here (l ++ new) = true).
      { intros l. assert (GN : ended_here new = true) by (clear - IN EN; induction new as [|[q0 t i|q0 b|x] new IH]; cbn in *; try discriminate; auto; injection IN as -> _; now rewrite EN).
        induction l as [|[q' t i|q' b|x] l IH]; cbn; auto. destruct (ends x); auto. }
      induction l as [|[q' t i|q' b|x] l IH]; cbn; intros S2; [destruct S2| |auto|auto].
      destruct (Nat.eqb_spec q' q); [apply G|]. apply IH. destruct S2; [contradiction|assumption].
  Qed.
End Execution.

(** ** The reader *)
Lemma dispatch_view s q2 t id w n : running (dispatch s q2 t id w) -> n <> q2 -> k_view (dispatch s q2 t id w) n = k_view s n.
Proof. unfold dispatch. destruct w; try (intros R; now elim R). intros _ N. cbn. destruct (Nat.eqb_spec n q2); [contradiction|reflexivity]. Qed.
Lemma dispatch_view_self s q2 t id w a : running (dispatch s q2 t id w) -> k_view s q2 = VWaiting a ->
  k_view (dispatch s q2 t id w) q2 = VStream {| s_read := []; s_buf := []; s_tx := true; s_rx := a |}.
Proof. unfold dispatch. destruct w; try (intros R; now elim R). intros _ V. cbn. rewrite Nat.eqb_refl. now rewrite V. Qed.

(** Whether the caller still listens. *)
Definition listens (v : view) : Prop := match v with VWaiting a => a = true | VStream s => s_rx s = true | _ => True end.
Lemma listens_drop v : listens v -> listens (drop_tx v). Proof. destruct v; cbn; auto. Qed.
Lemma pending_waits s x q : inv_with s x -> running s -> In q (map fst (x ++ k_pending s ++ queue_queries (k_queue s))) -> exists a, k_view s q = VWaiting a.
Proof.
  intros I R Q. pose proof (i_numbers _ _ I R) as NU.
  assert (ND : NoDup (map fst (number 0 (k_submitted s)))) by (rewrite number_fst; apply seq_NoDup).
  assert (M : In q (map fst (number 0 (k_submitted s)))) by (rewrite <- NU, map_app; apply in_or_app; now right).
  rewrite number_fst, in_seq in M. pose proof (i_views _ _ I q) as W. unfold view_ok in W. destruct (k_view s q) as [|a| |v]; eauto; exfalso.
  - lia.
  - destruct W as [W _]. now elim R.
  - destruct W as [W _]. rewrite <- NU, map_app in ND. clear - W Q ND. induction (map fst (sent_queries (k_log s))) as [|y l IH]; [destruct W|].
    cbn in ND. apply NoDup_cons_iff in ND as [N1 N2]. destruct W as [->|W]; [apply N1, in_or_app; now right|auto].
Qed.
Lemma next_listens s id w n : (forall q, In q (map fst (k_pending s)) -> exists a, k_view s q = VWaiting a) -> running (next_query s id w) ->
  listens (k_view s n) -> listens (k_view (next_query s id w) n).
Proof.
  unfold next_query. destruct (k_pending s) as [|[q t] rest]; [auto|]. intros P R L. destruct (P q) as [a V]; [now left|].
  destruct (Nat.eq_dec n q) as [->|N].
  - rewrite (dispatch_view_self (set_pending s rest) q t id w a R V). cbn. rewrite V in L. exact L.
  - now rewrite (dispatch_view (set_pending s rest) q t id w n R N).
Qed.
Lemma deliver_listens s q i next id w n v : k_view s q = VStream v ->
  (forall q, In q (map fst (k_pending s)) -> exists a, k_view s q = VWaiting a) -> running (deliver s q i next id w) ->
  listens (k_view s n) -> listens (k_view (deliver s q i next id w) n).
Proof.
  intros V P. unfold deliver. rewrite V. destruct (send_item v i) as [v'|] eqn:SI; [|auto].
  assert (RX : s_rx v' = s_rx v). { unfold send_item in SI. destruct (s_rx v) eqn:X; [destruct (Nat.ltb _ _); [|discriminate]|]; injection SI as <-; auto. }
  assert (L1 : listens (k_view s n) -> listens (if Nat.eqb n q then VStream v' else k_view s n)).
  { intros L. destruct (Nat.eqb_spec n q) as [->|]; [|exact L]. rewrite V in L. cbn in *. congruence. }
  destruct next; [|intros _ L; exact (L1 L)]. unfold delivered. intros R L. apply next_listens; [|exact R|].
  - cbn [k_pending set_view set_task k_view]. intros q2 Q2. destruct (P q2 Q2) as [a V2]. destruct (Nat.eqb_spec q2 q) as [->|]; [congruence|]. eauto.
  - cbn [k_view set_view set_task]. rewrite Nat.eqb_refl. destruct (Nat.eqb_spec n q) as [->|]; [|exact L]. cbn. rewrite V in L. cbn in L. congruence.
Qed.
Lemma step_listens C s e s' q : reachable C s -> step C s e = Some s' -> running s' -> e <> Abandon q -> listens (k_view s q) -> listens (k_view s' q).
Proof.
  intros RE H R' NA L. destruct (reachable_inv C s RE) as [I ID].
  assert (PW : running s -> forall q, In q (map fst (k_pending s)) -> exists a, k_view s q = VWaiting a).
  { intros R q0 Q. apply (pending_waits s [] q0 I R). cbn. rewrite map_app. apply in_or_app. now left. }
  destruct e; cbn [step] in H.
  - destruct (k_open s); [|discriminate H]. destruct (k_task s); try discriminate H;
      (destruct (Nat.ltb (length (k_queue s)) 1024); [|discriminate H]); injection H as <-; cbn; (destruct (Nat.eqb _ _); [reflexivity|exact L]).
  - destruct (k_open s); [|discriminate H]. destruct (k_task s); try discriminate H; destruct (k_view s q0) as [| | |v]; try discriminate H;
      (destruct (s_rx v && Nat.ltb (length (k_queue s)) 1024)%bool; [|discriminate H]); injection H as <-; exact L.
  - destruct (k_task s) eqn:T; try discriminate H. assert (R : running s) by (unfold running; rewrite T; discriminate).
    destruct (k_queue s) as [|r rest] eqn:Q; [discriminate H|]. injection H as <-.
    destruct r as [q0 t|q0 b]; cbn [handle_request] in *.
    + change (k_pending (set_queue s rest)) with (k_pending s) in *. change (k_exec (set_queue s rest)) with (k_exec s) in *.
      destruct (k_pending s) eqn:P; [destruct (k_exec s)|]; [exact L| |exact L].
      destruct (Nat.eq_dec q q0) as [->|N]; [|now rewrite (dispatch_view (set_queue s rest) q0 t id w q R' N)].
      destruct (pending_waits s [] q0 I R) as [a V]; [rewrite P, Q; cbn; now left|].
      rewrite (dispatch_view_self (set_queue s rest) q0 t id w a R' V). rewrite V in L. exact L.
    + destruct (send_data C b [] false); [destruct w|..]; try (now elim R'). exact L.
  - destruct (k_task s) eqn:T; try discriminate H. assert (R : running s) by (unfold running; rewrite T; discriminate). injection H as <-.
    specialize (PW R). assert (EXS : forall q0 u, k_exec s = Some (q0, u) -> exists v, k_view s q0 = VStream v).
    { intros q0 u X. rewrite (i_exec _ _ I R) in X. apply (i_streams _ _ I). destruct (flight_sent _ _ _ _ X) as [Y|Y]; [discriminate|exact Y]. }
    unfold receive_packet in *. cbn [k_exec add_log] in *. destruct p; try exact L; try (now elim R').
    + destruct (k_exec s) as [[q0 u]|]; [|now elim R']. destruct (EXS q0 u eq_refl) as [v V]. now apply (deliver_listens (add_log s _) q0 _ false id w q v).
    + destruct (k_exec s) as [[q0 u]|]; [|now elim R']. destruct (EXS q0 u eq_refl) as [v V]. now apply (deliver_listens (set_exec (add_log s _) None) q0 _ true id w q v).
    + destruct (k_exec s) as [[q0 u]|]; exact L.
    + destruct (k_exec s) as [[q0 u]|]; [|now elim R']. destruct (EXS q0 u eq_refl) as [v V]. apply next_listens; [|exact R'|].
      * cbn. intros q2 Q2. destruct (PW q2 Q2) as [a V2]. destruct (Nat.eqb_spec q2 q0) as [->|]; [congruence|eauto].
      * cbn. destruct (Nat.eqb_spec q q0) as [->|]; [now apply listens_drop|exact L].
  - destruct (k_task s) eqn:T; try discriminate H. injection H as <-. now elim R'.
  - destruct (k_task s) as [|q0 i next|] eqn:T; try discriminate H. assert (R : running s) by (unfold running; rewrite T; discriminate).
    destruct (k_view s q0) as [| | |v] eqn:V; try discriminate H. destruct (send_item v i); try discriminate H. injection H as <-.
    now apply (deliver_listens s q0 i next id w q v V (PW R)).
  - destruct (k_view s q0) as [| | |v] eqn:V; try discriminate H. destruct (s_rx v) eqn:RX; try discriminate H. destruct (s_buf v); try discriminate H. injection H as <-.
    cbn. destruct (Nat.eqb q q0); [reflexivity|exact L].
  - assert (N : q <> q0) by (intros ->; contradiction).
    destruct (k_view s q0) as [| | |v] eqn:V; try discriminate H; injection H as <-; cbn; (destruct (Nat.eqb_spec q q0); [contradiction|exact L]).
  - injection H as <-. exact L.
  - destruct (k_task s); try discriminate H. destruct (k_open s); [discriminate H|]. destruct (k_queue s); [|discriminate H]. injection H as <-. now elim R'.
Qed.

(** A closed stream changes only when its caller reads from it. *)
Lemma next_view s id w n : running (next_query s id w) -> ~ In n (map fst (k_pending s)) -> k_view (next_query s id w) n = k_view s n.
Proof.
  unfold next_query. destruct (k_pending s) as [|[q t] rest]; [auto|]. intros R N. apply (dispatch_view (set_pending s rest) q t id w n R).
  intros ->. apply N. now left.
Qed.
Lemma deliver_view s q i next id w n : running (deliver s q i next id w) -> ~ In n (map fst (k_pending s)) -> n <> q -> k_view (deliver s q i next id w) n = k_view s n.
Proof.
  intros R P N. unfold deliver in *. assert (E : Nat.eqb n q = false) by now apply Nat.eqb_neq.
  destruct (k_view s q) as [| | |v] eqn:V; [| | |destruct (send_item v i)]; try reflexivity; unfold delivered in *; destruct next;
    try (rewrite next_view; [cbn; rewrite ?E; reflexivity|exact R|exact P]); cbn; rewrite ?E; reflexivity.
Qed.
Lemma closed_step C s e s' q v : reachable C s -> step C s e = Some s' -> running s -> running s' -> k_view s q = VStream v -> s_tx v = false ->
  e <> Abandon q ->
  k_view s' q = VStream v \/
  (e = Consume q /\ exists i rest, s_buf v = i :: rest /\ k_view s' q = VStream {| s_read := s_read v ++ [i]; s_buf := rest; s_tx := false; s_rx := true |}).
Proof.
  intros RE H R R' V TX NA. destruct (reachable_inv C s RE) as [I ID].
  pose proof (i_views _ _ I q) as W. unfold view_ok in W. rewrite V in W. destruct W as (SQ & _ & _ & _ & _ & TI).
  assert (NX : forall u, k_exec s <> Some (q, u)). { intros u X. assert (s_tx v = true) by (apply TI; split; eauto). congruence. }
  assert (NT : forall i next, k_task s <> TSending q i next).
  { intros i next X. destruct next.
    - assert (s_tx v = true) by (apply TI; split; eauto). congruence.
    - destruct (i_sending _ _ I q i false X) as [_ [u Y]]. now elim (NX u). }
  assert (NP : ~ In q (map fst (k_pending s ++ queue_queries (k_queue s)))).
  { intros Q. destruct (pending_waits s [] q I R Q) as [a Y]. congruence. }
  assert (NP1 : ~ In q (map fst (k_pending s))) by (intros Q; apply NP; rewrite map_app; apply in_or_app; now left).
  destruct e; cbn [step] in H.
  - left. destruct (k_open s); [|discriminate H]. destruct (k_task s); try discriminate H;
      (destruct (Nat.ltb (length (k_queue s)) 1024); [|discriminate H]); injection H as <-; cbn;
      (destruct (Nat.eqb_spec q (length (k_submitted s))) as [->|]; [pose proof (sent_small s [] _ I SQ); lia|exact V]).
  - left. destruct (k_open s); [|discriminate H]. destruct (k_task s); try discriminate H; destruct (k_view s q0) as [| | |v0]; try discriminate H;
      (destruct (s_rx v0 && Nat.ltb (length (k_queue s)) 1024)%bool; [|discriminate H]); injection H as <-; exact V.
  - left. destruct (k_task s) eqn:T; try discriminate H. destruct (k_queue s) as [|r rest] eqn:Q; [discriminate H|]. injection H as <-.
    destruct r as [q0 t|q0 b]; cbn [handle_request] in *.
    + change (k_pending (set_queue s rest)) with (k_pending s) in *. change (k_exec (set_queue s rest)) with (k_exec s) in *.
      destruct (k_pending s) eqn:P; [destruct (k_exec s)|]; [exact V| |exact V].
      rewrite (dispatch_view (set_queue s rest) q0 t id w q R'); [exact V|]. intros ->. apply NP. cbn. now left.
    + destruct (send_data C b [] false); [destruct w|..]; try (now elim R'). exact V.
  - left. destruct (k_task s) eqn:T; try discriminate H. injection H as <-. unfold receive_packet in *. cbn [k_exec add_log] in *. destruct p; try exact V; try (now elim R').
    + destruct (k_exec s) as [[q0 u]|] eqn:X; [|now elim R']. rewrite deliver_view; [exact V|exact R'|exact NP1|]. intros ->. now elim (NX u).
    + destruct (k_exec s) as [[q0 u]|] eqn:X; [|now elim R']. rewrite deliver_view; [exact V|exact R'|exact NP1|]. intros ->. now elim (NX u).
    + destruct (k_exec s) as [[q0 u]|]; exact V.
    + destruct (k_exec s) as [[q0 u]|] eqn:X; [|now elim R']. rewrite next_view; [|exact R'|exact NP1]. cbn.
      destruct (Nat.eqb_spec q q0) as [->|]; [now elim (NX u)|exact V].
  - destruct (k_task s) eqn:T; try discriminate H. injection H as <-. now elim R'.
  - left. destruct (k_task s) as [|q0 i next|] eqn:T; try discriminate H.
    destruct (k_view s q0) as [| | |v0] eqn:V0; try discriminate H. destruct (send_item v0 i); try discriminate H. injection H as <-.
    rewrite deliver_view; [exact V|exact R'|exact NP1|]. intros ->. now elim (NT i next).
  - destruct (k_view s q0) as [| | |v0] eqn:V0; try discriminate H. destruct (s_rx v0) eqn:RX; try discriminate H. destruct (s_buf v0) as [|i rest] eqn:B; try discriminate H. injection H as <-.
    destruct (Nat.eq_dec q q0) as [->|N].
    + right. split; [reflexivity|]. rewrite V in V0. injection V0 as <-. exists i, rest. split; [exact B|]. cbn. now rewrite Nat.eqb_refl, TX.
    + left. cbn. destruct (Nat.eqb_spec q q0); [contradiction|exact V].
  - left. assert (N : q <> q0) by (intros ->; contradiction).
    destruct (k_view s q0) as [| | |v0] eqn:V0; try discriminate H; injection H as <-; cbn; (destruct (Nat.eqb_spec q q0); [contradiction|exact V]).
  - left. injection H as <-. exact V.
  - destruct (k_task s); try discriminate H. destruct (k_open s); [discriminate H|]. destruct (k_queue s); [|discriminate H]. injection H as <-. now elim R'.
Qed.

Section Reader.
  Context (C : conn) (st : nat -> state) (ev : nat -> option event) (EX : execution C st ev) (UP : stays_up st) (CR : task_returns st)
    (RT : requests_taken st ev) (SA : server_answers st ev) (q : nat) (KR : keeps_reading st ev q).

  Lemma always_listens n : listens (k_view (st n) q).
  Proof.
    induction n as [|n IH]; [rewrite (proj1 EX); exact I|]. pose proof (proj2 EX n) as H. destruct (ev n) as [e|] eqn:EV; [|now rewrite H].
    apply (step_listens C (st n) e (st (S n)) q (ex_reachable C st ev EX n) H (UP (S n))); [|exact IH]. intros ->. exact (proj1 KR n EV).
  Qed.
  Lemma reads_on d : forall n v, length (s_buf v) = d -> k_view (st n) q = VStream v -> s_tx v = false ->
    exists m v', n <= m /\ k_view (st m) q = VStream v' /\ s_tx v' = false /\ s_buf v' = [].
  Proof.
    induction d as [|d IHd]; intros n v D V TX; [exists n, v; destruct (s_buf v); [auto|discriminate]|].
    destruct (proj2 KR n) as (m & L & F).
    assert (G : forall j n, n + j = m -> k_view (st n) q = VStream v -> exists m v', n <= m /\ k_view (st m) q = VStream v' /\ s_tx v' = false /\ s_buf v' = []).
    { clear n V L. induction j as [|j IHj]; intros n E V; pose proof (proj2 EX n) as H.
      - assert (n = m) by lia. subst n. destruct F as [F|F].
        + rewrite (F v V) in D. discriminate D.
        + rewrite F in H. destruct (closed_step C _ _ _ q v (ex_reachable C st ev EX m) H (UP m) (UP (S m)) V TX) as [X|(_ & i & rest & B & X)]; [discriminate| |].
          * exfalso. cbn [step] in H. rewrite V in H. destruct (s_rx v); [|discriminate H]. destruct (s_buf v) as [|i rest] eqn:B; [discriminate H|]. injection H as H. rewrite <- H in X.
            cbn in X. rewrite Nat.eqb_refl in X. injection X as X. rewrite <- X in B. cbn in B. clear - B. apply (f_equal (@length item)) in B. cbn in B. lia.
          * assert (DL : length rest = d) by (rewrite B in D; cbn in D; lia). destruct (IHd (S m) {| s_read := s_read v ++ [i]; s_buf := rest; s_tx := false; s_rx := true |} DL X eq_refl) as (m2 & v2 & L2 & Z). exists m2, v2. split; [lia|exact Z].
      - destruct (ev n) as [e|] eqn:EV.
        + destruct (closed_step C _ _ _ q v (ex_reachable C st ev EX n) H (UP n) (UP (S n)) V TX) as [X|(_ & i & rest & B & X)].
          * intros ->. exact (proj1 KR n EV).
          * destruct (IHj (S n)) as (m2 & v2 & L2 & Z); [lia|exact X|]. exists m2, v2. split; [lia|exact Z].
          * assert (DL : length rest = d) by (rewrite B in D; cbn in D; lia). destruct (IHd (S n) {| s_read := s_read v ++ [i]; s_buf := rest; s_tx := false; s_rx := true |} DL X eq_refl) as (m2 & v2 & L2 & Z). exists m2, v2. split; [lia|exact Z].
        + destruct (IHj (S n)) as (m2 & v2 & L2 & Z); [lia|now rewrite H|]. exists m2, v2. split; [lia|exact Z]. }
    destruct (G (m - n) n ltac:(lia) V) as (m2 & v2 & Z). exists m2, v2. exact Z.
  Qed.
  Lemma reader_sees_end n : q < length (k_submitted (st n)) -> exists m v, n <= m /\ k_view (st m) q = VStream v /\
    s_tx v = false /\ s_buf v = [] /\ s_rx v = true /\ ended q (k_log (st m)) = true.
  Proof.
    intros L. destruct (every_query_ended C st ev EX UP CR RT SA q n L) as (m & L1 & E).
    destruct (CR m) as (m2 & L2 & T). pose proof (ended_kept C st ev EX m m2 q L2 E) as E2.
    pose proof (ex_reachable C st ev EX m2) as RE. destruct (reachable_inv C _ RE) as [I _].
    assert (SQ : In q (map fst (sent_queries (k_log (st m2))))).
    { clear - E2. revert E2. generalize (k_log (st m2)) as l. induction l as [|[q' t i|q' b|p] l IH]; cbn; try discriminate; auto.
      destruct (Nat.eqb_spec q' q); auto. }
    destruct (i_streams _ _ I q SQ) as [v V].
    assert (TX : s_tx v = false).
    { destruct (s_tx v) eqn:TX; [|reflexivity]. apply (closed_iff C _ q v RE V) in TX as [_ [X|[i X]]]; [congruence|]. rewrite T in X. discriminate X. }
    destruct (reads_on (length (s_buf v)) m2 v eq_refl V TX) as (m3 & v3 & L3 & V3 & T3 & B3).
    exists m3, v3. split; [lia|]. split; [exact V3|]. split; [exact T3|]. split; [exact B3|]. split.
    - pose proof (always_listens m3) as X. rewrite V3 in X. exact X.
    - exact (ended_kept C st ev EX m2 m3 q L3 E2).
  Qed.
End Reader.

(** ** The task is held up only for a while *)
Lemma sending_step C s e s' q i next : reachable C s -> step C s e = Some s' -> running s' -> k_task s = TSending q i next ->
  k_task s' = TSelect \/
  (k_task s' = TSending q i next /\ (forall id w, e <> Resume id w) /\ (has_room s q \/ e = Consume q \/ e = Abandon q -> has_room s' q)).
Proof.
  intros RE H R' T. destruct (reachable_inv C s RE) as [I _].
  assert (NX : forall s2 id w, running (next_query s2 id w) -> k_task s2 = TSelect -> k_task (next_query s2 id w) = TSelect).
  { intros s2 id w. unfold next_query. destruct (k_pending s2) as [|[q2 t2] rest]; [auto|]. unfold dispatch. destruct w; cbn; auto; intros X; now elim X. }
  destruct (i_sending _ _ I q i next T) as [[v V] _].
  assert (VS : In q (map fst (sent_queries (k_log s))) /\ length (s_buf v) <= CHANNEL).
  { pose proof (i_views _ _ I q) as W. unfold view_ok in W. rewrite V in W. split; apply W. }
  destruct VS as (SQ & LV).
  destruct e; cbn [step] in H; rewrite ?T in H; try discriminate H.
  - right. destruct (k_open s); [|discriminate H]. destruct (Nat.ltb (length (k_queue s)) 1024); [|discriminate H]. injection H as <-.
    split; [first [exact T|reflexivity]|]. split; [discriminate|]. intros [(v' & V' & RM)|[X|X]]; [|discriminate X..]. exists v'. split; [|exact RM]. cbn.
    destruct (Nat.eqb_spec q (length (k_submitted s))) as [->|]; [pose proof (sent_small s [] _ I SQ); lia|exact V'].
  - right. destruct (k_open s); [|discriminate H]. destruct (k_view s q0) as [| | |v0]; try discriminate H.
    destruct (s_rx v0 && Nat.ltb (length (k_queue s)) 1024)%bool; [|discriminate H]. injection H as <-.
    split; [first [exact T|reflexivity]|]. split; [discriminate|]. intros [RM|[X|X]]; [exact RM|discriminate X..].
  - left. rewrite V in H. destruct (send_item v i) eqn:SI; [|discriminate H]. injection H as <-. unfold deliver in *. rewrite V, SI in *.
    unfold delivered in *. destruct next; [|reflexivity]. apply NX; [exact R'|reflexivity].
  - right. destruct (k_view s q0) as [| | |v0] eqn:V0; try discriminate H. destruct (s_rx v0) eqn:RX; [|discriminate H].
    destruct (s_buf v0) as [|i0 rest] eqn:B; [discriminate H|]. injection H as <-.
    split; [first [exact T|reflexivity]|]. split; [discriminate|]. intros RM. unfold has_room. cbn. destruct (Nat.eqb_spec q q0) as [->|N].
    + eexists. split; [reflexivity|]. cbn. right. rewrite V in V0. injection V0 as <-. rewrite B in LV. cbn in LV. lia.
    + destruct RM as [(v' & V' & RM)|[X|X]]; [|injection X as ->; contradiction|discriminate X]. exists v'. now split.
  - right. destruct (k_view s q0) as [|al| |v0] eqn:V0; try discriminate H; injection H as <-;
    (split; [first [exact T|reflexivity]|]; split; [discriminate|]; intros RM; unfold has_room; cbn; destruct (Nat.eqb_spec q q0) as [->|N];
     [ first [congruence|eexists; split; [reflexivity|]; now left]
     | destruct RM as [(v' & V' & RM)|[X|X]]; [exists v'; now split|discriminate X|injection X as ->; contradiction] ]).
  - right. injection H as <-. split; [first [exact T|reflexivity]|]. split; [discriminate|]. intros [RM|[X|X]]; [exact RM|discriminate X..].
Qed.

Section Held.
  Context (C : conn) (st : nat -> state) (ev : nat -> option event) (EX : execution C st ev) (UP : stays_up st)
    (CR : callers_read st ev) (GO : task_goes_on st ev).

  (** Held at [n]: until the task is back at its select, it is held by the same send. *)
  Lemma held_until n q i next : k_task (st n) = TSending q i next -> forall j,
    (exists m, n <= m /\ k_task (st m) = TSelect) \/ (k_task (st (n + j)) = TSending q i next /\ (has_room (st n) q -> has_room (st (n + j)) q)).
  Proof.
    intros T. induction j as [|j IH]; [right; rewrite Nat.add_0_r; auto|]. destruct IH as [IH|[T1 RM]]; [now left|].
    rewrite Nat.add_succ_r. pose proof (proj2 EX (n + j)) as H. destruct (ev (n + j)) as [e|]; [|right; rewrite H; auto].
    destruct (sending_step C _ _ _ q i next (ex_reachable C st ev EX (n + j)) H (UP (S (n + j))) T1) as [X|(X & _ & Y)].
    - left. exists (S (n + j)). split; [lia|exact X].
    - right. split; [exact X|]. intros Z. apply Y. left. now apply RM.
  Qed.
  Lemma room_then_back n q i next : k_task (st n) = TSending q i next -> has_room (st n) q -> exists m, n <= m /\ k_task (st m) = TSelect.
  Proof.
    intros T RM. destruct (GO n) as (m & L & F). destruct (held_until n q i next T (m - n)) as [D|[T1 RM1]]; [exact D|].
    replace (n + (m - n)) with m in * by lia. specialize (RM1 RM). destruct F as [F|(id & w & F)]; [now elim (F q i next T1)|].
    pose proof (proj2 EX m) as H. rewrite F in H.
    destruct (sending_step C _ _ _ q i next (ex_reachable C st ev EX m) H (UP (S m)) T1) as [X|(_ & X & _)]; [|now elim (X id w)].
    exists (S m). split; [lia|exact X].
  Qed.
  Lemma task_comes_back : task_returns st.
  Proof.
    intros n. destruct (k_task (st n)) as [|q i next|] eqn:T; [exists n; auto| |now elim (UP n)].
    destruct (CR q n) as (m & L & F). destruct (held_until n q i next T (m - n)) as [D|[T1 _]]; [exact D|].
    replace (n + (m - n)) with m in * by lia.
    assert (X : exists m2, m <= m2 /\ k_task (st m2) = TSelect).
    { destruct (reachable_inv C _ (ex_reachable C st ev EX m)) as [I _]. destruct (i_sending _ _ I q i next T1) as [[v V] _].
      destruct F as [F|F].
      - apply (room_then_back m q i next T1). exists v. split; [exact V|]. right. rewrite (F v V). unfold CHANNEL. cbn. lia.
      - pose proof (proj2 EX m) as H. assert (E : exists e, ev m = Some e /\ (e = Consume q \/ e = Abandon q)) by (destruct F as [F|F]; eauto).
        destruct E as (e & E & EE). rewrite E in H.
        destruct (sending_step C _ _ _ q i next (ex_reachable C st ev EX m) H (UP (S m)) T1) as [X|(X & _ & Y)]; [exists (S m); split; [lia|exact X]|].
        destruct (room_then_back (S m) q i next X) as (m2 & L2 & Z); [apply Y; now right|]. exists m2. split; [lia|exact Z]. }
    destruct X as (m2 & L2 & X). exists m2. split; [lia|exact X].
  Qed.
End Held.
