(** The invariant of the connection (Connection.v) and its preservation. *)
From Verif Require Import Base Types Block Progress Protocol Connection ConnectionSpec.
From Coq Require Import Lia.
Local Open Scope list_scope.
Local Open Scope nat_scope.

(* ---------------- histories ---------------- *)
Definition item_of (e : entry) : list item :=
  match e with LRecv (PData _ b) => [IBlock b] | LRecv (PException e) => [IError e] | _ => [] end.
Definition ends_entry (e : entry) : bool := match e with LRecv p => ends p | _ => false end.
Definition is_query (e : entry) : bool := match e with LQuery _ _ _ => true | _ => false end.
Definition isSome {A} (o : option A) : bool := match o with Some _ => true | None => false end.

Lemma sent_app a b : sent_queries (a ++ b) = sent_queries a ++ sent_queries b.
Proof. induction a as [|[] a IH]; cbn; rewrite ?IH; reflexivity. Qed.
Lemma terminators_app a b : terminators (a ++ b) = (terminators a + terminators b)%nat.
Proof. induction a as [|[| |p] a IH]; cbn; try exact IH; [reflexivity|]. destruct (ends p); cbn; rewrite IH; reflexivity. Qed.
Lemma flight_app c a b : in_flight_from c (a ++ b) = in_flight_from (in_flight_from c a) b.
Proof. revert c; induction a as [|[] a IH]; intros c; cbn; rewrite ?IH; reflexivity. Qed.
Lemma in_flight_snoc log e : in_flight (log ++ [e]) =
  match e with LQuery q _ id => Some (q, id) | LRecv p => if ends p then None else in_flight log | LData _ _ => in_flight log end.
Proof. unfold in_flight. rewrite flight_app. destruct e; reflexivity. Qed.
Lemma one_snoc c log e : one_at_a_time (isSome c) log -> (is_query e = true -> in_flight_from c log = None) ->
  one_at_a_time (isSome c) (log ++ [e]).
Proof.
  revert c; induction log as [|[q t u|q b|p] log IH]; intros c H Q.
  - cbn in *. destruct e; cbn; auto. split; [|exact I]. now rewrite (Q eq_refl).
  - cbn in *. destruct H as [-> H]. split; [reflexivity|]. now apply (IH (Some (q, u))).
  - cbn in *. now apply IH.
  - cbn in *. destruct (ends p); [apply (IH None)|apply IH]; assumption.
Qed.

Lemma answer_here_snoc l e : one_at_a_time true l ->
  answer_here (l ++ [e]) = answer_here l ++ (if ended_here l then [] else item_of e).
Proof.
  induction l as [|[q t u|q b|p] l IH]; intros H.
  - destruct e as [| |p]; try reflexivity. 
  - destruct H as [H _]. discriminate H.
  - cbn in *. now apply IH.
  - destruct p; cbn in *; try (now apply IH); try reflexivity. now rewrite IH.
Qed.
Lemma answer_snoc c log e q : one_at_a_time c log -> In q (map fst (sent_queries log)) ->
  answer q (log ++ [e]) = answer q log ++ (if ended q log then [] else item_of e).
Proof.
  revert c; induction log as [|[q' t u|q' b|p] log IH]; intros c H Q.
  - destruct Q.
  - cbn in *. destruct H as [-> H]. destruct (Nat.eqb_spec q' q) as [->|NE].
    + now apply answer_here_snoc.
    + apply (IH true H). destruct Q; [contradiction|assumption].
  - cbn in *. now apply (IH c).
  - cbn in *. now apply (IH _ H).
Qed.
Lemma answer_absent log e q : ~ In q (map fst (sent_queries log)) -> answer q (log ++ [e]) = [].
Proof.
  induction log as [|[q' t u|q' b|p] log IH]; intros Q.
  - destruct e as [q' t u|q' b|p]; cbn; try reflexivity. now destruct (Nat.eqb q' q).
  - cbn in *. destruct (Nat.eqb_spec q' q) as [->|NE]; [exfalso; apply Q; now left|]. apply IH. auto.
  - cbn in *. now apply IH.
  - cbn in *. now apply IH.
Qed.
Lemma ended_here_snoc l e : ended_here (l ++ [e]) = ended_here l || ends_entry e.
Proof.
  induction l as [|[q t u|q b|p] l IH]; cbn; try exact IH.
  - destruct e as [| |p]; try reflexivity. cbn. now destruct (ends p).
  - destruct (ends p); [reflexivity|exact IH].
Qed.
Lemma ended_snoc log e q : In q (map fst (sent_queries log)) -> ended q (log ++ [e]) = ended q log || ends_entry e.
Proof.
  induction log as [|[q' t u|q' b|p] log IH]; intros Q; [destruct Q| | |]; cbn in *; try (now apply IH).
  destruct (Nat.eqb_spec q' q) as [->|NE]; [apply ended_here_snoc|]. apply IH. destruct Q; [contradiction|assumption].
Qed.
Lemma ended_absent log e q : ~ In q (map fst (sent_queries log)) -> ended q (log ++ [e]) = false.
Proof.
  induction log as [|[q' t u|q' b|p] log IH]; intros Q.
  - destruct e as [q' t u|q' b|p]; cbn; try reflexivity. now destruct (Nat.eqb q' q).
  - cbn in *. destruct (Nat.eqb_spec q' q) as [->|NE]; [exfalso; apply Q; now left|]. apply IH. auto.
  - cbn in *. now apply IH.
  - cbn in *. now apply IH.
Qed.

Lemma flight_sent log c q u : in_flight_from c log = Some (q, u) -> c = Some (q, u) \/ In q (map fst (sent_queries log)).
Proof.
  revert c; induction log as [|[q' t u'|q' b|p] log IH]; intros c H; cbn in *; auto.
  - apply IH in H as [H|H]; [|auto]. injection H as -> ->. auto.
  - destruct (ends p); [|now apply IH]. apply IH in H as [H|H]; [discriminate|auto].
Qed.
Lemma flight_open log x : one_at_a_time true log -> ended_here log = false -> in_flight_from (Some x) log = Some x.
Proof.
  induction log as [|[q' t u'|q' b|p] log IH]; intros H E; cbn in *; auto.
  - destruct H; discriminate.
  - destruct (ends p); [discriminate|auto].
Qed.
Lemma flight_closed log q u v : ended_here log = true -> ~ In q (map fst (sent_queries log)) -> in_flight_from u log <> Some (q, v).
Proof.
  revert u; induction log as [|[q' t u'|q' b|p] log IH]; intros u E Q; cbn in *; try discriminate; auto.
  destruct (ends p); [|auto]. intros F. apply flight_sent in F as [F|F]; [discriminate|contradiction].
Qed.
(** A sent query is in flight exactly as long as it has not been ended. *)
Lemma flight_ended log c q : one_at_a_time (isSome c) log -> NoDup (map fst (sent_queries log)) -> In q (map fst (sent_queries log)) ->
  (exists u, in_flight_from c log = Some (q, u)) <-> ended q log = false.
Proof.
  revert c; induction log as [|[q' t u'|q' b|p] log IH]; intros c H ND Q.
  - destruct Q.
  - cbn in *. destruct H as [_ H]. apply NoDup_cons_iff in ND as [NI ND]. destruct (Nat.eqb_spec q' q) as [->|NE].
    + split.
      * intros [u F]. destruct (ended_here log) eqn:E; [|reflexivity]. exfalso. revert F. now apply flight_closed.
      * intros E. exists u'. now apply flight_open.
    + destruct Q as [Q|Q]; [contradiction|]. now apply (IH (Some (q', u'))).
  - cbn in *. now apply IH.
  - cbn in *. destruct (ends p); [apply (IH None)|apply IH]; assumption.
Qed.

Lemma progress_app c a b : progress_of c (a ++ b) = progress_of c a ++ progress_of (in_flight_from c a) b.
Proof.
  revert c; induction a as [|[q' t u'|q' d|p] a IH]; intros c; cbn; auto.
  destruct p; cbn; auto. destruct c as [[]|]; cbn; rewrite IH; reflexivity.
Qed.

Lemma number_app n a b : number n (a ++ b) = number n a ++ number (n + length a) b.
Proof.
  revert n; induction a as [|x a IH]; intros n; cbn; [now rewrite Nat.add_0_r|]. rewrite IH. now rewrite Nat.add_succ_r.
Qed.
Lemma number_fst n l : map fst (number n l) = seq n (length l).
Proof. revert n; induction l as [|x l IH]; intros n; cbn; [reflexivity|now rewrite IH]. Qed.
Lemma number_length n l : length (number n l) = length l.
Proof. revert n; induction l as [|x l IH]; intros n; cbn; [reflexivity|now rewrite IH]. Qed.

(* ---------------- the invariant ---------------- *)
Fixpoint queue_queries (l : list request) : list (nat * text) :=
  match l with [] => [] | RQuery q t :: l => (q, t) :: queue_queries l | RData _ _ :: l => queue_queries l end.
Lemma queue_app a b : queue_queries (a ++ b) = queue_queries a ++ queue_queries b.
Proof. induction a as [|[] a IH]; cbn; rewrite ?IH; reflexivity. Qed.

Definition running (s : state) : Prop := k_task s <> TEnded.

(** The stream of query [q]. *)
Definition stream_ok (s : state) (q : nat) (st : stream) : Prop :=
  In q (map fst (sent_queries (k_log s))) /\
  (s_rx st = true -> received s q st = answer q (k_log s)) /\
  (exists rest, answer q (k_log s) = s_read st ++ rest) /\
  (s_rx st = false -> s_buf st = []) /\
  length (s_buf st) <= CHANNEL /\
  (s_tx st = true <-> running s /\ ((exists u, k_exec s = Some (q, u)) \/ (exists i, k_task s = TSending q i true))).

(** [x]: a query taken out of the queues and not sent yet. *)
Definition view_ok (s : state) (x : list (nat * text)) (q : nat) : Prop :=
  match k_view s q with
  | VNone => length (k_submitted s) <= q
  | VWaiting _ => running s /\ In q (map fst (x ++ k_pending s ++ queue_queries (k_queue s)))
  | VFailed => k_task s = TEnded /\ q < length (k_submitted s)
  | VStream st => stream_ok s q st
  end.

Definition data_owned (log : list entry) : Prop :=
  forall l1 q b l2, log = l1 ++ LData q b :: l2 -> (exists u, in_flight l1 = Some (q, u)) \/ ended q l1 = true.

Record inv_with (s : state) (x : list (nat * text)) : Prop := {
  i_serial : one_at_a_time false (k_log s);
  i_numbers : running s -> sent_queries (k_log s) ++ x ++ k_pending s ++ queue_queries (k_queue s) = number 0 (k_submitted s);
  i_prefix : exists rest, number 0 (k_submitted s) = sent_queries (k_log s) ++ rest;
  i_exec : running s -> k_exec s = in_flight (k_log s);
  i_sending : forall q i next, k_task s = TSending q i next ->
    (exists st, k_view s q = VStream st) /\
    (if next then k_exec s = None else exists u, k_exec s = Some (q, u));
  i_views : forall q, view_ok s x q;
  i_streams : forall q, In q (map fst (sent_queries (k_log s))) -> exists st, k_view s q = VStream st;
  i_published : k_published s = progress_of None (k_log s);
  i_data : data_owned (k_log s);
  i_queued_data : forall q b, In (RData q b) (k_queue s) -> In q (map fst (sent_queries (k_log s)));
  i_count : running s -> length (sent_queries (k_log s)) = (terminators (k_log s) + (if isSome (k_exec s) then 1 else 0))%nat }.
Definition inv (s : state) : Prop := inv_with s [] /\ (k_task s = TSelect -> k_exec s = None -> k_pending s = []).

Lemma inv_init : inv init.
Proof.
  split; [|reflexivity]. split; cbn; try (intros; auto; fail).
  - exists []. reflexivity.
  - intros q i next H. discriminate H.
  - intros q. exact (Nat.le_0_l q).
  - intros q [].
  - intros l1 q b l2 H. now destruct l1.
Qed.

Lemma nodup_left {A} (a b : list A) : NoDup (a ++ b) -> NoDup a.
Proof.
  induction a as [|x a IH]; intros H; [constructor|]. cbn in H. apply NoDup_cons_iff in H as [N H].
  constructor; [|now apply IH]. intros I. apply N. apply in_or_app. now left.
Qed.
(** Consequences of the numbering. *)
Lemma sent_nodup s x : inv_with s x -> NoDup (map fst (sent_queries (k_log s))).
Proof.
  intros I. destruct (i_prefix _ _ I) as [rest E].
  assert (N : NoDup (map fst (number 0 (k_submitted s)))) by (rewrite number_fst; apply seq_NoDup).
  rewrite E, map_app in N. exact (nodup_left _ _ N).
Qed.
Lemma sent_small s x q : inv_with s x -> In q (map fst (sent_queries (k_log s))) -> q < length (k_submitted s).
Proof.
  intros I Q. destruct (i_prefix _ _ I) as [rest E].
  assert (M : In q (map fst (number 0 (k_submitted s)))) by (rewrite E, map_app; apply in_or_app; now left).
  rewrite number_fst in M. apply in_seq in M. lia.
Qed.
Lemma fresh_unsent s q t x : inv_with s ((q, t) :: x) -> running s -> ~ In q (map fst (sent_queries (k_log s))).
Proof.
  intros I R Q. pose proof (i_numbers _ _ I R) as E.
  assert (N : NoDup (map fst (number 0 (k_submitted s)))) by (rewrite number_fst; apply seq_NoDup).
  rewrite <- E, map_app in N. cbn in N. apply NoDup_remove_2 in N. apply N. apply in_or_app. now left.
Qed.
Lemma flight_not_ended s x q : inv_with s x -> In q (map fst (sent_queries (k_log s))) ->
  (exists u, in_flight (k_log s) = Some (q, u)) <-> ended q (k_log s) = false.
Proof. intros I Q. apply (flight_ended (k_log s) None q (i_serial _ _ I) (sent_nodup s x I) Q). Qed.

Lemma rev_cases {A} (l : list A) : l = [] \/ exists l' e, l = l' ++ [e].
Proof. induction l as [|a l IH]; [now left|right]. destruct IH as [->|(l' & e & ->)]; [exists [], a|exists (a :: l'), e]; reflexivity. Qed.
Definition sending (s : state) : bool := match k_task s with TSending _ _ _ => true | _ => false end.
Lemma not_transit s q : sending s = false -> in_transit s q = [].
Proof. unfold sending, in_transit. destruct (k_task s); [reflexivity|discriminate|reflexivity]. Qed.

Lemma finish_inv s x : inv_with s x -> sending s = false -> running s -> inv (finish s).
Proof.
  intros I NS R. split; [|intros H; discriminate H].
  split; cbn.
  - exact (i_serial _ _ I).
  - intros H. now elim H.
  - exact (i_prefix _ _ I).
  - intros H. now elim H.
  - intros q i next H. discriminate H.
  - intros q. pose proof (i_views _ _ I q) as V. unfold view_ok in *. cbn. destruct (k_view s q) as [|a| |st]; cbn in *.
    + exact V.
    + split; [reflexivity|]. destruct V as [_ V]. pose proof (i_numbers _ _ I R) as E.
      assert (M : In q (map fst (number 0 (k_submitted s)))) by (rewrite <- E, map_app; apply in_or_app; now right).
      rewrite number_fst in M. apply in_seq in M. lia.
    + now elim R.
    + destruct V as (V1 & V2 & V3 & V4 & V5 & V6). split; [exact V1|]. split; [|split; [exact V3|split; [exact V4|split; [exact V5|]]]].
      * intros H. cbn. rewrite <- (V2 H). unfold received. cbn. now rewrite (not_transit s q NS).
      * cbn. split; [discriminate|]. intros [H _]. now elim H.
  - intros q Q. destruct (i_streams _ _ I q Q) as [st E]. rewrite E. cbn. eauto.
  - exact (i_published _ _ I).
  - exact (i_data _ _ I).
  - intros q b [].
  - intros H. now elim H.
Qed.

(** Logging a data block for a query that is in flight or already ended. *)
Lemma log_data_inv s x q b : inv_with s x -> In q (map fst (sent_queries (k_log s))) -> inv_with (add_log s (LData q b)) x.
Proof.
  intros I Q. split; cbn; rewrite ?sent_app, ?app_nil_r; cbn; rewrite ?app_nil_r.
  - apply (one_snoc None); [exact (i_serial _ _ I)|discriminate].
  - intros R. exact (i_numbers _ _ I R).
  - exact (i_prefix _ _ I).
  - intros R. rewrite in_flight_snoc. exact (i_exec _ _ I R).
  - exact (i_sending _ _ I).
  - intros n. pose proof (i_views _ _ I n) as V. unfold view_ok in *. cbn. destruct (k_view s n) as [|a| |st]; auto.
    destruct V as (V1 & V2 & V3 & V4 & V5 & V6). unfold stream_ok. cbn. rewrite sent_app, app_nil_r.
    rewrite (answer_snoc false) by (exact V1 || exact (i_serial _ _ I)).
    replace (if ended n (k_log s) then [] else item_of (LData q b)) with (@nil item) by (now destruct (ended n (k_log s))).
    rewrite app_nil_r. repeat split; try assumption; try (now apply V6).
  - exact (i_streams _ _ I).
  - rewrite progress_app, app_nil_r. exact (i_published _ _ I).
  - intros l1 q' b' l2 E. destruct (rev_cases l2) as [->|(l3 & e & ->)].
    + apply app_inj_tail in E as [E1 E]. injection E as <- <-. rewrite <- E1.
      destruct (ended q (k_log s)) eqn:EN; [now right|left]. now apply (flight_not_ended s x).
    + rewrite app_comm_cons, app_assoc in E. apply app_inj_tail in E as [E _]. exact (i_data _ _ I _ _ _ _ E).
  - exact (i_queued_data _ _ I).
  - intros R. rewrite terminators_app, Nat.add_0_r. exact (i_count _ _ I R).
Qed.

(** Sending a query on an idle connection. *)
Lemma log_query_inv s q t id x : inv_with s ((q, t) :: x) -> k_task s = TSelect -> k_exec s = None ->
  inv_with (set_exec (set_view (add_log s (LQuery q t id)) q
    (VStream {| s_read := []; s_buf := []; s_tx := true; s_rx := match k_view s q with VWaiting a => a | _ => false end |})) (Some (q, id))) x.
Proof.
  intros I T X. assert (R : running s) by (unfold running; rewrite T; discriminate).
  pose proof (fresh_unsent s q t x I R) as F. pose proof (i_exec _ _ I R) as FL. rewrite X in FL. symmetry in FL.
  split; cbn.
  - apply (one_snoc None); [exact (i_serial _ _ I)|]. intros _. exact FL.
  - intros _. rewrite sent_app. cbn. rewrite <- app_assoc. exact (i_numbers _ _ I R).
  - eexists. rewrite sent_app, <- (i_numbers _ _ I R), <- app_assoc. reflexivity.
  - intros _. now rewrite in_flight_snoc.
  - intros q' i next H. rewrite T in H. discriminate H.
  - intros n. unfold view_ok. cbn. destruct (Nat.eqb_spec n q) as [->|NE].
    + unfold stream_ok, received, in_transit. cbn. rewrite T, sent_app, map_app. cbn. rewrite answer_absent by exact F.
      repeat split; auto; try (apply in_or_app; right; now left).
      * exists []. reflexivity.
      * unfold CHANNEL. lia.
      * left. eauto.
    + pose proof (i_views _ _ I n) as V. unfold view_ok in V. destruct (k_view s n) as [|a| |st].
      * exact V.
      * destruct V as [_ V]. split; [exact R|]. cbn in V. destruct V as [V|V]; [congruence|exact V].
      * exact V.
      * destruct V as (V1 & V2 & V3 & V4 & V5 & V6). unfold stream_ok. cbn. rewrite sent_app, map_app.
        rewrite (answer_snoc false) by (exact V1 || exact (i_serial _ _ I)). cbn [item_of].
        replace (if ended n (k_log s) then [] else []) with (@nil item) by (now destruct (ended n (k_log s))).
        rewrite app_nil_r. split; [apply in_or_app; now left|]. split; [exact V2|]. split; [exact V3|].
        split; [exact V4|]. split; [exact V5|]. rewrite V6, X. split.
        -- intros [_ [[u U]|[i U]]]; [discriminate U|rewrite T in U; discriminate U].
        -- intros [_ [[u U]|[i U]]]; [injection U as E _; congruence|rewrite T in U; discriminate U].
  - intros n. rewrite sent_app, map_app. cbn. intros Q. apply in_app_or in Q as [Q|[<-|[]]].
    + destruct (Nat.eqb_spec n q) as [->|NE]; [eauto|]. exact (i_streams _ _ I n Q).
    + rewrite Nat.eqb_refl. eauto.
  - rewrite progress_app. cbn. rewrite app_nil_r. exact (i_published _ _ I).
  - intros l1 q' b' l2 E. destruct (rev_cases l2) as [->|(l3 & e & ->)].
    + apply app_inj_tail in E as [_ E]. discriminate E.
    + rewrite app_comm_cons, app_assoc in E. apply app_inj_tail in E as [E _]. exact (i_data _ _ I _ _ _ _ E).
  - intros n b Q. rewrite sent_app, map_app. apply in_or_app. left. exact (i_queued_data _ _ I n b Q).
  - intros _. rewrite sent_app, terminators_app, app_length. cbn. pose proof (i_count _ _ I R) as E. rewrite X in E. cbn in E. lia.
Qed.

Lemma dispatch_inv s q t id w x : inv_with s ((q, t) :: x) -> k_task s = TSelect -> k_exec s = None -> x = [] ->
  inv (dispatch s q t id w).
Proof.
  intros I T X ->. assert (R : running s) by (unfold running; rewrite T; discriminate).
  assert (NS : sending s = false) by (unfold sending; now rewrite T).
  pose proof (log_query_inv s q t id [] I T X) as J.
  destruct w; cbn [dispatch].
  - split; [|intros _ E; discriminate E]. apply log_data_inv; [exact J|]. cbn. rewrite sent_app, map_app. apply in_or_app. right. now left.
  - exact (finish_inv _ _ I NS R).
  - exact (finish_inv _ _ J NS R).
Qed.

Lemma next_query_inv s id w : inv_with s [] -> k_task s = TSelect -> k_exec s = None -> inv (next_query s id w).
Proof.
  intros I T X. unfold next_query. destruct (k_pending s) as [|[q t] rest] eqn:P.
  - split; [exact I|auto].
  - apply (dispatch_inv _ q t id w []); try assumption; try reflexivity. destruct I.
    split; cbn; auto.
    + intros R. specialize (i_numbers0 R). now rewrite P in i_numbers0.
    + intros n. specialize (i_views0 n). unfold view_ok in *. cbn. rewrite P in i_views0. destruct (k_view s n); auto.
Qed.

(** A packet that is neither a block nor the end of a query. *)
Lemma log_other_inv s p : inv s -> k_task s = TSelect -> ends p = false -> item_of (LRecv p) = [] ->
  (forall c, progress_of c [LRecv p] = []) -> inv (add_log s (LRecv p)).
Proof.
  intros [I ID] T E IT PR. split; [|exact ID]. split; cbn; rewrite ?sent_app; cbn; rewrite ?app_nil_r.
  - apply (one_snoc None); [exact (i_serial _ _ I)|discriminate].
  - exact (i_numbers _ _ I).
  - exact (i_prefix _ _ I).
  - intros R. rewrite in_flight_snoc, E. exact (i_exec _ _ I R).
  - exact (i_sending _ _ I).
  - intros n. pose proof (i_views _ _ I n) as V. unfold view_ok in *. cbn. destruct (k_view s n) as [|a| |st]; auto.
    destruct V as (V1 & V2 & V3 & V4 & V5 & V6). unfold stream_ok. cbn. rewrite sent_app, app_nil_r.
    rewrite (answer_snoc false) by (exact V1 || exact (i_serial _ _ I)). rewrite IT.
    replace (if ended n (k_log s) then [] else []) with (@nil item) by (now destruct (ended n (k_log s))).
    rewrite app_nil_r. repeat split; try assumption; try (now apply V6).
  - exact (i_streams _ _ I).
  - rewrite progress_app, PR, app_nil_r. exact (i_published _ _ I).
  - intros l1 q' b' l2 E'. destruct (rev_cases l2) as [->|(l3 & e & ->)].
    + apply app_inj_tail in E' as [_ E']. discriminate E'.
    + rewrite app_comm_cons, app_assoc in E'. apply app_inj_tail in E' as [E' _]. exact (i_data _ _ I _ _ _ _ E').
  - exact (i_queued_data _ _ I).
  - intros R. rewrite terminators_app. cbn. rewrite E. rewrite Nat.add_0_r. exact (i_count _ _ I R).
Qed.

(** Nothing is in flight: whatever arrives belongs to nobody, and the connection gives up. *)
Lemma finish_idle_inv s p : inv s -> k_task s = TSelect -> k_exec s = None -> inv (finish (add_log s (LRecv p))).
Proof.
  intros [I ID] T X. assert (R : running s) by (unfold running; rewrite T; discriminate).
  assert (NS : sending s = false) by (unfold sending; now rewrite T).
  pose proof (finish_inv s [] I NS R) as [J _].
  pose proof (i_exec _ _ I R) as FL. rewrite X in FL. symmetry in FL.
  split; [|intros H; discriminate H]. split; cbn; rewrite ?sent_app; cbn; rewrite ?app_nil_r.
  - apply (one_snoc None); [exact (i_serial _ _ I)|discriminate].
  - intros H; now elim H.
  - exact (i_prefix _ _ I).
  - intros H; now elim H.
  - intros q i next H; discriminate H.
  - intros n. pose proof (i_views _ _ J n) as V. unfold view_ok in *. cbn in *. destruct (k_view s n) as [|a| |st]; auto.
    cbn in *. destruct V as (V1 & V2 & V3 & V4 & V5 & V6). cbn in *. unfold stream_ok. cbn. rewrite sent_app, app_nil_r.
    rewrite (answer_snoc false) by (exact V1 || exact (i_serial _ _ I)).
    assert (EN : ended n (k_log s) = true).
    { destruct (ended n (k_log s)) eqn:EN; [reflexivity|]. apply (flight_not_ended s []) in EN; try assumption.
      destruct EN as [u EN]. rewrite FL in EN. discriminate EN. }
    rewrite EN, (app_nil_r (answer n (k_log s))). split; [exact V1|split; [exact V2|split; [exact V3|split; [exact V4|split; [exact V5|exact V6]]]]].
  - exact (i_streams _ _ J).
  - rewrite progress_app. change (in_flight_from None (k_log s)) with (in_flight (k_log s)). rewrite FL.
    replace (progress_of None [LRecv p]) with (@nil (text * progress)) by (destruct p; reflexivity).
    rewrite app_nil_r. exact (i_published _ _ I).
  - intros l1 q' b' l2 E'. destruct (rev_cases l2) as [->|(l3 & e & ->)].
    + apply app_inj_tail in E' as [_ E']. discriminate E'.
    + rewrite app_comm_cons, app_assoc in E'. apply app_inj_tail in E' as [E' _]. exact (i_data _ _ I _ _ _ _ E').
  - intros q b [].
  - intros H; now elim H.
Qed.

Lemma data_snoc s p : data_owned (k_log s) -> data_owned (k_log s ++ [LRecv p]).
Proof.
  intros I l1 q' b' l2 E'. destruct (rev_cases l2) as [->|(l3 & e & ->)].
  + apply app_inj_tail in E' as [_ E']. discriminate E'.
  + rewrite app_comm_cons, app_assoc in E'. apply app_inj_tail in E' as [E' _]. exact (I _ _ _ _ E').
Qed.

(** A block arrives for the query in flight. *)
Lemma recv_data_inv s t b q u : inv s -> k_task s = TSelect -> k_exec s = Some (q, u) ->
  inv_with (set_task (add_log s (LRecv (PData t b))) (TSending q (IBlock b) false)) [].
Proof.
  intros [I ID] T X. assert (R : running s) by (unfold running; rewrite T; discriminate).
  pose proof (i_exec _ _ I R) as FL. rewrite X in FL. symmetry in FL.
  assert (QS : In q (map fst (sent_queries (k_log s)))) by (apply flight_sent in FL as [FL|FL]; [discriminate|exact FL]).
  assert (QO : ended q (k_log s) = false) by (apply (flight_not_ended s []); eauto).
  split; cbn; rewrite ?sent_app; cbn; rewrite ?app_nil_r.
  - apply (one_snoc None); [exact (i_serial _ _ I)|discriminate].
  - intros _. exact (i_numbers _ _ I R).
  - exact (i_prefix _ _ I).
  - intros _. rewrite in_flight_snoc. cbn. now rewrite X, FL.
  - intros q' i next H. injection H as <- <- <-. split; [exact (i_streams _ _ I q QS)|eauto].
  - intros n. pose proof (i_views _ _ I n) as V. unfold view_ok in *. cbn. destruct (k_view s n) as [|a| |st].
    + exact V.
    + split; [discriminate|]. apply V.
    + destruct V as [V _]. now elim R.
    + destruct V as (V1 & V2 & V3 & V4 & V5 & V6). unfold stream_ok, received, in_transit. cbn. rewrite sent_app, app_nil_r.
      rewrite (answer_snoc false) by (exact V1 || exact (i_serial _ _ I)). cbn [item_of].
      unfold received in V2. rewrite not_transit in V2 by (unfold sending; now rewrite T). rewrite app_nil_r in V2.
      split; [exact V1|]. split; [|split; [|split; [exact V4|split; [exact V5|]]]].
      * intros H. rewrite <- (V2 H). destruct (Nat.eqb_spec q n) as [->|NE].
        -- rewrite QO. now rewrite app_assoc.
        -- destruct (ended n (k_log s)) eqn:EN; [now rewrite !app_nil_r|].
           apply (flight_not_ended s []) in EN; try assumption. destruct EN as [v EN]. congruence.
      * destruct V3 as [r V3]. rewrite V3. rewrite <- app_assoc. eauto.
      * rewrite V6. split; intros [_ [H|[i H]]]; (split; [try discriminate; exact R|]).
        -- now left.
        -- rewrite T in H. discriminate H.
        -- now left.
        -- discriminate H.
  - exact (i_streams _ _ I).
  - rewrite progress_app. cbn. rewrite app_nil_r. exact (i_published _ _ I).
  - apply data_snoc. exact (i_data _ _ I).
  - exact (i_queued_data _ _ I).
  - intros _. rewrite terminators_app, Nat.add_0_r. exact (i_count _ _ I R).
Qed.

(** An exception arrives for the query in flight. *)
Lemma recv_exception_inv s e q u : inv s -> k_task s = TSelect -> k_exec s = Some (q, u) ->
  inv_with (set_task (set_exec (add_log s (LRecv (PException e))) None) (TSending q (IError e) true)) [].
Proof.
  intros [I ID] T X. assert (R : running s) by (unfold running; rewrite T; discriminate).
  pose proof (i_exec _ _ I R) as FL. rewrite X in FL. symmetry in FL.
  assert (QS : In q (map fst (sent_queries (k_log s)))) by (apply flight_sent in FL as [FL|FL]; [discriminate|exact FL]).
  assert (QO : ended q (k_log s) = false) by (apply (flight_not_ended s []); eauto).
  split; cbn; rewrite ?sent_app; cbn; rewrite ?app_nil_r.
  - apply (one_snoc None); [exact (i_serial _ _ I)|discriminate].
  - intros _. exact (i_numbers _ _ I R).
  - exact (i_prefix _ _ I).
  - intros _. rewrite in_flight_snoc. reflexivity.
  - intros q' i next H. injection H as <- <- <-. split; [exact (i_streams _ _ I q QS)|reflexivity].
  - intros n. pose proof (i_views _ _ I n) as V. unfold view_ok in *. cbn. destruct (k_view s n) as [|a| |st].
    + exact V.
    + split; [discriminate|]. apply V.
    + destruct V as [V _]. now elim R.
    + destruct V as (V1 & V2 & V3 & V4 & V5 & V6). unfold stream_ok, received, in_transit. cbn. rewrite sent_app, app_nil_r.
      rewrite (answer_snoc false) by (exact V1 || exact (i_serial _ _ I)). cbn [item_of].
      unfold received in V2. rewrite not_transit in V2 by (unfold sending; now rewrite T). rewrite app_nil_r in V2.
      split; [exact V1|]. split; [|split; [|split; [exact V4|split; [exact V5|]]]].
      * intros H. rewrite <- (V2 H). destruct (Nat.eqb_spec q n) as [->|NE].
        -- rewrite QO. now rewrite app_assoc.
        -- destruct (ended n (k_log s)) eqn:EN; [now rewrite !app_nil_r|].
           apply (flight_not_ended s []) in EN; try assumption. destruct EN as [v EN]. congruence.
      * destruct V3 as [r V3]. rewrite V3. rewrite <- app_assoc. eauto.
      * rewrite V6. split.
        -- intros [_ [[v H]|[i H]]]; [|rewrite T in H; discriminate H]. split; [discriminate|]. right. exists (IError e).
           rewrite X in H. injection H as -> _. reflexivity.
        -- intros [_ [[v H]|[i H]]]; [discriminate H|]. injection H as <- <-. split; [exact R|]. left. eauto.
  - exact (i_streams _ _ I).
  - rewrite progress_app. cbn. rewrite app_nil_r. exact (i_published _ _ I).
  - apply data_snoc. exact (i_data _ _ I).
  - exact (i_queued_data _ _ I).
  - intros _. rewrite terminators_app. cbn. pose proof (i_count _ _ I R) as E. rewrite X in E. cbn in E. lia.
Qed.

(** The end of stream arrives for the query in flight. *)
Lemma recv_end_inv s q u : inv s -> k_task s = TSelect -> k_exec s = Some (q, u) ->
  inv_with (set_view (set_exec (add_log s (LRecv PEndOfStream)) None) q (drop_tx (k_view s q))) [].
Proof.
  intros [I ID] T X. assert (R : running s) by (unfold running; rewrite T; discriminate).
  pose proof (i_exec _ _ I R) as FL. rewrite X in FL. symmetry in FL.
  assert (QS : In q (map fst (sent_queries (k_log s)))) by (apply flight_sent in FL as [FL|FL]; [discriminate|exact FL]).
  assert (QO : ended q (k_log s) = false) by (apply (flight_not_ended s []); eauto).
  destruct (i_streams _ _ I q QS) as [sq EQ].
  split; cbn; rewrite ?sent_app; cbn; rewrite ?app_nil_r.
  - apply (one_snoc None); [exact (i_serial _ _ I)|discriminate].
  - intros _. exact (i_numbers _ _ I R).
  - exact (i_prefix _ _ I).
  - intros _. rewrite in_flight_snoc. reflexivity.
  - intros q' i next H. rewrite T in H. discriminate H.
  - intros n. pose proof (i_views _ _ I n) as V. unfold view_ok in *. cbn.
    assert (A : forall n, In n (map fst (sent_queries (k_log s))) -> answer n (k_log s ++ [LRecv PEndOfStream]) = answer n (k_log s)).
    { intros m M. rewrite (answer_snoc false) by (exact M || exact (i_serial _ _ I)). cbn. destruct (ended m (k_log s)); now rewrite app_nil_r. }
    destruct (Nat.eqb_spec n q) as [->|NE].
    + rewrite EQ in *. cbn. destruct V as (V1 & V2 & V3 & V4 & V5 & V6). unfold stream_ok. cbn. rewrite sent_app, app_nil_r.
      rewrite (A q QS). repeat split; try assumption; try discriminate.
      intros [_ [[v H]|[i H]]]; [discriminate H|]. rewrite T in H. discriminate H.
    + destruct (k_view s n) as [|a| |st].
      * exact V.
      * exact V.
      * exact V.
      * destruct V as (V1 & V2 & V3 & V4 & V5 & V6). unfold stream_ok. cbn. rewrite sent_app, app_nil_r.
        rewrite (A n V1). split; [exact V1|]. split; [exact V2|]. split; [exact V3|]. split; [exact V4|]. split; [exact V5|].
        rewrite V6, X. split; intros [_ [[v H]|[i H]]]; try (rewrite T in H); try discriminate H. injection H as H _. congruence.
  - intros n Q. destruct (Nat.eqb_spec n q) as [->|NE]; [rewrite EQ; cbn; eauto|]. exact (i_streams _ _ I n Q).
  - rewrite progress_app. cbn. rewrite app_nil_r. exact (i_published _ _ I).
  - apply data_snoc. exact (i_data _ _ I).
  - exact (i_queued_data _ _ I).
  - intros _. rewrite terminators_app. cbn. pose proof (i_count _ _ I R) as E. rewrite X in E. cbn in E. lia.
Qed.

Lemma recv_progress_inv s p q u : inv s -> k_task s = TSelect -> k_exec s = Some (q, u) ->
  inv (publish (add_log s (LRecv (PProgress p))) (u, p)).
Proof.
  intros [I ID] T X. assert (R : running s) by (unfold running; rewrite T; discriminate).
  pose proof (i_exec _ _ I R) as FL. rewrite X in FL. symmetry in FL.
  split; [|exact ID]. split; cbn; rewrite ?sent_app; cbn; rewrite ?app_nil_r.
  - apply (one_snoc None); [exact (i_serial _ _ I)|discriminate].
  - exact (i_numbers _ _ I).
  - exact (i_prefix _ _ I).
  - intros _. rewrite in_flight_snoc. exact (i_exec _ _ I R).
  - exact (i_sending _ _ I).
  - intros n. pose proof (i_views _ _ I n) as V. unfold view_ok in *. cbn. destruct (k_view s n) as [|a| |st]; auto.
    destruct V as (V1 & V2 & V3 & V4 & V5 & V6). unfold stream_ok. cbn. rewrite sent_app, app_nil_r.
    rewrite (answer_snoc false) by (exact V1 || exact (i_serial _ _ I)). cbn [item_of].
    replace (if ended n (k_log s) then [] else []) with (@nil item) by (now destruct (ended n (k_log s))).
    rewrite app_nil_r. repeat split; try assumption; try (now apply V6).
  - exact (i_streams _ _ I).
  - rewrite progress_app. change (in_flight_from None (k_log s)) with (in_flight (k_log s)). rewrite FL. cbn.
    now rewrite (i_published _ _ I).
  - apply data_snoc. exact (i_data _ _ I).
  - exact (i_queued_data _ _ I).
  - intros _. rewrite terminators_app, Nat.add_0_r. exact (i_count _ _ I R).
Qed.

(** Handing over an item. *)
Lemma handed_inv s q i next st buf : inv_with (set_task s (TSending q i next)) [] -> k_view s q = VStream st ->
  (s_rx st = true -> buf = s_buf st ++ [i]) -> (s_rx st = false -> buf = []) -> length buf <= CHANNEL ->
  inv_with (set_task (set_view s q (VStream {| s_read := s_read st; s_buf := buf; s_tx := if next then false else s_tx st; s_rx := s_rx st |})) TSelect) [].
Proof.
  intros I EQ B1 B2 B3. destruct (i_sending _ _ I q i next eq_refl) as [_ NX]. cbn in NX.
  assert (R : running (set_task s (TSending q i next))) by (unfold running; cbn; discriminate).
  split; cbn.
  - exact (i_serial _ _ I).
  - intros _. exact (i_numbers _ _ I R).
  - exact (i_prefix _ _ I).
  - intros _. exact (i_exec _ _ I R).
  - intros q' i' next' H. discriminate H.
  - intros n. pose proof (i_views _ _ I n) as V. unfold view_ok in *. cbn in *. destruct (Nat.eqb_spec n q) as [->|NE].
    + rewrite EQ in V. destruct V as (V1 & V2 & V3 & V4 & V5 & V6). unfold stream_ok, received, in_transit in *. cbn in *.
      rewrite Nat.eqb_refl in V2. split; [exact V1|]. split; [|split; [exact V3|split; [exact B2|split; [exact B3|]]]].
      * intros H. rewrite <- (V2 H), (B1 H). now rewrite app_nil_r.
      * destruct next.
        -- split; [discriminate|]. intros [_ [[v H]|[k H]]]; [congruence|discriminate H].
        -- rewrite V6. split; intros [_ [H|[k H]]]; try discriminate H; (split; [discriminate|now left]).
    + destruct (k_view s n) as [|a| |st'].
      * exact V.
      * split; [discriminate|apply V].
      * destruct V as [V _]. discriminate V.
      * destruct V as (V1 & V2 & V3 & V4 & V5 & V6). unfold stream_ok, received, in_transit in *. cbn in *.
        assert (E : Nat.eqb q n = false) by (apply Nat.eqb_neq; congruence). rewrite E in V2.
        split; [exact V1|]. split; [exact V2|]. split; [exact V3|]. split; [exact V4|]. split; [exact V5|].
        rewrite V6. split; intros [_ [H|[k H]]]; try discriminate H; try (split; [discriminate|now left]).
        injection H as H _. congruence.
  - intros n Q. destruct (Nat.eqb_spec n q) as [->|NE]; [eauto|]. exact (i_streams _ _ I n Q).
  - exact (i_published _ _ I).
  - exact (i_data _ _ I).
  - exact (i_queued_data _ _ I).
  - intros _. exact (i_count _ _ I R).
Qed.

(** States that agree everywhere (views pointwise) satisfy the same invariants. *)
Lemma inv_view_ext s f x : (forall n, f n = k_view s n) -> inv_with s x ->
  inv_with {| k_open := k_open s; k_queue := k_queue s; k_pending := k_pending s; k_exec := k_exec s; k_task := k_task s;
              k_view := f; k_submitted := k_submitted s; k_log := k_log s; k_published := k_published s |} x.
Proof.
  intros E I. destruct I. split; cbn; try assumption; auto.
  - intros q i next H. rewrite E. exact (i_sending0 q i next H).
  - intros q. specialize (i_views0 q). unfold view_ok in *. cbn. rewrite E. exact i_views0.
  - intros q Q. rewrite E. auto.
Qed.

Lemma delivered_inv s q i next st st' id w : inv_with (set_task s (TSending q i next)) [] -> k_view s q = VStream st ->
  send_item st i = SDone st' -> inv (delivered (set_task (set_view s q (VStream st')) TSelect) q next id w).
Proof.
  intros I EQ SI. destruct (i_sending _ _ I q i next eq_refl) as [_ NX]. cbn in NX.
  assert (ST : exists buf, st' = {| s_read := s_read st; s_buf := buf; s_tx := s_tx st; s_rx := s_rx st |} /\
     (s_rx st = true -> buf = s_buf st ++ [i]) /\ (s_rx st = false -> buf = []) /\ length buf <= CHANNEL).
  { unfold send_item in SI. destruct (s_rx st) eqn:RX.
    - destruct (Nat.ltb_spec (length (s_buf st)) CHANNEL) as [L|L]; [|discriminate SI]. injection SI as <-.
      exists (s_buf st ++ [i]). split; [reflexivity|]. split; [auto|]. split; [discriminate|]. rewrite app_length. cbn. lia.
    - injection SI as <-. exists (s_buf st). split; [destruct st; cbn in *; now subst|]. split; [discriminate|].
      pose proof (i_views _ _ I q) as V. unfold view_ok in V. cbn in V. rewrite EQ in V.
      destruct V as (_ & _ & _ & V4 & V5 & _). auto. }
  destruct ST as (buf & -> & B1 & B2 & B3). pose proof (handed_inv s q i next st buf I EQ B1 B2 B3) as J.
  unfold delivered. destruct next.
  - apply next_query_inv; [|reflexivity|exact NX]. cbn. rewrite Nat.eqb_refl.
    match goal with |- inv_with ?s' _ => apply (inv_view_ext _ (k_view s')) in J; [exact J|] end.
    intros n. cbn. destruct (Nat.eqb_spec n q) as [->|NE]; reflexivity.
  - split; [exact J|]. cbn. destruct NX as [u ->]. discriminate.
Qed.

Lemma deliver_inv s q i next id w : inv_with (set_task s (TSending q i next)) [] -> inv (deliver s q i next id w).
Proof.
  intros I. destruct (i_sending _ _ I q i next eq_refl) as [[st EQ] NX]. cbn in EQ. unfold deliver. rewrite EQ.
  destruct (send_item st i) as [st'|] eqn:SI.
  - exact (delivered_inv s q i next st st' id w I EQ SI).
  - split; [exact I|]. intros H. discriminate H.
Qed.

Lemma set_task_same s t : k_task s = t -> set_task s t = s.
Proof. destruct s. cbn. now intros ->. Qed.

Lemma receive_inv s p id w : inv s -> k_task s = TSelect -> inv (receive_packet s p id w).
Proof.
  intros I T. unfold receive_packet. cbn [k_exec add_log].
  assert (OTH : ends p = false -> item_of (LRecv p) = [] -> (forall c, progress_of c [LRecv p] = []) -> inv (add_log s (LRecv p)))
    by (intros; now apply log_other_inv).
  assert (NS : sending s = false) by (unfold sending; now rewrite T).
  assert (R : running s) by (unfold running; rewrite T; discriminate).
  destruct p; try (apply OTH; reflexivity).
  - destruct (OTH eq_refl eq_refl (fun _ => eq_refl)) as [J _]. apply (finish_inv _ [] J NS R).
  - destruct (k_exec s) as [[q u]|] eqn:X; [|now apply finish_idle_inv].
    apply deliver_inv. now apply (recv_data_inv s table b q u).
  - destruct (k_exec s) as [[q u]|] eqn:X; [|now apply finish_idle_inv].
    apply deliver_inv. now apply (recv_exception_inv s e q u).
  - destruct (k_exec s) as [[q u]|] eqn:X; [now apply (recv_progress_inv s p q u)|].
    destruct I as [I ID]. pose proof (i_exec _ _ I R) as FL. rewrite X in FL.
    (* nothing in flight: only the history changes *)
    split; [|exact ID]. split; cbn; rewrite ?sent_app; cbn; rewrite ?app_nil_r.
    + apply (one_snoc None); [exact (i_serial _ _ I)|discriminate].
    + exact (i_numbers _ _ I).
    + exact (i_prefix _ _ I).
    + intros _. rewrite in_flight_snoc. exact (i_exec _ _ I R).
    + exact (i_sending _ _ I).
    + intros n. pose proof (i_views _ _ I n) as V. unfold view_ok in *. cbn. destruct (k_view s n) as [|a| |st]; auto.
      destruct V as (V1 & V2 & V3 & V4 & V5 & V6). unfold stream_ok. cbn. rewrite sent_app, app_nil_r.
      rewrite (answer_snoc false) by (exact V1 || exact (i_serial _ _ I)). cbn [item_of].
      replace (if ended n (k_log s) then [] else []) with (@nil item) by (now destruct (ended n (k_log s))).
      rewrite app_nil_r. repeat split; try assumption; try (now apply V6).
    + exact (i_streams _ _ I).
    + rewrite progress_app. change (in_flight_from None (k_log s)) with (in_flight (k_log s)). rewrite <- FL. cbn.
      rewrite app_nil_r. exact (i_published _ _ I).
    + apply data_snoc. exact (i_data _ _ I).
    + exact (i_queued_data _ _ I).
    + intros _. rewrite terminators_app, Nat.add_0_r. exact (i_count _ _ I R).
  - destruct (k_exec s) as [[q u]|] eqn:X; [|now apply finish_idle_inv].
    apply next_query_inv; [|exact T|reflexivity]. exact (recv_end_inv s q u I T X).
Qed.

Lemma handle_inv C s r rest id w : inv s -> k_task s = TSelect -> k_queue s = r :: rest -> inv (handle_request C (set_queue s rest) r id w).
Proof.
  intros [I ID] T Q.
  assert (NS : sending s = false) by (unfold sending; now rewrite T).
  assert (R : running s) by (unfold running; rewrite T; discriminate).
  destruct r as [q t|q b]; cbn [handle_request].
  - assert (J : k_pending s = [] -> inv_with (set_queue s rest) [(q, t)]).
    { intros P. destruct I. split; cbn; try assumption; auto.
      - intros H. specialize (i_numbers0 H). rewrite P, Q in *. exact i_numbers0.
      - intros n. specialize (i_views0 n). unfold view_ok in *. cbn in *. rewrite P, Q in *. destruct (k_view s n); auto.
      - intros n b H. apply (i_queued_data0 n b). rewrite Q. now right. }
    assert (K : isSome (k_exec s) = true \/ k_pending s <> [] -> inv (set_pending (set_queue s rest) (k_pending s ++ [(q, t)]))).
    { intros D. split.
      - destruct I. split; cbn; try assumption; auto.
        + intros H. specialize (i_numbers0 H). rewrite Q in *. cbn in i_numbers0. rewrite <- i_numbers0. now rewrite <- app_assoc.
        + intros n. specialize (i_views0 n). unfold view_ok in *. cbn in *. rewrite Q in *. cbn in *.
          destruct (k_view s n); auto. now rewrite <- app_assoc.
        + intros n b H. apply (i_queued_data0 n b). rewrite Q. now right.
      - cbn. intros _ X. exfalso. destruct D as [D|D]; [rewrite X in D; discriminate D|]. auto. }
    cbn [k_pending k_exec set_queue]. destruct (k_pending s) as [|p l] eqn:P; [destruct (k_exec s) as [e|] eqn:X|].
    + apply K. now left.
    + apply (dispatch_inv _ q t id w []); auto.
    + apply K. right. discriminate.
  - assert (QS : In q (map fst (sent_queries (k_log s)))) by (apply (i_queued_data _ _ I q b); rewrite Q; now left).
    assert (J : inv_with (set_queue s rest) []).
    { destruct I. split; cbn; try assumption; auto.
      - intros H. specialize (i_numbers0 H). rewrite Q in *. exact i_numbers0.
      - intros n. specialize (i_views0 n). unfold view_ok in *. cbn in *. rewrite Q in *. destruct (k_view s n); auto.
      - intros n b' H. apply (i_queued_data0 n b'). rewrite Q. now right. }
    destruct (send_data C b [] false); [destruct w| |]; try (apply (finish_inv _ [] J NS R)).
    split; [|exact ID]. now apply log_data_inv.
Qed.

Theorem step_inv C s ev s' : inv s -> step C s ev = Some s' -> inv s'.
Proof.
  intros I H. destruct ev; cbn [step] in H.
  - (* Submit *)
    destruct (k_open s) eqn:O; [|discriminate H]. destruct I as [I ID].
    assert (H' : running s /\ s' = {| k_open := true; k_queue := k_queue s ++ [RQuery (length (k_submitted s)) query];
      k_pending := k_pending s; k_exec := k_exec s; k_task := k_task s;
      k_view := (fun n => if Nat.eqb n (length (k_submitted s)) then VWaiting true else k_view s n);
      k_submitted := k_submitted s ++ [query]; k_log := k_log s; k_published := k_published s |}).
    { unfold running. destruct (k_task s); try discriminate H; destruct (Nat.ltb (length (k_queue s)) 1024); try discriminate H;
        (split; [discriminate|now injection H as <-]). }
    clear H. destruct H' as [R ->]. split; [|exact ID]. split; cbn.
    + exact (i_serial _ _ I).
    + intros _. rewrite queue_app, number_app, <- (i_numbers _ _ I R). cbn. rewrite <- !app_assoc. reflexivity.
    + destruct (i_prefix _ _ I) as [r E]. rewrite number_app, E, <- app_assoc. eauto.
    + exact (i_exec _ _ I).
    + intros q i next E. destruct (i_sending _ _ I q i next E) as [[st EQ] NX]. split; [|exact NX].
      pose proof (i_views _ _ I q) as V. unfold view_ok in V. rewrite EQ in V. destruct V as (V1 & _).
      apply (sent_small s [] q I) in V1. destruct (Nat.eqb_spec q (length (k_submitted s))) as [->|NE]; [lia|eauto].
    + intros n. pose proof (i_views _ _ I n) as V. unfold view_ok in *. cbn. destruct (Nat.eqb_spec n (length (k_submitted s))) as [->|NE].
      * split; [exact R|]. rewrite !queue_app, !map_app. cbn. rewrite !in_app_iff. right. right. now left.
      * rewrite app_length. cbn. destruct (k_view s n) as [|a| |st].
        -- lia.
        -- destruct V as [_ V]. split; [exact R|]. cbn in *. rewrite queue_app, !map_app, !in_app_iff in *. intuition.
        -- split; [apply V|]. destruct V; lia.
        -- exact V.
    + intros q Q. destruct (Nat.eqb_spec q (length (k_submitted s))) as [->|NE].
      * apply (sent_small s [] _ I) in Q. lia.
      * exact (i_streams _ _ I q Q).
    + exact (i_published _ _ I).
    + exact (i_data _ _ I).
    + intros q b Q. apply in_app_or in Q as [Q|[Q|[]]]; [|discriminate Q]. exact (i_queued_data _ _ I q b Q).
    + exact (i_count _ _ I).
  - (* SubmitData *)
    destruct (k_open s) eqn:O; [|discriminate H]. destruct I as [I ID].
    assert (H' : exists st, k_view s q = VStream st /\ s' = set_queue s (k_queue s ++ [RData q b])).
    { destruct (k_task s); try discriminate H; destruct (k_view s q) as [| | |st]; try discriminate H;
        destruct (s_rx st && Nat.ltb (length (k_queue s)) 1024)%bool; try discriminate H; exists st; (split; [reflexivity|now injection H as <-]). }
    clear H. destruct H' as (st & EQ & ->). split; [|exact ID].
    pose proof (i_views _ _ I q) as V. unfold view_ok in V. rewrite EQ in V. destruct V as (V1 & _).
    destruct I. split; cbn; try assumption; auto.
    + intros R. rewrite queue_app, app_nil_r. auto.
    + intros n. specialize (i_views0 n). unfold view_ok in *. cbn in *. rewrite queue_app, app_nil_r. destruct (k_view s n); auto.
    + intros n b' Q. apply in_app_or in Q as [Q|[Q|[]]]; [eauto|]. injection Q as <- <-. exact V1.
  - (* Take *)
    destruct (k_task s) eqn:T; try discriminate H. destruct (k_queue s) as [|r rest] eqn:Q; [discriminate H|].
    injection H as <-. now apply handle_inv.
  - (* Packet *)
    destruct (k_task s) eqn:T; try discriminate H. injection H as <-. now apply receive_inv.
  - (* ReadError *)
    destruct (k_task s) eqn:T; try discriminate H. injection H as <-. destruct I as [I _].
    apply (finish_inv s [] I); [unfold sending; now rewrite T|unfold running; rewrite T; discriminate].
  - (* Resume *)
    destruct (k_task s) as [|q i next|] eqn:T; try discriminate H. destruct I as [I _].
    destruct (k_view s q) as [| | |st]; try discriminate H. destruct (send_item st i); [|discriminate H].
    injection H as <-. apply deliver_inv. now rewrite set_task_same.
  - (* Consume *)
    destruct (k_view s q) as [| | |st] eqn:EQ; try discriminate H. destruct (s_rx st) eqn:RX; [|discriminate H].
    destruct (s_buf st) as [|i rest] eqn:B; [discriminate H|]. injection H as <-. destruct I as [I ID]. split; [|exact ID].
    pose proof (i_views _ _ I q) as V. unfold view_ok in V. rewrite EQ in V. destruct V as (V1 & V2 & V3 & V4 & V5 & V6).
    split; cbn; try apply I.
    + intros q' i' next E. destruct (i_sending _ _ I q' i' next E) as [[st' EQ'] NX]. split; [|exact NX].
      destruct (Nat.eqb q' q); eauto.
    + intros n. pose proof (i_views _ _ I n) as V. unfold view_ok in *. cbn. destruct (Nat.eqb_spec n q) as [->|NE]; [|exact V].
      unfold stream_ok, received in *. cbn. specialize (V2 RX). rewrite B in V2.
      split; [exact V1|]. split; [|split; [|split; [discriminate|split; [|exact V6]]]].
      * intros _. rewrite <- V2, <- !app_assoc. reflexivity.
      * rewrite <- V2. exists (rest ++ in_transit s q). now rewrite <- !app_assoc.
      * rewrite B in V5. cbn in V5. lia.
    + intros n Q. destruct (Nat.eqb_spec n q) as [->|NE]; [eauto|]. exact (i_streams _ _ I n Q).
  - (* Abandon *)
    destruct I as [I ID]. pose proof (i_views _ _ I q) as V. unfold view_ok in V.
    destruct (k_view s q) as [|a| |st] eqn:EQ; try discriminate H; injection H as <-; (split; [|exact ID]).
    + split; cbn; try apply I.
      * intros q' i' next E. destruct (i_sending _ _ I q' i' next E) as [[st' EQ'] NX]. split; [|exact NX].
        destruct (Nat.eqb_spec q' q) as [->|NE]; [congruence|eauto].
      * intros n. pose proof (i_views _ _ I n) as Vn. unfold view_ok in *. cbn. destruct (Nat.eqb_spec n q) as [->|NE]; [exact V|exact Vn].
      * intros n Q. destruct (i_streams _ _ I n Q) as [st' E]. destruct (Nat.eqb_spec n q) as [->|NE]; [congruence|eauto].
    + destruct V as (V1 & V2 & V3 & V4 & V5 & V6). split; cbn; try apply I.
      * intros q' i' next E. destruct (i_sending _ _ I q' i' next E) as [[st' EQ'] NX]. split; [|exact NX].
        destruct (Nat.eqb q' q); eauto.
      * intros n. pose proof (i_views _ _ I n) as Vn. unfold view_ok in *. cbn. destruct (Nat.eqb_spec n q) as [->|NE]; [|exact Vn].
        unfold stream_ok. cbn. split; [exact V1|]. split; [discriminate|]. split; [exact V3|]. split; [reflexivity|]. split; [unfold CHANNEL; lia|exact V6].
      * intros n Q. destruct (Nat.eqb_spec n q) as [->|NE]; [eauto|]. exact (i_streams _ _ I n Q).
  - (* CloseHandles *)
    injection H as <-. destruct I as [I ID]. split; [|exact ID]. destruct I. split; cbn; try assumption; auto.
  - (* Closed *)
    destruct (k_task s) eqn:T; try discriminate H. destruct (k_open s); [discriminate H|]. destruct (k_queue s); [|discriminate H].
    injection H as <-. destruct I as [I _].
    apply (finish_inv s [] I); [unfold sending; now rewrite T|unfold running; rewrite T; discriminate].
Qed.

Theorem reachable_inv C s : reachable C s -> inv s.
Proof. induction 1 as [|s ev s' _ IH H]; [exact inv_init|exact (step_inv C s ev s' IH H)]. Qed.

(* ---------------- consequences ---------------- *)
Lemma answer_here_shape l l1 e l2 : answer_here l = l1 ++ IError e :: l2 -> l2 = [] /\ ended_here l = true.
Proof.
  revert l1. induction l as [|[q t u|q b|p] l IH]; intros l1 H; cbn in *; try (now destruct l1).
  - eauto.
  - destruct p; cbn in *; try (now eauto); try (now destruct l1).
    + destruct l1 as [|x l1]; [discriminate H|]. injection H as _ H. eauto.
    + destruct l1 as [|x l1]; [injection H as _ <-; auto|]. injection H as _ H. now destruct l1.
Qed.
Lemma answer_shape q log l1 e l2 : answer q log = l1 ++ IError e :: l2 -> l2 = [] /\ ended q log = true.
Proof.
  induction log as [|[q' t u|q' b|p] log IH]; intros H; cbn in *; try (now destruct l1); auto.
  destruct (Nat.eqb q' q); [now apply (answer_here_shape log l1 e l2)|auto].
Qed.

Lemma closed_iff C s q st : reachable C s -> k_view s q = VStream st ->
  s_tx st = true <-> running s /\ (ended q (k_log s) = false \/ exists i, k_task s = TSending q i true).
Proof.
  intros RE V. destruct (reachable_inv C s RE) as [I _]. pose proof (i_views _ _ I q) as W. unfold view_ok in W. rewrite V in W.
  destruct W as (W1 & _ & _ & _ & _ & W6). rewrite W6. split; intros [R [H|H]]; (split; [exact R|]); auto; left.
  - apply (flight_not_ended s []); auto. destruct H as [u H]. rewrite (i_exec _ _ I R) in H. eauto.
  - apply (flight_not_ended s []) in H; auto. destruct H as [u H]. rewrite (i_exec _ _ I R). eauto.
Qed.

Lemma caught_up C s : reachable C s -> k_task s = TSelect -> k_queue s = [] ->
  sent_queries (k_log s) = firstn (S (terminators (k_log s))) (number 0 (k_submitted s)).
Proof.
  intros RE T Q. destruct (reachable_inv C s RE) as [I ID]. assert (R : running s) by (unfold running; rewrite T; discriminate).
  pose proof (i_numbers _ _ I R) as E. rewrite Q in E. cbn in E. rewrite app_nil_r in E. pose proof (i_count _ _ I R) as N. rewrite <- E.
  destruct (k_exec s) as [x|] eqn:X; cbn in N.
  - assert (L : S (terminators (k_log s)) = length (sent_queries (k_log s))) by lia. rewrite L.
    rewrite <- (Nat.add_0_r (length _)), firstn_app_2. now rewrite app_nil_r.
  - rewrite (ID T eq_refl), app_nil_r. rewrite firstn_all2 by lia. reflexivity.
Qed.

(** While the task is blocked on a full channel, nothing but the caller of that channel can
    make the connection go on. *)
Definition stuck (s : state) (q : nat) : Prop :=
  exists i next st, k_task s = TSending q i next /\ k_view s q = VStream st /\ s_rx st = true /\ length (s_buf st) = CHANNEL.
Lemma stuck_step C s q ev s' : stuck s q -> ev <> Consume q -> ev <> Abandon q -> step C s ev = Some s' ->
  q < length (k_submitted s) -> stuck s' q /\ k_log s' = k_log s /\ q < length (k_submitted s').
Proof.
  intros (i & next & st & T & V & RX & F) N1 N2 H QL. destruct ev; cbn [step] in H; rewrite ?T in H; try discriminate H.
  - destruct (k_open s); [|discriminate H]. destruct (Nat.ltb (length (k_queue s)) 1024); [|discriminate H]. injection H as <-. cbn.
    split; [|split; [reflexivity|rewrite app_length; cbn; lia]]. exists i, next, st. cbn.
    destruct (Nat.eqb_spec q (length (k_submitted s))) as [E|_]; [lia|auto].
  - destruct (k_open s); [|discriminate H]. destruct (k_view s q0) as [| | |st0]; try discriminate H.
    destruct (s_rx st0 && Nat.ltb (length (k_queue s)) 1024)%bool; [|discriminate H]. injection H as <-. cbn.
    split; [|auto]. exists i, next, st. auto.
  - rewrite V in H. unfold send_item in H. rewrite RX, F, Nat.ltb_irrefl in H. discriminate H.
  - destruct (k_view s q0) as [| | |st0] eqn:V0; try discriminate H. destruct (s_rx st0); [|discriminate H].
    destruct (s_buf st0); [discriminate H|]. injection H as <-. cbn. split; [|auto]. exists i, next, st. cbn.
    destruct (Nat.eqb_spec q q0) as [->|NE]; [now elim N1|auto].
  - destruct (k_view s q0) as [| | |st0] eqn:V0; try discriminate H; injection H as <-; cbn; (split; [|auto]); exists i, next, st; cbn;
      (destruct (Nat.eqb_spec q q0) as [->|NE]; [now elim N2|auto]).
  - injection H as <-. cbn. split; [|auto]. exists i, next, st. auto.
Qed.
Lemma stuck_run C evs : forall s q s', stuck s q -> Forall (fun ev => ev <> Consume q /\ ev <> Abandon q) evs -> run C s evs = Some s' ->
  q < length (k_submitted s) -> stuck s' q /\ k_log s' = k_log s.
Proof.
  induction evs as [|ev evs IH]; intros s q s' S A H QL; cbn in H.
  - injection H as <-. auto.
  - destruct (step C s ev) as [s1|] eqn:E; [|discriminate H]. pose proof (Forall_inv A) as [N1 N2].
    destruct (stuck_step C s q ev s1 S N1 N2 E QL) as (S1 & L1 & QL1).
    destruct (IH s1 q s' S1 (Forall_inv_tail A) H QL1) as [S2 L2]. split; [exact S2|congruence].
Qed.
Lemma run_reachable C evs : forall s s', reachable C s -> run C s evs = Some s' -> reachable C s'.
Proof.
  induction evs as [|ev evs IH]; intros s s' R H; cbn in H; [now injection H as <-|].
  destruct (step C s ev) as [s1|] eqn:E; [|discriminate H]. exact (IH s1 s' (reach_step C s ev s1 R E) H).
Qed.

(** As long as the server does not end the query in flight, nothing else is sent. *)
Definition quiet (ev : event) : Prop := match ev with Packet p _ _ => ends p = false | _ => True end.
Lemma held_step C s ev s' x : inv s -> in_flight (k_log s) = Some x -> quiet ev -> step C s ev = Some s' ->
  in_flight (k_log s') = Some x /\ sent_queries (k_log s') = sent_queries (k_log s).
Proof.
  intros [I ID] F Q H.
  assert (EX : running s -> k_exec s = Some x) by (intros R; now rewrite (i_exec _ _ I R)).
  destruct ev; cbn [step] in H.
  - destruct (k_open s); [|discriminate H]. destruct (k_task s); try discriminate H;
      (destruct (Nat.ltb (length (k_queue s)) 1024); [|discriminate H]); injection H as <-; auto.
  - destruct (k_open s); [|discriminate H]. destruct (k_task s); try discriminate H; destruct (k_view s q) as [| | |st]; try discriminate H;
      (destruct (s_rx st && Nat.ltb (length (k_queue s)) 1024)%bool; [|discriminate H]); injection H as <-; auto.
  - destruct (k_task s) eqn:T; try discriminate H. destruct (k_queue s) as [|r rest]; [discriminate H|]. injection H as <-.
    assert (R : running s) by (unfold running; rewrite T; discriminate). rewrite (EX R) in *.
    destruct r as [q t|q b]; cbn [handle_request].
    + cbn [k_pending k_exec set_queue]. rewrite (EX R). destruct (k_pending s); cbn; auto.
    + destruct (send_data C b [] false); [destruct w|..]; cbn; auto. rewrite in_flight_snoc, sent_app, app_nil_r. auto.
  - destruct (k_task s) eqn:T; try discriminate H. injection H as <-.
    assert (R : running s) by (unfold running; rewrite T; discriminate).
    assert (G : in_flight (k_log s ++ [LRecv p]) = Some x /\ sent_queries (k_log s ++ [LRecv p]) = sent_queries (k_log s)).
    { rewrite in_flight_snoc, sent_app, app_nil_r. cbn in Q. now rewrite Q. }
    unfold receive_packet. cbn [k_exec add_log]. rewrite (EX R). destruct x as [qx ux].
    destruct p; try exact G; try discriminate Q.
    unfold deliver. cbn [k_view add_log]. destruct (k_view s qx) as [| | |st]; try exact G. destruct (send_item st (IBlock b)); exact G.
  - destruct (k_task s); try discriminate H. injection H as <-. auto.
  - destruct (k_task s) as [|q i next|] eqn:T; try discriminate H.
    assert (R : running s) by (unfold running; rewrite T; discriminate).
    destruct (i_sending _ _ I q i next T) as [[st V] NX]. rewrite V in H. destruct (send_item st i) eqn:SI; [|discriminate H]. injection H as <-.
    destruct next; [rewrite (EX R) in NX; discriminate NX|]. unfold deliver. rewrite V, SI. cbn. auto.
  - destruct (k_view s q) as [| | |st]; try discriminate H. destruct (s_rx st); [|discriminate H]. destruct (s_buf st); [discriminate H|]. injection H as <-. auto.
  - destruct (k_view s q) as [| | |st]; try discriminate H; injection H as <-; auto.
  - injection H as <-. auto.
  - destruct (k_task s); try discriminate H. destruct (k_open s); [discriminate H|]. destruct (k_queue s); [|discriminate H]. injection H as <-. auto.
Qed.
Lemma held_run C evs : forall s s' x, inv s -> in_flight (k_log s) = Some x -> Forall quiet evs -> run C s evs = Some s' ->
  sent_queries (k_log s') = sent_queries (k_log s).
Proof.
  induction evs as [|ev evs IH]; intros s s' x I F Q H; cbn in H; [now injection H as <-|].
  destruct (step C s ev) as [s1|] eqn:E; [|discriminate H].
  destruct (held_step C s ev s1 x I F (Forall_inv Q) E) as [F1 S1].
  rewrite (IH s1 s' x (step_inv C s ev s1 I E) F1 (Forall_inv_tail Q) H). exact S1.
Qed.

(** Once the task has ended it stays so, and nothing is sent or received. *)
Lemma task_ended_step C s ev s' : k_task s = TEnded -> step C s ev = Some s' -> k_task s' = TEnded /\ k_log s' = k_log s.
Proof.
  intros T H. destruct ev; cbn [step] in H; rewrite ?T in H.
  - destruct (k_open s); discriminate H.
  - destruct (k_open s); discriminate H.
  - discriminate H.
  - discriminate H.
  - discriminate H.
  - discriminate H.
  - destruct (k_view s q) as [| | |st]; try discriminate H. destruct (s_rx st); [|discriminate H]. destruct (s_buf st); [discriminate H|].
    injection H as <-. auto.
  - destruct (k_view s q) as [| | |st]; try discriminate H; injection H as <-; auto.
  - injection H as <-. auto.
  - discriminate H.
Qed.
