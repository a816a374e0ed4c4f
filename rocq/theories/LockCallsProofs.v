(** C92: proofs about LockCalls.v. *)
From Coq Require Import String Lia.
From Verif Require Import Base Types Text TypeText Block Protocol Connection Errors Lock Migrate MigrateProofs LockCalls Props_Migrate.
Local Open Scope list_scope.
Local Open Scope N_scope.

Lemma taken_cons c s : c <> 97 -> taken (c :: s) <-> taken s.
Proof.
  intros H. split.
  - intros (x & y & E). destruct x as [|x0 x]; cbn in E.
    + injection E as E _. elim H. exact E.
    + injection E as _ E. now exists x, y.
  - intros (x & y & ->). now exists (c :: x), y.
Qed.
Lemma taken_skip p s : ~ In 97 p -> taken (p ++ s) <-> taken s.
Proof.
  induction p as [|c p IH]; intros H; [reflexivity|]. cbn [app]. rewrite taken_cons; [apply IH|]; intros X; apply H; [now right|now left].
Qed.
(** The words cannot lie across a character that is not one of theirs. *)
Lemma taken_across c a b : ~ In c (txt "already exists") -> taken (a ++ c :: b) <-> taken a \/ taken b.
Proof.
  intros H. split.
  - intros (x & y & E). revert a E. induction x as [|x0 x IH]; intros a E.
    + left. cbn [app] in E. change (taken a).
      assert (G : forall p, ~ In c p -> forall a, a ++ c :: b = p ++ y -> exists z, a = p ++ z).
      { clear. induction p as [|p0 p IH]; intros NI a E; [now exists a|].
        destruct a as [|a0 a]; cbn in E; injection E as E0 E.
        - elim NI. now left.
        - destruct (IH (fun X => NI (or_intror X)) a E) as (z & ->). subst. now exists z. }
      destruct (G _ H a E) as (z & ->). now exists [], z.
    + destruct a as [|a0 a]; cbn in E; injection E as E0 E.
      * right. now exists x, y.
      * destruct (IH a E) as [(p & q & ->)|R]; [left; now exists (a0 :: p), q|now right].
  - intros [(x & y & ->)|(x & y & ->)].
    + exists x, (y ++ c :: b). now rewrite <- !app_assoc.
    + exists (a ++ c :: x), y. now rewrite <- app_assoc.
Qed.

Lemma show_go_digits fuel : forall n acc, Forall (fun c => 48 <= c <= 57) acc -> Forall (fun c => 48 <= c <= 57) (show_go fuel n acc).
Proof.
  induction fuel as [|f IH]; intros n acc H; cbn [show_go]; [exact H|].
  assert (L : n mod 10 < 10) by (apply N.mod_lt; discriminate).
  assert (H' : Forall (fun c => 48 <= c <= 57) (48 + n mod 10 :: acc)) by (constructor; [|exact H]; generalize dependent (n mod 10); intros; lia).
  destruct (n / 10 =? 0); [exact H'|]. now apply IH.
Qed.
Lemma show_Z_no_a z : ~ In 97 (show_Z z).
Proof.
  assert (G : forall n, ~ In 97 (show_N n)).
  { intros n X. unfold show_N in X. apply (proj1 (Forall_forall _ _) (show_go_digits (S (N.size_nat n)) n [] (Forall_nil _))) in X. lia. }
  unfold show_Z. destruct (z <? 0)%Z; [|apply G]. intros X. destruct X as [X|X]; [discriminate X|]. now apply G in X.
Qed.

Lemma taken_server D code name message stack :
  taken (display D (KServer code name message stack)) <-> taken name \/ taken message \/ taken stack.
Proof.
  cbn [display].
  rewrite taken_skip by (cbn; intros X; repeat (destruct X as [X|X]; [discriminate X|]); exact X).
  rewrite taken_skip by apply show_Z_no_a.
  rewrite taken_skip by (cbn; intros [X|[]]; discriminate X).
  change (txt ": " ++ message ++ 10 :: stack) with (58 :: 32 :: message ++ 10 :: stack).
  rewrite taken_across by (cbn; intros X; repeat (destruct X as [X|X]; [discriminate X|]); exact X).
  rewrite taken_cons by discriminate.
  rewrite taken_across by (cbn; intros X; repeat (destruct X as [X|X]; [discriminate X|]); exact X).
  reflexivity.
Qed.

Lemma lock_loop_spec D l answers :
  exists refused rest, answers = map Some refused ++ rest /\ Forall (fun e => taken (display D e)) refused /\
    fst (lock_loop D l answers) =
      concat (repeat [ASent (create_statement (k_name l) (k_cluster l)); ASlept 100] (List.length refused)) ++ [ASent (create_statement (k_name l) (k_cluster l))] /\
    match snd (lock_loop D l answers) with
    | LHandle => exists rest', rest = None :: rest'
    | LError e => (exists rest', rest = Some e :: rest') /\ ~ taken (display D e)
    | LPending => rest = []
    end.
Proof.
  induction answers as [|[e|] answers IH]; cbn [lock_loop].
  - exists [], []. split; [reflexivity|]. split; [constructor|]. split; reflexivity.
  - destruct (contains (txt "already exists") (display D e)) eqn:C.
    + destruct IH as (rf & rest & -> & F & T & O). exists (e :: rf), rest. split; [reflexivity|].
      split; [constructor; [now apply contains_iff|exact F]|].
      destruct (lock_loop D l (map Some rf ++ rest)) as [t o]. cbn [fst snd] in *. split; [|exact O]. rewrite T. reflexivity.
    + exists [], (Some e :: answers). split; [reflexivity|]. split; [constructor|]. split; [reflexivity|]. cbn [snd]. split; [eauto|].
      intros X. apply contains_iff in X. congruence.
  - exists [], (None :: answers). split; [reflexivity|]. split; [constructor|]. split; [reflexivity|]. cbn. eauto.
Qed.

(* ---------------- the life of a handle ---------------- *)
Definition asked_before (s : life) : bool := match s with HAsked _ | HOver _ _ => true | _ => false end.
Lemma hrun_sends l es : forall s s' qs, hrun l s es = Some (s', qs) ->
  qs = [] \/ (qs = [drop_statement (k_name l) (k_cluster l)] /\ asked_before s = false /\ asked_before s' = true).
Proof.
  induction es as [|e es IH]; intros s s' qs R; cbn [hrun] in R.
  - injection R as <- <-. now left.
  - destruct (hstep l s e) as [[s1 q1]|] eqn:S1; [|discriminate R].
    destruct (hrun l s1 es) as [[s2 q2]|] eqn:R1; [|discriminate R]. injection R as <- <-. specialize (IH _ _ _ R1).
    assert (Q : (q1 = [] /\ (asked_before s = true -> asked_before s1 = true)) \/ (q1 = [drop_statement (k_name l) (k_cluster l)] /\ asked_before s = false /\ asked_before s1 = true)).
    { destruct s as [| | |w|w|w r], e as [| |[] []|a| |]; try destruct w; cbn in S1; try discriminate S1; injection S1 as <- <-; cbn;
        first [now left|now right|(left; split; [reflexivity|intros; discriminate])]. }
    destruct Q as [[-> Q]|(-> & Q1 & Q2)].
    + cbn [app]. destruct IH as [->|(-> & A & B)]; [now left|]. right. split; [reflexivity|]. split; [|exact B].
      destruct (asked_before s); [|reflexivity]. rewrite Q in A by reflexivity. discriminate A.
    + destruct IH as [->|(-> & A & B)]; [|congruence]. right. split; [now rewrite app_nil_r|]. split; [exact Q1|].
      assert (M : forall es s s' qs, hrun l s es = Some (s', qs) -> asked_before s = true -> asked_before s' = true).
      { clear. induction es as [|e es IH]; intros s s' qs R A; cbn [hrun] in R; [now injection R as <- <-|].
        destruct (hstep l s e) as [[s1 q1]|] eqn:S1; [|discriminate R].
        destruct (hrun l s1 es) as [[s2 q2]|] eqn:R1; [|discriminate R]. injection R as <- <-. apply (IH _ _ _ R1).
        destruct s as [| | |w|w|w r], e as [| |[] []|a| |]; try destruct w; cbn in S1, A; try discriminate; injection S1 as <- <-; reflexivity. }
      exact (M _ _ _ _ R1 Q2).
Qed.
Lemma hrun_app l es1 : forall es2 s s' qs, hrun l s (es1 ++ es2) = Some (s', qs) ->
  exists s1 q1 q2, hrun l s es1 = Some (s1, q1) /\ hrun l s1 es2 = Some (s', q2) /\ qs = q1 ++ q2.
Proof.
  induction es1 as [|e es1 IH]; intros es2 s s' qs R; cbn [app hrun] in *.
  - exists s, [], qs. now repeat split.
  - destruct (hstep l s e) as [[s1 q1]|] eqn:S1; [|discriminate R].
    destruct (hrun l s1 (es1 ++ es2)) as [[s2 q2]|] eqn:R1; [|discriminate R]. injection R as <- <-.
    destruct (IH _ _ _ _ R1) as (s3 & q3 & q4 & R3 & R4 & ->). rewrite R3. exists s3, (q1 ++ q3), q4.
    split; [reflexivity|]. split; [exact R4|]. now rewrite app_assoc.
Qed.
(** Where a run from the handle stands: what has been sent, and how it got there if nothing was. *)
Lemma hrun_reach l es : forall s qs, hrun l HHeld es = Some (s, qs) ->
  (qs = [drop_statement (k_name l) (k_cluster l)] /\ In (HPoll false true) es \/ qs = [] /\ ~ In (HPoll false true) es) /\
  match s with
  | HHeld | HCalled | HSpawned => qs = []
  | HQueueing w => qs = [] /\ exists es', es = es' ++ [HPoll false false]
  | HAsked w => qs <> []
  | HOver w (Some a) => qs <> [] \/ a = Some closed_error /\ exists es' room, es = es' ++ [HPoll true room]
  | HOver ByUnlock None => qs <> [] \/ exists es', es = es' ++ [HPoll false false; HAbandon]
  | HOver ByDrop None => qs <> [] \/ exists es', es = es' ++ [HShutdown]
  end.
Proof.
  induction es as [|e es IH] using rev_ind; intros s qs R.
  - injection R as <- <-. split; [right; split; [reflexivity|intros []]|reflexivity].
  - apply hrun_app in R. destruct R as (s1 & q1 & q2 & R1 & R2 & ->). specialize (IH _ _ R1). cbn [hrun] in R2.
    destruct (hstep l s1 e) as [[s2 q3]|] eqn:S1; [|discriminate R2]. injection R2 as <- <-. rewrite app_nil_r.
    assert (K : forall e', e' <> HPoll false true -> (In (HPoll false true) (es ++ [e']) <-> In (HPoll false true) es)).
    { intros e' N. rewrite in_app_iff. cbn [In]. intuition congruence. }
    assert (Y : In (HPoll false true) (es ++ [HPoll false true])) by (apply in_or_app; right; now left).
    destruct IH as [Q IH].
    destruct s1 as [| | |w|w|w r], e as [| |closed room|a| |]; try destruct w; cbn [hstep] in S1; try discriminate S1;
      try (unfold queue_up in S1; destruct closed; [|destruct room]); injection S1 as <- <-; rewrite ?app_nil_r;
      (split; [first [rewrite K by discriminate; exact Q|left; split; [|exact Y]; first [rewrite IH; reflexivity|destruct IH as [-> _]; reflexivity]]|]).
    all: first [exact IH|idtac].
    all: try (left; exact IH).
    all: try (right; split; [reflexivity|]; now exists es, room).
    all: try (right; now exists es).
    all: try (split; [exact IH|now exists es]).
    all: try (split; [exact (proj1 IH)|now exists es]).
    all: try (intros X; apply app_eq_nil in X; destruct X as [_ X]; discriminate X).
    right. destruct IH as (_ & es' & ->). exists es'. now rewrite <- app_assoc.
Qed.
