(** Mutual exclusion of the table lock. *)
From Coq Require Import String.
From Verif Require Import Base Types Text Lock.
Local Open Scope list_scope.
Local Open Scope N_scope.

Definition lock_inv (n : text) (w : world) : Prop :=
  (forall i j, owns w i n -> owns w j n -> i = j) /\ (forall i, owns w i n -> w_table w n = true) /\
  (w_table w n = true -> exists i, owns w i n).

Lemma put_same w i t : w_tasks (put w i t) i = t.
Proof. cbn [put w_tasks]. now rewrite Nat.eqb_refl. Qed.
Lemma put_other w i t j : j <> i -> w_tasks (put w i t) j = w_tasks w j.
Proof. intros H. cbn [put w_tasks]. apply Nat.eqb_neq in H. now rewrite H. Qed.

(** Steps that leave the tables alone and do not change who owns what. *)
Lemma inv_same n w w' : lock_inv n w -> w_table w' n = w_table w n ->
  (forall j, owns w' j n <-> owns w j n) -> lock_inv n w'.
Proof.
  intros (A & B & C) T O. repeat split.
  - intros i j Hi Hj. apply A; now apply O.
  - intros i Hi. rewrite T. apply (B i). now apply O.
  - rewrite T. intros Ht. destruct (C Ht) as [i Hi]. exists i. now apply O.
Qed.

Lemma owns_put w i t j n : owns (put w i t) j n <-> (if Nat.eqb j i then owning (l_phase t) = true /\ l_name t = n else owns w j n).
Proof. unfold owns. cbn [put w_tasks]. destruct (Nat.eqb j i); tauto. Qed.
Lemma owns_set w m b j n : owns (set_table w m b) j n <-> owns w j n.
Proof. unfold owns. cbn [set_table w_tasks]. tauto. Qed.

Lemma inv_phase n w i p : lock_inv n w -> owning p = owning (l_phase (w_tasks w i)) -> lock_inv n (put w i (set_phase (w_tasks w i) p)).
Proof.
  intros I P. apply (inv_same n w); [exact I|reflexivity|]. intros j. rewrite owns_put. destruct (Nat.eqb_spec j i) as [->|NE]; [|tauto].
  cbn [set_phase l_phase l_name]. unfold owns. rewrite P. tauto.
Qed.

Lemma inv_take n w i p : lock_inv n w -> w_table w (l_name (w_tasks w i)) = false -> owning p = true ->
  lock_inv n (put (set_table w (l_name (w_tasks w i)) true) i (set_phase (w_tasks w i) p)).
Proof.
  intros (A & B & C) T P. destruct (text_eqb n (l_name (w_tasks w i))) eqn:E.
  - apply text_eqb_eq in E.
    assert (No : forall j, ~ owns w j n) by (intros j O; apply B in O; congruence).
    repeat split.
    + intros a b Ha Hb. apply owns_put in Ha. apply owns_put in Hb.
      destruct (Nat.eqb_spec a i) as [->|Na]; destruct (Nat.eqb_spec b i) as [->|Nb]; try reflexivity; exfalso.
      * exact (No b (proj1 (owns_set _ _ _ _ _) Hb)).
      * exact (No a (proj1 (owns_set _ _ _ _ _) Ha)).
      * exact (No a (proj1 (owns_set _ _ _ _ _) Ha)).
    + intros a _. cbn [put set_table w_table]. rewrite E. now rewrite text_eqb_refl.
    + intros _. exists i. rewrite owns_put, Nat.eqb_refl. cbn [set_phase l_phase l_name]. auto.
  - apply (inv_same n w); [repeat split; assumption| |].
    + cbn [put set_table w_table]. now rewrite E.
    + intros j. rewrite owns_put. destruct (Nat.eqb_spec j i) as [->|NE]; [|now rewrite owns_set]. cbn [set_phase l_phase l_name].
      apply text_eqb_neq in E. unfold owns. split; intros [X Y]; congruence.
Qed.

Lemma inv_free n w i p : lock_inv n w -> owning (l_phase (w_tasks w i)) = true -> owning p = false ->
  lock_inv n (put (set_table w (l_name (w_tasks w i)) false) i (set_phase (w_tasks w i) p)).
Proof.
  intros (A & B & C) P P'. destruct (text_eqb n (l_name (w_tasks w i))) eqn:E.
  - apply text_eqb_eq in E. assert (O : owns w i n) by (split; auto).
    assert (No : forall j, ~ owns (put (set_table w (l_name (w_tasks w i)) false) i (set_phase (w_tasks w i) p)) j n).
    { intros j X. apply owns_put in X. destruct (Nat.eqb_spec j i) as [Ej|NE]; cbn [set_phase l_phase] in X.
      - destruct X as [X _]. congruence.
      - apply owns_set in X. apply NE. now apply A. }
    repeat split.
    + intros a b Ha. now apply No in Ha.
    + intros a Ha. now apply No in Ha.
    + cbn [put set_table w_table]. rewrite E, text_eqb_refl. discriminate.
  - apply (inv_same n w); [repeat split; assumption| |].
    + cbn [put set_table w_table]. now rewrite E.
    + intros j. rewrite owns_put. destruct (Nat.eqb_spec j i) as [->|NE]; [|now rewrite owns_set]. cbn [set_phase l_phase l_name].
      apply text_eqb_neq in E. unfold owns. split; intros [X Y]; congruence.
Qed.

Lemma inv_drop_other n w i p : lock_inv n w -> text_eqb (l_name (w_tasks w i)) n = false -> 
  lock_inv n (put (set_table w (l_name (w_tasks w i)) false) i (set_phase (w_tasks w i) p)).
Proof.
  intros I E. apply (inv_same n w); [exact I| |].
  - cbn [put set_table w_table]. rewrite text_eqb_neq in E. assert (E' : text_eqb n (l_name (w_tasks w i)) = false) by (apply text_eqb_neq; congruence). now rewrite E'.
  - intros j. rewrite owns_put. destruct (Nat.eqb_spec j i) as [->|NE]; [|now rewrite owns_set]. cbn [set_phase l_phase l_name].
    apply text_eqb_neq in E. unfold owns. split; intros [X Y]; congruence.
Qed.

Lemma inv_step n w e w' : lock_inv n w -> lstep w e = Some w' -> resets n (w, e) = false -> lock_inv n w'.
Proof.
  intros I E R. destruct e as [ms|i m k|i|i|i|i|i|i|i|m]; cbn [lstep] in E.
  - injection E as <-. exact I.
  - destruct (l_phase (w_tasks w i)) eqn:P; try discriminate. injection E as <-.
    apply (inv_same n w); [exact I|reflexivity|]. intros j. rewrite owns_put. destruct (Nat.eqb_spec j i) as [->|NE]; [|tauto].
    cbn [l_phase owning]. unfold owns. rewrite P. cbn [owning]. split; intros [X _]; discriminate.
  - cbn [resets fst snd] in R. destruct (l_phase (w_tasks w i)) eqn:P; try discriminate.
    + destruct (w_table w (l_name (w_tasks w i))) eqn:T; injection E as <-.
      * apply inv_phase; [exact I|now rewrite P].
      * apply inv_take; auto.
    + injection E as <-. now apply inv_drop_other.
    + injection E as <-. apply inv_free; auto. now rewrite P.
    + destruct (w_table w (l_name (w_tasks w i))) eqn:T; injection E as <-.
      * apply inv_phase; [exact I|now rewrite P].
      * apply inv_take; auto.
    + injection E as <-. now apply inv_drop_other.
    + destruct (w_table w (l_name (w_tasks w i))) eqn:T; injection E as <-.
      * apply inv_phase; [exact I|now rewrite P].
      * apply inv_take; auto.
  - destruct (l_phase (w_tasks w i)) eqn:P; try discriminate; [| destruct (l_kind (w_tasks w i)) |]; injection E as <-; (apply inv_phase; [exact I|now rewrite P]).
  - destruct (l_phase (w_tasks w i)) eqn:P; try discriminate. destruct (w_now w <? until); [discriminate|].
    destruct (l_kind (w_tasks w i)); [| |destruct (MIGRATE_PATIENCE <? w_now w - l_start (w_tasks w i))]; injection E as <-; (apply inv_phase; [exact I|now rewrite P]).
  - destruct (l_phase (w_tasks w i)) eqn:P; try discriminate; injection E as <-; (apply inv_phase; [exact I|now rewrite P]).
  - destruct (l_phase (w_tasks w i)) eqn:P; try discriminate; injection E as <-; (apply inv_phase; [exact I|now rewrite P]).
  - destruct (l_phase (w_tasks w i)) eqn:P; try discriminate; injection E as <-; (apply inv_phase; [exact I|now rewrite P]).
  - destruct (l_phase (w_tasks w i)) eqn:P; try discriminate; injection E as <-; (apply inv_phase; [exact I|now rewrite P]).
  - injection E as <-. cbn [resets snd] in R. apply (inv_same n w); [exact I| |intros j; apply owns_set].
    cbn [set_table w_table]. apply text_eqb_neq in R. assert (X : text_eqb n m = false) by (apply text_eqb_neq; congruence). now rewrite X.
Qed.

Lemma inv_history n h w : history h w -> forallb (fun s => negb (resets n s)) h = true -> lock_inv n w.
Proof.
  intros H. induction H as [|h w e w' _ IH E]; intros R.
  - repeat split; try (intros i j [X _]; discriminate); try (intros i [X _]; discriminate). discriminate.
  - rewrite forallb_app in R. apply andb_prop in R as [R1 R2]. cbn [forallb] in R2. rewrite andb_true_r in R2. apply negb_true_iff in R2.
    eapply inv_step; eauto.
Qed.

(** As long as every migration is patient, none of them resets. *)
Definition no_reset_phase (w : world) : Prop := forall i, match l_phase (w_tasks w i) with PResetting | PResetDone | POrphanReset => False | _ => True end.
Lemma patient_step w e w' : no_reset_phase w -> patient w -> lstep w e = Some w' -> no_reset_phase w'.
Proof.
  intros N0 PT E j. pose proof (N0 j) as Nj.
  destruct e as [ms|i m k|i|i|i|i|i|i|i|m]; cbn [lstep] in E; try (injection E as <-; exact Nj);
    (destruct (Nat.eq_dec j i) as [->|NE]; [|
      repeat match type of E with
      | match ?x with _ => _ end = _ => destruct x eqn:?; try discriminate
      end; injection E as <-; try rewrite put_other by exact NE; exact Nj]).
  all: try (specialize (PT i)).
  all: repeat match type of E with
      | match ?x with _ => _ end = _ => destruct x eqn:?; try discriminate
      end; try contradiction; injection E as <-; rewrite put_same; cbn [l_phase set_phase]; try exact I.
  - rename Heqb0 into L. apply N.ltb_lt in L. cbn [waiting] in PT. specialize (PT eq_refl eq_refl). lia.
Qed.

Lemma patient_history h w : history h w -> Forall (fun s => patient (fst s)) h -> no_reset_phase w.
Proof.
  intros H. induction H as [|h w e w' _ IH E]; intros F; [exact (fun _ => I)|].
  apply Forall_app in F as [F1 F2]. pose proof (Forall_inv F2) as P. cbn [fst] in P. eapply patient_step; eauto.
Qed.
Lemma patient_no_resets h w : history h w -> Forall (fun s => patient (fst s)) h -> (forall s m, In s h -> snd s <> EReset m) ->
  forall n, forallb (fun s => negb (resets n s)) h = true.
Proof.
  intros H. induction H as [|h w e w' H IH E]; intros F NR n; [reflexivity|].
  pose proof F as F0. apply Forall_app in F as [F1 F2]. rewrite forallb_app, IH; [|exact F1|intros s m Hs; apply NR, in_or_app; now left].
  cbn [forallb]. rewrite andb_true_r. cbn [andb]. apply negb_true_iff. unfold resets. cbn [fst snd].
  destruct e as [ms|i m k|i|i|i|i|i|i|i|m]; try reflexivity.
  - pose proof (patient_history h w H F1 i) as Q. destruct (l_phase (w_tasks w i)); try reflexivity; destruct Q.
  - exfalso. apply (NR (w, EReset m) m); [apply in_or_app; right; now left|reflexivity].
Qed.

Lemma no_resets_forallb n (h : list (world * event)) : (forall s, In s h -> resets n s = false) -> forallb (fun s => negb (resets n s)) h = true.
Proof. intros H. apply forallb_forall. intros s Hs. now rewrite (H s Hs). Qed.
Lemma live_owns w i n : holds_live w i n -> owns w i n.
Proof. intros [P Nm]. split; [now rewrite P|exact Nm]. Qed.
Lemma live_holds w i n : holds_live w i n -> holds w i n.
Proof. intros [P Nm]. split; [now rewrite P|exact Nm]. Qed.

Lemma live_exclusion h w n i j : history h w -> (forall s, In s h -> resets n s = false) -> holds_live w i n -> holds_live w j n -> i = j.
Proof.
  intros H R Hi Hj. destruct (inv_history n h w H (no_resets_forallb _ _ R)) as (A & _ & _). apply A; now apply live_owns.
Qed.

(** Without a cut nobody has a handle that the server did not grant. *)
Definition granted_only (n : text) (w : world) : Prop :=
  forall i, l_name (w_tasks w i) = n -> match l_phase (w_tasks w i) with PHeldSent | PHeldFalse => False | _ => True end.
Lemma granted_step n w e w' : granted_only n w -> lstep w e = Some w' -> cuts n (w, e) = false -> granted_only n w'.
Proof.
  intros G E K j Nj. pose proof (G j) as Gj.
  destruct e as [ms|i m k|i|i|i|i|i|i|i|m]; cbn [lstep] in E; try (injection E as <-; now apply Gj);
    (destruct (Nat.eq_dec j i) as [->|NE]; [|
      repeat match type of E with
      | match ?x with _ => _ end = _ => destruct x eqn:?; try discriminate
      end; injection E as <-; rewrite put_other in Nj |- * by exact NE; now apply Gj]).
  all: cbn [cuts fst snd] in K.
  all: repeat match type of E with
      | match ?x with _ => _ end = _ => destruct x eqn:?; try discriminate
      end; injection E as <-; rewrite put_same in Nj |- *; cbn [l_phase set_phase l_name] in *; try exact I.
  all: try (apply Gj; exact Nj).
  all: rewrite Nj, text_eqb_refl in K; discriminate.
Qed.
Lemma granted_history n h w : history h w -> (forall s, In s h -> cuts n s = false) -> granted_only n w.
Proof.
  intros H. induction H as [|h w e w' _ IH E]; intros K.
  - intros i _. exact I.
  - apply (granted_step n w e w'); [apply IH; intros s Hs; apply K, in_or_app; now left|exact E|apply K, in_or_app; right; now left].
Qed.
Lemma holds_owns n w i : granted_only n w -> holds w i n -> owns w i n.
Proof.
  intros G [P Nm]. pose proof (G i Nm) as Gi. split; [|exact Nm]. destruct (l_phase (w_tasks w i)); try discriminate P; try reflexivity; destruct Gi.
Qed.

Lemma mutual_exclusion h w n i j : history h w -> (forall s, In s h -> resets n s = false) -> (forall s, In s h -> cuts n s = false) ->
  holds w i n -> holds w j n -> i = j.
Proof.
  intros H R K Hi Hj. destruct (inv_history n h w H (no_resets_forallb _ _ R)) as (A & _ & _). pose proof (granted_history n h w H K) as G.
  apply A; now apply holds_owns.
Qed.

(** In every state: the breaking connection of a task that waits for the answer hands it the lock. *)
Lemma lost_connection_grants w j n : (l_phase (w_tasks w j) = PCreating \/ l_phase (w_tasks w j) = PRefused) -> l_name (w_tasks w j) = n ->
  exists w', lstep w (ELost j) = Some w' /\ holds w' j n /\ (forall m, w_table w' m = w_table w m) /\
    (forall i, i <> j -> w_tasks w' i = w_tasks w i).
Proof.
  intros P Nm. cbn [lstep]. destruct P as [P|P]; rewrite P; eexists; (split; [reflexivity|]);
    (split; [split; rewrite put_same; [reflexivity|exact Nm]|]); (split; [reflexivity|]); intros i NE; now apply put_other.
Qed.

Lemma granted_iff_free h w n j : history h w -> (forall s, In s h -> resets n s = false) ->
  l_phase (w_tasks w j) = PCreating -> l_name (w_tasks w j) = n ->
  exists w1 w2, lstep w (EExec j) = Some w1 /\ lstep w1 (EReply j) = Some w2 /\
    (holds w2 j n <-> forall i, ~ owns w i n).
Proof.
  intros H R P Nm. destruct (inv_history n h w H (no_resets_forallb _ _ R)) as (A & B & C).
  cbn [lstep]. rewrite P, Nm. destruct (w_table w n) eqn:T.
  - destruct (C eq_refl) as [o Ho].
    destruct (l_kind (w_tasks w j)) eqn:K; eexists; eexists; (split; [reflexivity|]); rewrite put_same; cbn [set_phase l_phase l_kind]; rewrite K;
      (split; [reflexivity|]); (split; [intros [X _]; rewrite put_same in X; discriminate|intros X; destruct (X o Ho)]).
  - eexists. eexists. split; [reflexivity|]. rewrite put_same. cbn [set_phase l_phase]. split; [reflexivity|]. split.
    + intros _ i Hi. apply B in Hi. congruence.
    + intros _. split; rewrite put_same; [reflexivity|exact Nm].
Qed.

Lemma refused_changes_nothing w j : l_phase (w_tasks w j) = PCreating -> w_table w (l_name (w_tasks w j)) = true ->
  exists w1 w2, lstep w (EExec j) = Some w1 /\ lstep w1 (EReply j) = Some w2 /\
    w_now w2 = w_now w /\ (forall m, w_table w2 m = w_table w m) /\ (forall i, i <> j -> w_tasks w2 i = w_tasks w i) /\
    l_name (w_tasks w2 j) = l_name (w_tasks w j) /\
    l_phase (w_tasks w2 j) = match l_kind (w_tasks w j) with
                             | KTry => PIdle | KLock => PSleeping (w_now w + 100) | KMigrate => PSleeping (w_now w + 250) end.
Proof.
  intros P T. cbn [lstep]. rewrite P, T. eexists. 
  destruct (l_kind (w_tasks w j)) eqn:K; eexists; (split; [reflexivity|]); rewrite put_same; cbn [set_phase l_phase l_kind]; rewrite K;
    (split; [reflexivity|]); (split; [reflexivity|]); (split; [reflexivity|]);
    (split; [intros i Hi; rewrite !put_other by exact Hi; reflexivity|]); rewrite put_same; split; reflexivity.
Qed.

Lemma release_makes_available w i j n : holds_live w i n -> l_phase (w_tasks w j) = PCreating -> l_name (w_tasks w j) = n ->
  exists w1 w2 w3 w4, lstep w (ERelease i) = Some w1 /\ lstep w1 (EExec i) = Some w2 /\
    lstep w2 (EExec j) = Some w3 /\ lstep w3 (EReply j) = Some w4 /\ holds_live w4 j n /\ ~ holds w4 i n.
Proof.
  intros [Pi Ni] Pj Nj. assert (NE : j <> i) by (intros ->; congruence). assert (NE' : i <> j) by congruence.
  cbn [lstep]. rewrite Pi. eexists. eexists. eexists. eexists. split; [reflexivity|].
  rewrite put_same. cbn [set_phase l_phase l_name]. rewrite Ni. split; [reflexivity|].
  rewrite put_other by exact NE. cbn [set_table w_tasks w_table put]. apply Nat.eqb_neq in NE as NE2. rewrite NE2, Pj, Nj, text_eqb_refl.
  split; [reflexivity|]. cbn [put w_tasks]. rewrite Nat.eqb_refl. cbn [set_phase l_phase]. split; [reflexivity|].
  split.
  - split; cbn [put w_tasks]; rewrite Nat.eqb_refl; [reflexivity|exact Nj].
  - intros [X _]. cbn [put w_tasks set_table] in X. apply Nat.eqb_neq in NE'. rewrite NE', Nat.eqb_refl in X. discriminate.
Qed.

Lemma holds_put_other w i t n : l_name (w_tasks w i) <> n -> l_name t = l_name (w_tasks w i) -> forall j, holds (put w i t) j n <-> holds w j n.
Proof.
  intros NN E j. unfold holds. cbn [put w_tasks]. destruct (Nat.eqb_spec j i) as [->|NE]; [|tauto]. rewrite E. split; intros [_ X]; congruence.
Qed.
Lemma independent_names w e w' i n : lstep w e = Some w' ->
  (e = EExec i \/ e = EReply i \/ e = EWake i \/ e = ERelease i \/ e = ECancel i \/ e = ELost i \/ e = EFail i) ->
  l_name (w_tasks w i) <> n -> w_table w' n = w_table w n /\ (forall j, holds w' j n <-> holds w j n).
Proof.
  intros E Hd NN. assert (E' : text_eqb n (l_name (w_tasks w i)) = false) by (apply text_eqb_neq; congruence).
  assert (HP : forall p, w_table (put w i (set_phase (w_tasks w i) p)) n = w_table w n /\ (forall j, holds (put w i (set_phase (w_tasks w i) p)) j n <-> holds w j n)).
  { intros p. split; [reflexivity|]. now apply holds_put_other. }
  assert (HT : forall p b, let w1 := put (set_table w (l_name (w_tasks w i)) b) i (set_phase (w_tasks w i) p) in
               w_table w1 n = w_table w n /\ (forall j, holds w1 j n <-> holds w j n)).
  { intros p b w1. split; [unfold w1; cbn [put set_table w_table]; now rewrite E'|]. intros j. unfold w1.
    rewrite (holds_put_other (set_table w (l_name (w_tasks w i)) b) i (set_phase (w_tasks w i) p) n NN eq_refl j). reflexivity. }
  destruct Hd as [->|[->|[->|[->|[->|[->| ->]]]]]]; cbn [lstep] in E;
  repeat match type of E with
      | match ?x with _ => _ end = _ => destruct x eqn:?; try discriminate
      | (if ?x then _ else _) = _ => destruct x eqn:?; try discriminate
      end; injection E as <-; first [apply HP|apply HT].
Qed.

(** A lost lock stays lost. *)
Definition stuck (n : text) (w : world) : Prop := w_table w n = true /\ (exists i, l_phase (w_tasks w i) = PLost /\ l_name (w_tasks w i) = n) /\ lock_inv n w.
Lemma stuck_step n w e w' : stuck n w -> lstep w e = Some w' -> resets n (w, e) = false -> stuck n w'.
Proof.
  intros (T & (i & P & Nm) & Iv) E R. pose proof (inv_step n w e w' Iv E R) as Iv'.
  assert (K : l_phase (w_tasks w' i) = PLost /\ l_name (w_tasks w' i) = n).
  { destruct e as [ms|k m kd|k|k|k|k|k|k|k|m]; cbn [lstep] in E; try (injection E as <-; auto; fail);
      (destruct (Nat.eq_dec i k) as [->|NE]; [rewrite P in E; discriminate|]);
      repeat match type of E with
      | match ?x with _ => _ end = _ => destruct x eqn:?; try discriminate
      | (if ?x then _ else _) = _ => destruct x eqn:?; try discriminate
      end; injection E as <-; rewrite put_other by exact NE; auto. }
  split; [|split; [exists i; exact K|exact Iv']]. destruct Iv' as (_ & B & _). apply (B i). destruct K as [K1 K2]. split; [now rewrite K1|exact K2].
Qed.
Lemma history_app_inv h' : forall h w', history (h ++ h') w' -> exists w, history h w.
Proof.
  induction h' as [|s h' IH] using rev_ind; intros h w' H.
  - rewrite app_nil_r in H. eauto.
  - rewrite app_assoc in H. inversion H as [E|h1 w1 e w2 H1 E1 E2].
    + symmetry in E. apply app_eq_nil in E as [_ E]. discriminate.
    + apply app_inj_tail in E2 as [-> _]. eauto.
Qed.
Lemma history_state h w1 : history h w1 -> forall w2, history h w2 -> w1 = w2.
Proof.
  induction 1 as [|h w e w' H IH E]; intros w2 H2.
  - inversion H2 as [|h1 w1 e w3 H1 E1 E2]; [reflexivity|]. apply app_eq_nil in E2 as [_ E2]. discriminate.
  - inversion H2 as [E2|h1 w1 e1 w3 H1 E1 E2].
    + symmetry in E2. apply app_eq_nil in E2 as [_ E2]. discriminate.
    + apply app_inj_tail in E2 as [-> E3]. injection E3 as -> ->. congruence.
Qed.
Lemma stuck_history n h w : history h w -> stuck n w -> forall h' w', history (h ++ h') w' -> (forall s, In s h' -> resets n s = false) -> stuck n w'.
Proof.
  intros H S0. induction h' as [|s h' IH] using rev_ind; intros w' H' R.
  - rewrite app_nil_r in H'. now rewrite <- (history_state _ _ H _ H').
  - rewrite app_assoc in H'. inversion H' as [E|h1 w1 e w2 H1 E1 E2].
    + symmetry in E. apply app_eq_nil in E as [_ E]. discriminate.
    + apply app_inj_tail in E2 as [-> <-]. eapply stuck_step; [apply (IH w1 H1)|exact E1|].
      * intros s Hs. apply R, in_or_app. now left.
      * apply R, in_or_app. right. now left.
Qed.
Lemma stuck_not_held n w : stuck n w -> forall i, holds_live w i n -> False.
Proof.
  intros (_ & (k & P & Nm) & A & _ & _) i Hi. assert (i = k) as ->.
  { apply A; [now apply live_owns|]. split; [now rewrite P|exact Nm]. }
  destruct Hi as [X _]. congruence.
Qed.
Lemma abandoned_attempt : exists h w, history h w /\ (forall s, In s h -> forall n, resets n s = false) /\
  (forall i, ~ holds w i (txt "jobs")) /\ l_phase (w_tasks w 0%nat) <> PDropping /\
  (forall h' w', history (h ++ h') w' -> (forall s, In s h' -> resets (txt "jobs") s = false) -> (forall i, holds_live w' i (txt "jobs") -> False)).
Proof.
  set (n := txt "jobs").
  set (w1 := put w_init 0 {| l_name := n; l_kind := KLock; l_start := 0; l_phase := PCreating |}).
  set (w2 := put (set_table w1 n true) 0 {| l_name := n; l_kind := KLock; l_start := 0; l_phase := PCreated |}).
  set (w3 := put w2 0 {| l_name := n; l_kind := KLock; l_start := 0; l_phase := PLost |}).
  assert (H : history [(w_init, ECall 0 n KLock); (w1, EExec 0); (w2, ECancel 0)] w3).
  { apply (h_step [(w_init, ECall 0 n KLock); (w1, EExec 0)] w2 (ECancel 0) w3); [|reflexivity].
    apply (h_step [(w_init, ECall 0 n KLock)] w1 (EExec 0) w2); [|reflexivity].
    apply (h_step [] w_init (ECall 0 n KLock) w1); [constructor|reflexivity]. }
  assert (R : forall s, In s [(w_init, ECall 0 n KLock); (w1, EExec 0); (w2, ECancel 0)] -> forall m, resets m s = false).
  { intros s Hs m. cbn [In] in Hs. repeat (destruct Hs as [<-|Hs]; [reflexivity|]). destruct Hs. }
  assert (S3 : stuck n w3).
  { split; [reflexivity|]. split; [exists 0%nat; split; reflexivity|]. apply (inv_history n _ w3 H). apply no_resets_forallb. intros s Hs. now apply R. }
  exists [(w_init, ECall 0 n KLock); (w1, EExec 0); (w2, ECancel 0)], w3. split; [exact H|]. split; [exact R|].
  split; [intros i [X _]; unfold w3 in X; cbn [put w_tasks] in X; destruct (Nat.eqb_spec i 0); [subst i; discriminate X|];
    unfold w2 in X; cbn [put w_tasks set_table] in X; destruct (Nat.eqb_spec i 0); [contradiction|];
    unfold w1 in X; cbn [put w_tasks] in X; destruct (Nat.eqb_spec i 0); [contradiction|discriminate X]|].
  split; [discriminate|]. intros h' w' H' R'. apply stuck_not_held. exact (stuck_history n _ w3 H S3 h' w' H' R').
Qed.

Lemma migrations_exclusive h w i j : history h w ->
  (forall s, In s h -> forall k, l_kind (w_tasks (fst s) k) = KMigrate -> waiting (l_phase (w_tasks (fst s) k)) = true ->
     w_now (fst s) - l_start (w_tasks (fst s) k) <= 60000) ->
  (forall s m, In s h -> snd s <> EReset m) ->
  holds_live w i migration_lock -> holds_live w j migration_lock -> i = j.
Proof.
  intros H PT NR. apply (live_exclusion h w migration_lock i j H).
  assert (F : Forall (fun s => patient (fst s)) h) by (apply Forall_forall; intros s Hs k; apply (PT s Hs k)).
  pose proof (patient_no_resets h w H F NR migration_lock) as Q. intros s Hs.
  pose proof (proj1 (forallb_forall _ _) Q s Hs) as X. now apply negb_true_iff.
Qed.

(** Whoever is running: a migration that has waited for more than a minute takes the lock. *)
Lemma takes_by_force w i j u : holds_live w i migration_lock -> i <> j -> l_kind (w_tasks w j) = KMigrate -> l_name (w_tasks w j) = migration_lock ->
  l_phase (w_tasks w j) = PSleeping u -> u <= w_now w -> 60000 < w_now w - l_start (w_tasks w j) ->
  exists w', runs w [EWake j; EExec j; EReply j; EExec j; EReply j] w' /\ holds_live w' i migration_lock /\ holds_live w' j migration_lock /\
    (forall k, k <> j -> w_tasks w' k = w_tasks w k).
Proof.
  intros [Hi Ni] NE K Nj P U L.
  eexists. split.
  - econstructor. { cbn [lstep]. rewrite P, K. destruct (N.ltb_spec (w_now w) u); [lia|]. unfold MIGRATE_PATIENCE. destruct (N.ltb_spec 60000 (w_now w - l_start (w_tasks w j))); [reflexivity|lia]. }
    econstructor. { cbn [lstep]. rewrite put_same. cbn [l_phase set_phase]. reflexivity. }
    econstructor. { cbn [lstep]. rewrite put_same. cbn [l_phase set_phase]. reflexivity. }
    econstructor. { cbn [lstep]. rewrite put_same. cbn [l_phase set_phase l_name]. cbn [put w_table set_table]. rewrite text_eqb_refl. reflexivity. }
    econstructor. { cbn [lstep]. rewrite put_same. cbn [l_phase set_phase]. reflexivity. }
    constructor.
  - assert (O : forall k, k <> j -> forall (w0 : world) t, w_tasks (put w0 j t) k = w_tasks w0 k) by (intros; now apply put_other).
    split; [|split].
    + unfold holds_live. rewrite O by exact NE. cbn [put set_table w_tasks]. destruct (Nat.eqb_spec i j) as [|_]; [contradiction|]. split; assumption.
    + unfold holds_live. rewrite put_same. cbn. split; [reflexivity|]. exact Nj.
    + intros k Hk. rewrite O by exact Hk. cbn [put set_table w_tasks]. destruct (Nat.eqb_spec k j); [contradiction|reflexivity].
Qed.
(** Two running: the first to finish drops the table of the other, and a third one gets in. *)
Lemma release_lets_a_third_in w i j k : holds_live w i migration_lock -> holds_live w j migration_lock -> i <> j -> k <> i -> k <> j ->
  l_phase (w_tasks w k) = PCreating -> l_name (w_tasks w k) = migration_lock ->
  exists w', runs w [ERelease i; EExec i; EExec k; EReply k] w' /\ holds_live w' j migration_lock /\ holds_live w' k migration_lock /\ ~ holds_live w' i migration_lock.
Proof.
  intros [Hi Ni] [Hj Nj] NE N1 N2 P Nk. eexists. split.
  - econstructor. { cbn [lstep]. rewrite Hi. reflexivity. }
    econstructor. { cbn [lstep]. rewrite put_same. cbn [l_phase set_phase]. reflexivity. }
    econstructor. { cbn [lstep]. rewrite put_other by exact N1. cbn [set_table w_tasks]. rewrite put_other by exact N1. rewrite P.
                    cbn [put w_table set_table l_name set_phase]. rewrite Ni, Nk, text_eqb_refl. reflexivity. }
    econstructor. { cbn [lstep]. rewrite put_same. cbn [l_phase set_phase]. reflexivity. }
    constructor.
  - assert (O : forall a b, a <> b -> forall (w0 : world) t, w_tasks (put w0 b t) a = w_tasks w0 a) by (intros; now apply put_other).
    unfold holds_live. split; [|split].
    + cbn. destruct (Nat.eqb_spec j k); [congruence|]. destruct (Nat.eqb_spec j i); [congruence|]. split; assumption.
    + cbn. rewrite !Nat.eqb_refl. cbn. split; [reflexivity|]. exact Nk.
    + cbn. destruct (Nat.eqb_spec i k); [congruence|]. rewrite Nat.eqb_refl. intros [X _]. discriminate X.
Qed.
