(** Property C35: adding progress reports. *)
From Coq Require Import Permutation.
From Verif Require Import Base Progress.

(* ---------- specification: exact totals ---------- *)
Definition total (f : progress -> N) (l : list progress) : N := fold_right N.add 0 (map f l).
Definition known (o : option N) : list N := match o with Some x => [x] | None => [] end.
(** A total over optional counters: [None] if no report carried the counter. *)
Definition total_opt (f : progress -> option N) (l : list progress) : option N :=
  match flat_map (fun p => known (f p)) l with [] => None | x => Some (fold_right N.add 0 x) end.
Definition totals (l : list progress) : progress :=
  {| read_rows := total read_rows l; read_bytes := total read_bytes l;
     new_total_rows_to_read := total new_total_rows_to_read l;
     new_written_rows := total_opt new_written_rows l; new_written_bytes := total_opt new_written_bytes l |}.
Definition opt_fits (o : option N) : bool := match o with Some x => x <? 2 ^ 64 | None => true end.
Definition fits_u64 (p : progress) : bool :=
  (read_rows p <? 2 ^ 64) && (read_bytes p <? 2 ^ 64) && (new_total_rows_to_read p <? 2 ^ 64)
  && opt_fits (new_written_rows p) && opt_fits (new_written_bytes p).

(* ---------- proofs ---------- *)
Definition plus_opt (a b : option N) : option N :=
  match a, b with Some a, Some b => Some (a + b) | Some a, None => Some a | None, Some b => Some b | None, None => None end.
Definition plus (a b : progress) : progress :=
  {| read_rows := read_rows a + read_rows b; read_bytes := read_bytes a + read_bytes b;
     new_total_rows_to_read := new_total_rows_to_read a + new_total_rows_to_read b;
     new_written_rows := plus_opt (new_written_rows a) (new_written_rows b);
     new_written_bytes := plus_opt (new_written_bytes a) (new_written_bytes b) |}.

Lemma sum_opt_spec a b : opt_fits a = true -> opt_fits b = true ->
  sum_opt a b = if opt_fits (plus_opt a b) then Ok (plus_opt a b) else Panic.
Proof.
  intros Ha Hb. destruct a as [a|], b as [b|]; cbn in *; try rewrite Ha; try rewrite Hb; try reflexivity.
  unfold add64. destruct (a + b <? 2 ^ 64); reflexivity.
Qed.
Lemma add_spec a b : fits_u64 a = true -> fits_u64 b = true ->
  progress_add a b = if fits_u64 (plus a b) then Ok (plus a b) else Panic.
Proof.
  intros Ha Hb. unfold fits_u64 in Ha, Hb. rewrite !andb_true_iff in Ha, Hb.
  unfold progress_add, fits_u64. cbn [plus read_rows read_bytes new_total_rows_to_read new_written_rows new_written_bytes].
  rewrite !sum_opt_spec by tauto. unfold add64.
  destruct (read_rows a + read_rows b <? 2 ^ 64); [|reflexivity]. cbn [rbind andb].
  destruct (read_bytes a + read_bytes b <? 2 ^ 64); [|reflexivity]. cbn [rbind andb].
  destruct (new_total_rows_to_read a + new_total_rows_to_read b <? 2 ^ 64); [|reflexivity]. cbn [rbind andb].
  destruct (opt_fits (plus_opt (new_written_rows a) _)); [|reflexivity]. cbn [rbind andb].
  destruct (opt_fits (plus_opt (new_written_bytes a) _)); reflexivity.
Qed.

Lemma plus_opt_comm a b : plus_opt a b = plus_opt b a.
Proof. destruct a, b; cbn; try reflexivity. f_equal. lia. Qed.
Lemma plus_opt_assoc a b c : plus_opt a (plus_opt b c) = plus_opt (plus_opt a b) c.
Proof. destruct a, b, c; cbn; try reflexivity. f_equal. lia. Qed.
Lemma plus_comm a b : plus a b = plus b a.
Proof. unfold plus. f_equal; try lia; apply plus_opt_comm. Qed.
Lemma plus_assoc a b c : plus a (plus b c) = plus (plus a b) c.
Proof. unfold plus. cbn [read_rows read_bytes new_total_rows_to_read new_written_rows new_written_bytes]. f_equal; try lia; apply plus_opt_assoc. Qed.

Lemma fits_opt_mono a b : opt_fits (plus_opt a b) = true -> opt_fits a = true.
Proof. destruct a, b; cbn; lia. Qed.
Lemma fits_mono a b : fits_u64 (plus a b) = true -> fits_u64 a = true.
Proof.
  unfold fits_u64. rewrite !andb_true_iff. cbn [plus read_rows read_bytes new_total_rows_to_read new_written_rows new_written_bytes].
  intros [[[[H1 H2] H3] H4] H5]. repeat split; try lia; eapply fits_opt_mono; eassumption.
Qed.

Lemma totals_cons p l : totals (p :: l) = plus p (totals l).
Proof.
  assert (O : forall f, total_opt f (p :: l) = plus_opt (f p) (total_opt f l)).
  { intros f. unfold total_opt. cbn [flat_map]. destruct (f p) as [x|]; cbn [known app plus_opt];
      destruct (flat_map (fun p0 => known (f p0)) l) as [|y r]; cbn [fold_right]; try reflexivity. f_equal. lia. }
  unfold totals, plus. cbn [read_rows read_bytes new_total_rows_to_read new_written_rows new_written_bytes].
  rewrite !O. reflexivity.
Qed.
Lemma plus_default_r p : plus p progress_default = p.
Proof.
  destruct p as [a b c d e]. unfold plus. cbn.  rewrite !N.add_0_r. destruct d, e; reflexivity.
Qed.

Lemma sum_spec l : forall acc, fits_u64 acc = true -> Forall (fun p => fits_u64 p = true) l ->
  progress_sum acc l = if fits_u64 (plus acc (totals l)) then Ok (plus acc (totals l)) else Panic.
Proof.
  induction l as [|p l IH]; intros acc Ha Hl.
  - cbn [progress_sum]. change (totals []) with progress_default. now rewrite plus_default_r, Ha.
  - inversion Hl; subst. cbn [progress_sum]. rewrite add_spec by assumption. rewrite totals_cons, plus_assoc.
    destruct (fits_u64 (plus acc p)) eqn:E; cbn [rbind]; [now apply IH|].
    destruct (fits_u64 (plus (plus acc p) (totals l))) eqn:E'; [|reflexivity]. apply fits_mono in E'. congruence.
Qed.
Lemma perm_totals l l' : Permutation l l' -> totals l = totals l'.
Proof.
  induction 1 as [|x l l' _ IH|x y l|l1 l2 l3 _ IH1 _ IH2].
  - reflexivity.
  - now rewrite !totals_cons, IH.
  - rewrite !totals_cons, !plus_assoc, (plus_comm y x). reflexivity.
  - congruence.
Qed.

(* ===================== C35 ===================== *)

(** Accumulating any reports gives their exact totals, or overflows exactly when a total
    does not fit in 64 bits. *)
Theorem C35_accumulation_is_sum : forall l, Forall (fun p => fits_u64 p = true) l ->
  progress_sum progress_default l = if fits_u64 (totals l) then Ok (totals l) else Panic.
Proof.
  intros l H. rewrite sum_spec by (reflexivity || assumption). now rewrite plus_comm, plus_default_r.
Qed.

(** The order of the reports is irrelevant. *)
Theorem C35_any_order : forall l l', Permutation l l' -> Forall (fun p => fits_u64 p = true) l ->
  progress_sum progress_default l = progress_sum progress_default l'.
Proof.
  intros l l' HP H. rewrite !C35_accumulation_is_sum; [now rewrite (perm_totals _ _ HP)| |exact H].
  eapply Permutation_Forall; eassumption.
Qed.

Theorem C35_commutative : forall a b, fits_u64 a = true -> fits_u64 b = true -> progress_add a b = progress_add b a.
Proof. intros a b Ha Hb. rewrite !add_spec by assumption. now rewrite plus_comm. Qed.

(** Associative, overflow included. *)
Theorem C35_associative : forall a b c, fits_u64 a = true -> fits_u64 b = true -> fits_u64 c = true ->
  (ab <- progress_add a b ;; progress_add ab c) = (bc <- progress_add b c ;; progress_add a bc).
Proof.
  intros a b c Ha Hb Hc. rewrite (add_spec a b), (add_spec b c) by assumption.
  destruct (fits_u64 (plus a b)) eqn:E1; cbn [rbind].
  - rewrite add_spec by assumption. destruct (fits_u64 (plus b c)) eqn:E2; cbn [rbind].
    + rewrite add_spec by assumption. now rewrite plus_assoc.
    + destruct (fits_u64 (plus (plus a b) c)) eqn:E3; [|reflexivity].
      rewrite <- plus_assoc, plus_comm in E3. apply fits_mono in E3. congruence.
  - destruct (fits_u64 (plus b c)) eqn:E2; cbn [rbind]; [|reflexivity]. rewrite add_spec by assumption.
    destruct (fits_u64 (plus a (plus b c))) eqn:E3; [|reflexivity]. rewrite plus_assoc in E3. apply fits_mono in E3. congruence.
Qed.

Theorem C35_identity : forall a, fits_u64 a = true ->
  progress_add a progress_default = Ok a /\ progress_add progress_default a = Ok a.
Proof.
  intros a Ha. rewrite (C35_commutative progress_default a) by (reflexivity || assumption).
  rewrite add_spec by (reflexivity || assumption). rewrite plus_default_r, Ha. now split.
Qed.

Example C35_nonvacuous :
  let a := {| read_rows := 1; read_bytes := 2; new_total_rows_to_read := 3; new_written_rows := None; new_written_bytes := Some 5 |} in
  let b := {| read_rows := 2 ^ 64 - 2; read_bytes := 7; new_total_rows_to_read := 0; new_written_rows := Some 1; new_written_bytes := Some 6 |} in
  Forall (fun p => fits_u64 p = true) [a; b; a] /\
  progress_sum progress_default [a; b] =
    Ok {| read_rows := 2 ^ 64 - 1; read_bytes := 9; new_total_rows_to_read := 3; new_written_rows := Some 1; new_written_bytes := Some 11 |} /\
  progress_sum progress_default [a; b; a] = Panic.
Proof. split; [repeat (apply Forall_cons || apply Forall_nil); reflexivity|]. split; reflexivity. Qed.

Print Assumptions C35_accumulation_is_sum.
Print Assumptions C35_any_order.
Print Assumptions C35_commutative.
Print Assumptions C35_associative.
Print Assumptions C35_identity.
