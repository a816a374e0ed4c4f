(** What the readers of varints and strings do on every input, not only on what the writers produce. *)
From Verif Require Import Base Io IoProofs.

(** The number that a sequence of octets of seven bits each denotes, least significant first. *)
Fixpoint digits (bs : list N) : N := match bs with [] => 0 | b :: t => b mod 128 + 128 * digits t end.
(** A varint: octets of 128 and more, then one below 128; or nine octets of 128 and more. *)
Definition varint_octets (bs : list N) : Prop :=
  exists init b, bs = init ++ [b] /\ Forall (fun c => 128 <= c) init /\ (List.length init <= 8)%nat /\ (128 <= b -> List.length init = 8%nat).

Lemma high_bit o : o < 256 -> (N.land o 128 =? 0) = (o <? 128).
Proof.
  intros H. assert (G : forall n, (n < 256)%nat -> (N.land (N.of_nat n) 128 =? 0) = (N.of_nat n <? 128)).
  { intros n Hn. assert (K : forallb (fun n => Bool.eqb (N.land (N.of_nat n) 128 =? 0) (N.of_nat n <? 128)) (seq 0 256) = true) by (vm_compute; reflexivity).
    apply Bool.eqb_prop. apply (proj1 (forallb_forall _ _) K). apply in_seq. lia. }
  rewrite <- (N2Nat.id o). apply G. lia.
Qed.

Lemma pow128 i : 2 ^ (7 * i) * 128 = 2 ^ (7 * (i + 1)).
Proof. change 128 with (2 ^ 7). rewrite <- N.pow_add_r. f_equal. lia. Qed.

Lemma read_go k : forall i out inp, bytes_ok inp -> out < 2 ^ (7 * i) -> (0 < k)%nat ->
  match read_var_uint_go k i out inp with
  | Ok (v, rest) => exists init b, inp = init ++ b :: rest /\ Forall (fun c => 128 <= c) init /\ (S (List.length init) <= k)%nat /\
      (128 <= b -> S (List.length init) = k) /\ v = out + 2 ^ (7 * i) * digits (init ++ [b])
  | Err e => e = EIo /\ (List.length inp < k)%nat /\ Forall (fun c => 128 <= c) inp
  | Panic => False
  end.
Proof.
  induction k as [|k IH]; intros i out inp B O K; [lia|]. cbn [read_var_uint_go]. destruct inp as [|o t]; [split; [reflexivity|]; split; [cbn; lia|constructor]|].
  assert (Ho : o < 256) by (inversion B; assumption). assert (Bt : bytes_ok t) by (inversion B; assumption).
  rewrite high_bit by exact Ho. rewrite land127, lor_shiftl_add by exact O. set (out' := out + _).
  assert (M : o mod 128 < 128) by (apply N.mod_lt; discriminate).
  assert (O' : out' < 2 ^ (7 * (i + 1))).
  { unfold out'. rewrite <- pow128. assert (P : 0 < 2 ^ (7 * i)) by (apply N.neq_0_lt_0, N.pow_nonzero; discriminate).
    revert O P M. generalize (2 ^ (7 * i)) (o mod 128). intros p m H1 H2 H3. nia. }
  destruct (N.ltb_spec o 128) as [L|L].
  - exists [], o. split; [reflexivity|]. split; [constructor|]. split; [cbn; lia|]. split; [lia|]. cbn [app digits]. unfold out'. ring.
  - destruct k as [|k].
    + cbn [read_var_uint_go]. exists [], o. split; [reflexivity|]. split; [constructor|]. split; [cbn; lia|]. split; [reflexivity|]. cbn [app digits]. unfold out'. ring.
    + specialize (IH (i + 1) out' t Bt O' ltac:(lia)). destruct (read_var_uint_go (S k) (i + 1) out' t) as [[v rest]|e|].
      * destruct IH as (init & b & -> & F & Le & Hb & ->). exists (o :: init), b. split; [reflexivity|]. split; [now constructor|].
        cbn [List.length]. split; [lia|]. split; [intros X; specialize (Hb X); lia|]. cbn [app digits]. rewrite <- pow128. unfold out'. ring.
      * destruct IH as (-> & Ln & F). split; [reflexivity|]. split; [cbn [List.length]; lia|now constructor].
      * exact IH.
Qed.

Lemma split_unique init b (rest : list N) init' b' rest' :
  init ++ b :: rest = init' ++ b' :: rest' -> Forall (fun c => 128 <= c) init -> Forall (fun c => 128 <= c) init' ->
  (List.length init <= 8)%nat -> (List.length init' <= 8)%nat -> (128 <= b -> List.length init = 8%nat) -> (128 <= b' -> List.length init' = 8%nat) ->
  init = init' /\ b = b' /\ rest = rest'.
Proof.
  revert init'. induction init as [|x init IH]; intros init' E F F' L L' H H'.
  - destruct init' as [|y init']; cbn [app] in E; [injection E as -> ->; auto|]. injection E as -> ->.
    inversion F'; subst. specialize (H ltac:(assumption)). discriminate H.
  - destruct init' as [|y init']; cbn [app] in E.
    + injection E as -> _. inversion F; subst. specialize (H' ltac:(assumption)). discriminate H'.
    + injection E as -> E. inversion F; subst. inversion F'; subst. cbn [List.length] in *.
      assert (G : forall init0 b0 rest0 init1 b1 rest1, init0 ++ b0 :: rest0 = init1 ++ b1 :: rest1 -> Forall (fun c => 128 <= c) init0 -> Forall (fun c => 128 <= c) init1 ->
        forall n, (List.length init0 <= n)%nat -> (List.length init1 <= n)%nat -> (128 <= b0 -> List.length init0 = n) -> (128 <= b1 -> List.length init1 = n) ->
        init0 = init1 /\ b0 = b1 /\ rest0 = rest1).
      { clear. induction init0 as [|x init0 IH]; intros b0 rest0 init1 b1 rest1 E F F' n L L' H H'.
        - destruct init1 as [|y init1]; cbn [app] in E; [injection E as -> ->; auto|]. injection E as -> ->.
          inversion F'; subst. specialize (H ltac:(assumption)). cbn in *. lia.
        - destruct init1 as [|y init1]; cbn [app] in E.
          + injection E as -> _. inversion F; subst. specialize (H' ltac:(assumption)). cbn in *. lia.
          + injection E as -> E. inversion F; subst. inversion F'; subst. cbn [List.length] in *. destruct n as [|n]; [lia|].
            destruct (IH b0 rest0 init1 b1 rest1 E ltac:(assumption) ltac:(assumption) n ltac:(lia) ltac:(lia)) as (-> & -> & ->).
            * intros X. specialize (H X). lia.
            * intros X. specialize (H' X). lia.
            * auto. }
      destruct (G init b rest init' b' rest' E ltac:(assumption) ltac:(assumption) 7%nat ltac:(lia) ltac:(lia)) as (-> & -> & ->).
      * intros X. specialize (H X). lia.
      * intros X. specialize (H' X). lia.
      * auto.
Qed.

Theorem read_var_uint_exact inp v rest : bytes_ok inp ->
  (read_var_uint inp = Ok (v, rest) <-> exists used, inp = used ++ rest /\ varint_octets used /\ v = digits used).
Proof.
  intros B. pose proof (read_go 9 0 0 inp B ltac:(reflexivity) ltac:(lia)) as R. fold (read_var_uint inp) in R.
  change (2 ^ (7 * 0)) with 1 in R. split.
  - intros E. change (read_var_uint_go 9 0 0 inp) with (read_var_uint inp) in R. rewrite E in R. destruct R as (init & b & -> & F & L & H & ->).
    exists (init ++ [b]). split; [now rewrite <- app_assoc|]. split; [|lia]. exists init, b. split; [reflexivity|]. split; [exact F|].
    split; [lia|]. intros X. specialize (H X). lia.
  - intros (used & -> & (init & b & -> & F & L & H) & ->).
    change (read_var_uint_go 9 0 0 ((init ++ [b]) ++ rest)) with (read_var_uint ((init ++ [b]) ++ rest)) in R.
    destruct (read_var_uint ((init ++ [b]) ++ rest)) as [[v' rest']|e|] eqn:E.
    + destruct R as (init' & b' & E' & F' & L' & H' & ->). rewrite <- app_assoc in E'. cbn [app] in E'.
      destruct (split_unique init b rest init' b' rest' E' F F') as (-> & -> & ->); [lia|lia|exact H|intros X; specialize (H' X); lia|].
      f_equal. f_equal. lia.
    + exfalso. destruct R as (_ & L2 & F2). rewrite !app_length in L2. cbn [List.length] in L2.
      apply Forall_app in F2 as [F2 _]. apply Forall_app in F2 as [_ F2]. inversion F2; subst. specialize (H ltac:(assumption)). lia.
    + destruct R.
Qed.
Theorem read_var_uint_short inp : bytes_ok inp ->
  (read_var_uint inp = Err EIo <-> (List.length inp < 9)%nat /\ Forall (fun c => 128 <= c) inp) /\
  ((exists v rest, read_var_uint inp = Ok (v, rest)) \/ read_var_uint inp = Err EIo).
Proof.
  intros B. pose proof (read_go 9 0 0 inp B ltac:(reflexivity) ltac:(lia)) as R.
  change (read_var_uint_go 9 0 0 inp) with (read_var_uint inp) in R. destruct (read_var_uint inp) as [[v rest]|e|].
  - split; [|left; eauto]. split; [discriminate|]. intros [L F]. exfalso. destruct R as (init & b & -> & _ & L' & H & _).
    apply Forall_app in F as [_ F]. inversion F; subst. specialize (H ltac:(assumption)). rewrite app_length in L. cbn [List.length] in L. lia.
  - destruct R as (-> & L & F). split; [|now right]. split; [auto|reflexivity].
  - destruct R.
Qed.

Theorem read_string_exact inp s rest :
  read_string inp = Ok (s, rest) <-> exists mid, read_var_uint inp = Ok (lenN s, mid) /\ lenN s <= 2 ^ 30 /\ mid = s ++ rest.
Proof.
  unfold read_string, rdbind. destruct (read_var_uint inp) as [[n mid]| |]; cbn [rbind]; try (split; [discriminate|intros (? & H & _); discriminate H]).
  unfold MAX_STRING_SIZE. destruct (N.ltb_spec (2 ^ 30) n) as [L|L].
  - split; [discriminate|]. intros (m & H & L2 & _). injection H as -> _. lia.
  - destruct (N.eqb_spec n 0) as [->|NZ].
    + split; [intros H; injection H as <- <-; exists mid; split; [reflexivity|]; split; [vm_compute; discriminate|reflexivity]|].
      intros (m & H & _ & ->). injection H as Z ->. symmetry in Z. apply lenN_0 in Z as ->. reflexivity.
    + split.
      * intros H. apply read_exact_ok in H as [-> <-]. exists (s ++ rest). split; [reflexivity|]. split; [exact L|reflexivity].
      * intros (m & H & _ & ->). injection H as -> ->. apply read_exact_app'. reflexivity.
Qed.
Theorem read_string_too_big inp n mid : read_var_uint inp = Ok (n, mid) -> 2 ^ 30 < n -> read_string inp = Err EProtocol.
Proof. intros E L. unfold read_string, rdbind. rewrite E. cbn [rbind]. unfold MAX_STRING_SIZE. destruct (N.ltb_spec (2 ^ 30) n); [reflexivity|lia]. Qed.
