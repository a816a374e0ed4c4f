(** Proofs about the calendar and the texts of dates, times and addresses. *)
From Coq Require Import String Lia.
From Verif Require Import Base Types Text Numeral NumeralProofs LiteralSpec Calendar CalendarSpec.
Local Open Scope list_scope.
Local Open Scope N_scope.

(* ---------------- padded numbers ---------------- *)
Lemma pad_length k n : length (pad k n) = k.
Proof. induction k as [|k IH]; [reflexivity|]. cbn [pad length]. now rewrite IH. Qed.
Lemma pad_digits k n : Forall (fun c => is_digit c = true) (pad k n).
Proof.
  induction k as [|k IH]; constructor; [|exact IH]. apply is_digit_48. apply N.mod_lt. discriminate.
Qed.
Lemma pad_val k : forall n a, digits_val a (pad k n) = Some (a * 10 ^ N.of_nat k + n mod 10 ^ N.of_nat k).
Proof.
  induction k as [|k IH]; intros n a; cbn [pad digits_val].
  - change (10 ^ N.of_nat 0) with 1. rewrite N.mod_1_r. f_equal. lia.
  - rewrite is_digit_48 by (apply N.mod_lt; discriminate). rewrite IH. f_equal.
    rewrite (N.add_comm 48), N.add_sub.
    rewrite Nat2N.inj_succ, N.pow_succ_r'.
    assert (P : 10 ^ N.of_nat k <> 0) by (apply N.pow_nonzero; discriminate).
    rewrite (N.mul_comm 10 (10 ^ N.of_nat k)), N.mod_mul_r by (assumption || discriminate). generalize (n mod 10 ^ N.of_nat k). generalize (n / 10 ^ N.of_nat k mod 10).
    generalize (10 ^ N.of_nat k). intros. ring.
Qed.
Lemma pad_spec k n : (0 < k)%nat -> n < 10 ^ N.of_nat k -> digits k (pad k n) n.
Proof.
  intros K B. split; [apply pad_length|]. apply parse_digits_iff. unfold parse_digits.
  assert (E : digits_val 0 (pad k n) = Some n). { rewrite pad_val. f_equal. rewrite N.mod_small by exact B. lia. }
  destruct k as [|k]; [lia|]. exact E.
Qed.
Lemma pad2 n : n < 100 -> digits 2 (pad 2 n) n.
Proof. intros H. apply pad_spec; [lia|exact H]. Qed.

(* ---------------- the calendar ---------------- *)
Definition dby (y : Z) : Z := (365 * (y - 1) + (y - 1) / 4 - (y - 1) / 100 + (y - 1) / 400)%Z.
Definition yearlen (y : Z) : Z := (if leap y then 366 else 365)%Z.

Lemma leap_spec y : leap y = true <-> leap_year y.
Proof. unfold leap, leap_year. rewrite andb_true_iff, orb_true_iff, negb_true_iff, Z.eqb_eq, Z.eqb_neq, Z.eqb_eq. tauto. Qed.

Lemma parts_div a b c e : (0 <= b <= 3 -> 0 <= c <= 24 -> 0 <= e <= 3 ->
  (400 * a + 100 * b + 4 * c + e) / 4 = 100 * a + 25 * b + c /\
  (400 * a + 100 * b + 4 * c + e) / 100 = 4 * a + b /\ (400 * a + 100 * b + 4 * c + e) / 400 = a)%Z.
Proof.
  intros B C E. repeat split; symmetry.
  - apply (Z.div_unique _ _ _ e); lia.
  - apply (Z.div_unique _ _ _ (4 * c + e)); lia.
  - apply (Z.div_unique _ _ _ (100 * b + 4 * c + e)); lia.
Qed.
Lemma dby_next y : dby (y + 1) = (dby y + yearlen y)%Z.
Proof.
  unfold dby, yearlen, leap. replace (y + 1 - 1)%Z with y by lia.
  assert (S : forall k, (1 < k -> y / k = (y - 1) / k + (if y mod k =? 0 then 1 else 0))%Z).
  { intros k K. pose proof (Z.div_mod y k ltac:(lia)) as D. pose proof (Z.mod_pos_bound y k ltac:(lia)) as M. destruct (Z.eqb_spec (y mod k) 0) as [Z0|Z0].
    - assert (E : ((y - 1) / k = y / k - 1)%Z) by (symmetry; apply (Z.div_unique _ _ _ (k - 1)); lia). lia.
    - assert (E : ((y - 1) / k = y / k)%Z) by (symmetry; apply (Z.div_unique _ _ _ (y mod k - 1)); lia). lia. }
  rewrite (S 4%Z), (S 100%Z), (S 400%Z) by lia.
  assert (M4 : (y mod 100 = 0 -> y mod 4 = 0)%Z).
  { intros H. pose proof (Z.div_mod y 100 ltac:(lia)). symmetry. apply (Z.mod_unique _ _ (25 * (y / 100))); lia. }
  assert (M100 : (y mod 400 = 0 -> y mod 100 = 0)%Z).
  { intros H. pose proof (Z.div_mod y 400 ltac:(lia)). symmetry. apply (Z.mod_unique _ _ (4 * (y / 400))); lia. }
  destruct (Z.eqb_spec (y mod 4) 0), (Z.eqb_spec (y mod 100) 0), (Z.eqb_spec (y mod 400) 0); cbn [andb orb negb]; try lia; exfalso; auto.
Qed.
Lemma yearlen_pos y : (365 <= yearlen y <= 366)%Z.
Proof. unfold yearlen. destruct (leap y); lia. Qed.
Lemma dby_mono y k : (0 <= k -> dby y + 365 * k <= dby (y + k))%Z.
Proof.
  intros H. revert k H. apply natlike_ind; [replace (y + 0)%Z with y by lia; lia|]. intros k K IH.
  replace (y + Z.succ k)%Z with (y + k + 1)%Z by lia. rewrite dby_next. pose proof (yearlen_pos (y + k)). lia.
Qed.
Lemma dby_unique y d y' d' : (0 <= d < yearlen y -> 0 <= d' < yearlen y' -> dby y + d = dby y' + d' -> y = y' /\ d = d')%Z.
Proof.
  intros D D' E. destruct (Z.lt_trichotomy y y') as [L|[->|L]]; [exfalso|split; lia|exfalso].
  - pose proof (dby_mono (y + 1) (y' - (y + 1)) ltac:(lia)) as M. replace (y + 1 + (y' - (y + 1)))%Z with y' in M by lia. rewrite dby_next in M. lia.
  - pose proof (dby_mono (y' + 1) (y - (y' + 1)) ltac:(lia)) as M. replace (y' + 1 + (y - (y' + 1)))%Z with y in M by lia. rewrite dby_next in M. lia.
Qed.

Lemma year_day_spec n y d : year_day n = (y, d) -> (dby y + d = n /\ 0 <= d < yearlen y)%Z.
Proof.
  unfold year_day. set (a := (n / 146097)%Z). set (r400 := (n mod 146097)%Z).
  assert (N : (n = 146097 * a + r400)%Z) by (apply Z.div_mod; lia). assert (R : (0 <= r400 < 146097)%Z) by (apply Z.mod_pos_bound; lia).
  set (b := Z.min (r400 / 36524) 3). set (r100 := (r400 - 36524 * b)%Z).
  assert (B : (0 <= b <= 3 /\ 0 <= r100 <= 36524 /\ (b < 3 -> r100 < 36524))%Z).
  { pose proof (Z.div_mod r400 36524 ltac:(lia)). pose proof (Z.mod_pos_bound r400 36524 ltac:(lia)). unfold r100, b. lia. }
  set (c := (r100 / 1461)%Z). set (r4 := (r100 mod 1461)%Z).
  assert (C : (r100 = 1461 * c + r4)%Z) by (apply Z.div_mod; lia). assert (R4 : (0 <= r4 < 1461)%Z) by (apply Z.mod_pos_bound; lia).
  set (e := Z.min (r4 / 365) 3).
  assert (E : (0 <= e <= 3 /\ 0 <= r4 - 365 * e <= 365 /\ (e < 3 -> r4 - 365 * e < 365))%Z).
  { pose proof (Z.div_mod r4 365 ltac:(lia)). pose proof (Z.mod_pos_bound r4 365 ltac:(lia)). unfold e. lia. }
  assert (C24 : (0 <= c <= 24)%Z) by lia.
  intros H. injection H as <- <-. destruct (parts_div a b c e ltac:(lia) ltac:(lia) ltac:(lia)) as (P4 & P100 & P400).
  split.
  - unfold dby. replace (400 * a + 100 * b + 4 * c + e + 1 - 1)%Z with (400 * a + 100 * b + 4 * c + e)%Z by lia. rewrite P4, P100, P400. unfold r100 in C. lia.
  - split; [lia|]. destruct (Z.eq_dec (r4 - 365 * e) 365) as [F|F]; [|pose proof (yearlen_pos (400 * a + 100 * b + 4 * c + e + 1)); lia].
    assert (e = 3)%Z as E3 by lia. unfold yearlen. replace (leap _) with true; [lia|]. symmetry. apply leap_spec. unfold leap_year. rewrite E3.
    replace (400 * a + 100 * b + 4 * c + 3 + 1)%Z with (4 * (100 * a + 25 * b + c + 1))%Z by lia. split.
    + rewrite Z.mul_comm. apply Z.mod_mul. lia.
    + destruct (Z.eq_dec c 24) as [->|C0].
      * right. assert (b = 3)%Z as -> by lia. replace (4 * (100 * a + 25 * 3 + 24 + 1))%Z with ((a + 1) * 400)%Z by lia. apply Z.mod_mul. lia.
      * left. replace (4 * (100 * a + 25 * b + c + 1))%Z with ((4 * a + b) * 100 + 4 * (c + 1))%Z by lia.
        rewrite Z.add_comm, Z.mod_add by lia. rewrite Z.mod_small by lia. lia.
Qed.

(** Within a year, by computation: there are two kinds of years. *)
Definition lens (b : bool) : list N := [31; if b then 29 else 28; 31; 30; 31; 30; 31; 31; 30; 31; 30; 31].
Definition before (b : bool) (m : N) : N := fold_left N.add (firstn (N.to_nat (m - 1)) (lens b)) 0.
Definition len (b : bool) (m : N) : N := nth (N.to_nat (m - 1)) (lens b) 0.
Definition upto (n : nat) : list N := map N.of_nat (seq 0 n).
Lemma in_upto n k : k < N.of_nat n -> In k (upto n).
Proof. intros H. apply in_map_iff. exists (N.to_nat k). split; [lia|]. apply in_seq. lia. Qed.
Definition check_day (b : bool) (d : N) : bool :=
  let (m, dd) := month_day (lens b) 1 d in
  (1 <=? m) && (m <=? 12) && (1 <=? dd) && (dd <=? len b m) && (before b m + dd - 1 =? d).
Lemma check_days : forallb (fun b => forallb (check_day b) (upto (if b then 366 else 365))) [true; false] = true.
Proof. vm_compute. reflexivity. Qed.
Definition check_date (b : bool) (m dd : N) : bool :=
  if (1 <=? m) && (1 <=? dd) && (dd <=? len b m) then
    let (m', d') := month_day (lens b) 1 (before b m + dd - 1) in (m' =? m) && (d' =? dd) && (before b m + dd - 1 <? (if b then 366 else 365))
  else true.
Lemma check_dates : forallb (fun b => forallb (fun m => forallb (check_date b m) (upto 32)) (upto 13)) [true; false] = true.
Proof. vm_compute. reflexivity. Qed.

Lemma has_len y m n : month_has y m n <-> 1 <= m <= 12 /\ n = len (leap y) m.
Proof.
  split.
  - intros H. destruct H as [m H|m H|H|H].
    + cbn [In] in H. repeat destruct H as [<-|H]; try contradiction; (split; [lia|]); destruct (leap y); reflexivity.
    + cbn [In] in H. repeat destruct H as [<-|H]; try contradiction; (split; [lia|]); destruct (leap y); reflexivity.
    + apply leap_spec in H. rewrite H. split; [lia|reflexivity].
    + rewrite <- leap_spec in H. destruct (leap y); [now elim H|]. split; [lia|reflexivity].
  - intros [B ->]. assert (M : In m (upto 13)) by (apply in_upto; lia). change (upto 13) with [0; 1; 2; 3; 4; 5; 6; 7; 8; 9; 10; 11; 12] in M. cbn [In] in M.
    repeat destruct M as [<-|M]; try contradiction; try lia;
      try (replace (len (leap y) _) with 31 by (destruct (leap y); reflexivity); apply mh_31; cbn [In]; tauto);
      try (replace (len (leap y) _) with 30 by (destruct (leap y); reflexivity); apply mh_30; cbn [In]; tauto).
    destruct (leap y) eqn:L.
    + apply mh_29. now apply leap_spec.
    + apply mh_28. rewrite <- leap_spec. congruence.
Qed.
Lemma len_bound b m : len b m <= 31.
Proof.
  unfold len. destruct (Nat.lt_ge_cases (N.to_nat (m - 1)) 12) as [L|L].
  - assert (I : In (N.to_nat (m - 1)) (seq 0 12)) by (apply in_seq; lia). remember (N.to_nat (m - 1)) as k. clear -I. cbn in I. repeat destruct I as [<-|I]; try contradiction; destruct b; cbn; lia.
  - rewrite nth_overflow; [lia|]. destruct b; exact L.
Qed.

Definition day_num (t : date) : Z := let '(y, m, d) := t in (dby y + Z.of_N (before (leap y) m + d - 1) - 719162)%Z.

Lemma civil_spec n : valid_date (civil n) /\ day_num (civil n) = n.
Proof.
  unfold civil. destruct (year_day (n + 719162)) as [y d] eqn:E. apply year_day_spec in E as [S B].
  pose proof check_days as C. cbn [forallb] in C. rewrite !andb_true_iff in C. destruct C as (C1 & C2 & _).
  assert (K : check_day (leap y) (Z.to_N d) = true).
  { unfold yearlen in B. destruct (leap y).
    - apply (proj1 (forallb_forall _ _) C1). apply in_upto. lia.
    - apply (proj1 (forallb_forall _ _) C2). apply in_upto. lia. }
  unfold check_day in K. change (month_lengths y) with (lens (leap y)). destruct (month_day (lens (leap y)) 1 (Z.to_N d)) as [m dd].
  rewrite !andb_true_iff, !N.leb_le, N.eqb_eq in K. destruct K as ((((M1 & M2) & D1) & D2) & Q). split.
  - exists (len (leap y) m). split; [apply has_len; lia|lia].
  - unfold day_num. rewrite Q. lia.
Qed.
Lemma valid_bounds y m d : valid_date (y, m, d) -> 1 <= m <= 12 /\ 1 <= d <= len (leap y) m.
Proof. intros (n & H & B). apply has_len in H as [M ->]. auto. Qed.
Lemma civil_num t : valid_date t -> civil (day_num t) = t.
Proof.
  destruct t as [[y m] d]. intros V. apply valid_bounds in V as [M D]. unfold civil, day_num.
  replace (dby y + Z.of_N (before (leap y) m + d - 1) - 719162 + 719162)%Z with (dby y + Z.of_N (before (leap y) m + d - 1))%Z by lia.
  pose proof check_dates as C. cbn [forallb] in C. rewrite !andb_true_iff in C. destruct C as (C1 & C2 & _).
  assert (K : check_date (leap y) m d = true).
  { pose proof (len_bound (leap y) m). destruct (leap y).
    - apply (proj1 (forallb_forall _ _) (proj1 (forallb_forall _ _) C1 m (in_upto 13 m ltac:(lia)))). apply in_upto. lia.
    - apply (proj1 (forallb_forall _ _) (proj1 (forallb_forall _ _) C2 m (in_upto 13 m ltac:(lia)))). apply in_upto. lia. }
  unfold check_date in K. replace ((1 <=? m) && (1 <=? d) && (d <=? len (leap y) m)) with true in K by lia.
  set (k := before (leap y) m + d - 1) in *. destruct (year_day (dby y + Z.of_N k)) as [y' d'] eqn:E. apply year_day_spec in E as [S B].
  assert (KL : k < (if leap y then 366 else 365)). { destruct (month_day (lens (leap y)) 1 k). rewrite !andb_true_iff in K. lia. }
  assert (U : y' = y /\ d' = Z.of_N k). { apply (dby_unique y' d' y (Z.of_N k)); [exact B| |exact S]. unfold yearlen. destruct (leap y); lia. }
  destruct U as [-> ->]. rewrite N2Z.id. change (month_lengths y) with (lens (leap y)). destruct (month_day (lens (leap y)) 1 k) as [m' d'].
  rewrite !andb_true_iff, !N.eqb_eq in K. destruct K as ((-> & ->) & _). reflexivity.
Qed.
Lemma before_next b m : 1 <= m < 12 -> before b (m + 1) = before b m + len b m.
Proof.
  intros M. assert (I : In m (upto 12)) by (apply in_upto; lia). change (upto 12) with [0; 1; 2; 3; 4; 5; 6; 7; 8; 9; 10; 11] in I. cbn [In] in I.
  repeat destruct I as [<-|I]; try contradiction; try lia; destruct b; reflexivity.
Qed.
Lemma next_num t t' : valid_date t -> next_day t t' -> valid_date t' /\ day_num t' = (day_num t + 1)%Z.
Proof.
  intros V H. destruct H as [y m d n L D|y m d L M|y].
  - apply has_len in L as [M ->]. apply valid_bounds in V as [_ V]. split.
    + exists (len (leap y) m). split; [now apply has_len|lia].
    + unfold day_num. lia.
  - apply has_len in L as [M' L]. split.
    + exists (len (leap y) (m + 1)). split; [apply has_len; lia|].
      assert (I : In m (upto 12)) by (apply in_upto; lia). change (upto 12) with [0; 1; 2; 3; 4; 5; 6; 7; 8; 9; 10; 11] in I. cbn [In] in I. clear L V.
      split; [lia|]. repeat destruct I as [<-|I]; try contradiction; try lia; destruct (leap y); vm_compute; discriminate.
    + unfold day_num. rewrite before_next by lia. apply valid_bounds in V as [_ V]. lia.
  - split.
    + exists 31. split; [apply mh_31; cbn; tauto|lia].
    + unfold day_num. rewrite dby_next. unfold yearlen. destruct (leap y), (leap (y + 1)); vm_compute before; lia.
Qed.
Lemma next_exists t : valid_date t -> exists t', next_day t t'.
Proof.
  destruct t as [[y m] d]. intros (n & L & B). destruct (N.lt_ge_cases d n) as [D|D]; [eexists; now apply (nd_day y m d n)|].
  assert (d = n) as -> by lia. pose proof (proj1 (has_len _ _ _) L) as [M E]. destruct (N.lt_ge_cases m 12) as [M'|M']; [eexists; now apply nd_month|].
  assert (m = 12) as -> by lia. subst n. replace (len (leap y) 12) with 31 by (destruct (leap y); reflexivity). eexists. apply nd_year.
Qed.

Theorem day_civil n t : day n t <-> civil n = t.
Proof.
  split.
  - intros H. assert (K : valid_date t /\ day_num t = n).
    { induction H as [|n t t' _ [V E] N|n t t' _ [V E] V' N].
      - split; [exists 31; split; [apply mh_31; cbn; tauto|lia]|vm_compute; reflexivity].
      - apply (next_num t t' V) in N as [V' E']. split; [exact V'|lia].
      - apply (next_num t' t V') in N as [_ E']. split; [exact V'|lia]. }
    destruct K as [V <-]. now apply civil_num.
  - intros <-. assert (Up : forall k, (0 <= k)%Z -> day k (civil k)).
    { apply natlike_ind; [replace (civil 0) with (1970%Z, 1, 1) by (vm_compute; reflexivity); constructor|].
      intros k K IH. change (Z.succ k) with (k + 1)%Z. destruct (civil_spec k) as [V E]. destruct (next_exists _ V) as (t' & N).
      destruct (next_num _ _ V N) as [V' E']. apply (day_after _ _ _ IH). replace (civil (k + 1)) with t'; [exact N|].
      rewrite <- (civil_num t' V'). f_equal. lia. }
    destruct (Z.le_gt_cases 0 n) as [P|P]; [now apply Up|].
    assert (Down : forall k, (0 <= k)%Z -> day (- k) (civil (- k))).
    { apply natlike_ind; [apply (Up 0%Z); lia|]. intros k K IH. replace (- Z.succ k)%Z with (- k - 1)%Z by lia.
      destruct (civil_spec (- k - 1)) as [V E]. destruct (next_exists _ V) as (t' & N). destruct (next_num _ _ V N) as [V' E'].
      apply (day_before _ _ _ IH V). replace (civil (- k)) with t'; [exact N|]. rewrite <- (civil_num t' V'). f_equal. lia. }
    replace n with (- (- n))%Z by lia. apply Down. lia.
Qed.

Lemma civil_year n y m d : civil n = (y, m, d) -> (-719528 <= n < 2932897)%Z -> (0 <= y <= 9999)%Z /\ 1 <= m <= 12 /\ 1 <= d <= 31.
Proof.
  intros E B. destruct (civil_spec n) as [V S]. rewrite E in V, S. apply valid_bounds in V as [M D]. pose proof (len_bound (leap y) m) as L.
  split; [|lia]. pose proof (civil_num (y, m, d)) as U. unfold day_num in S. unfold civil in E.
  destruct (year_day (n + 719162)) as [y' d'] eqn:Y. apply year_day_spec in Y as [Y1 Y2]. destruct (month_day _ _ _). injection E as -> _ _.
  split.
  - destruct (Z.le_gt_cases 0 y) as [P|P]; [exact P|exfalso]. pose proof (dby_mono (y + 1) (0 - (y + 1)) ltac:(lia)) as Mo.
    replace (y + 1 + (0 - (y + 1)))%Z with 0%Z in Mo by lia. rewrite dby_next in Mo. change (dby 0) with (-366)%Z in Mo. lia.
  - destruct (Z.le_gt_cases y 9999) as [P|P]; [exact P|exfalso]. pose proof (dby_mono 10000 (y - 10000) ltac:(lia)) as Mo.
    replace (10000 + (y - 10000))%Z with y in Mo by lia. change (dby 10000) with 3652059%Z in Mo. lia.
Qed.

Theorem date_text_spec n : n < 65536 -> date_expression (date_text n) (Z.of_N n).
Proof.
  intros B. unfold date_text. destruct (civil (Z.of_N n)) as [[y m] d] eqn:E.
  destruct (civil_year _ _ _ _ E ltac:(lia)) as (Y & M & D).
  exists (pad 4 (Z.to_N y)), (pad 2 m), (pad 2 d), (Z.to_N y), m, d.
  split; [apply pad_spec; [lia|change (10 ^ N.of_nat 4) with 10000; lia]|]. split; [apply pad2; lia|]. split; [apply pad2; lia|]. split; [reflexivity|].
  apply day_civil. rewrite E. now rewrite Z2N.id by lia.
Qed.

(* ---------------- RFC 3339 ---------------- *)
Lemma fraction_spec n : n < 10 ^ 9 -> fraction (fraction_text n) n.
Proof.
  intros B. unfold fraction_text. change (10 ^ 9) with 1000000000 in B. destruct (N.eqb_spec n 0) as [->|Z0]; [constructor|].
  destruct (N.eqb_spec (n mod 1000000) 0) as [E|E].
  { pose proof (N.div_mod n 1000000 ltac:(discriminate)) as D. rewrite E in D.
    replace n with (n / 1000000 * 10 ^ (9 - N.of_nat 3)) at 2 by (change (10 ^ (9 - N.of_nat 3)) with 1000000; lia).
    apply fr_some; [lia|]. apply pad_spec; [lia|]. change (10 ^ N.of_nat 3) with 1000. apply N.div_lt_upper_bound; lia. }
  destruct (N.eqb_spec (n mod 1000) 0) as [E'|E'].
  { pose proof (N.div_mod n 1000 ltac:(discriminate)) as D. rewrite E' in D.
    replace n with (n / 1000 * 10 ^ (9 - N.of_nat 6)) at 2 by (change (10 ^ (9 - N.of_nat 6)) with 1000; lia).
    apply fr_some; [lia|]. apply pad_spec; [lia|]. change (10 ^ N.of_nat 6) with 1000000. apply N.div_lt_upper_bound; lia. }
  replace n with (n * 10 ^ (9 - N.of_nat 9)) at 2 by (change (10 ^ (9 - N.of_nat 9)) with 1; lia).
  apply fr_some; [lia|]. apply pad_spec; [lia|]. change (10 ^ N.of_nat 9) with 1000000000. exact B.
Qed.
(** The offset as it is written: to the nearest minute. *)
Definition rounded (off : Z) : Z := (Z.sgn off * (60 * ((Z.abs off + 30) / 60)))%Z.
Lemma offset_spec uz off : (Z.abs off < 86370)%Z -> zone (offset_text uz off) (rounded off).
Proof.
  intros B. unfold offset_text, rounded. destruct (uz && _) eqn:Z0; [apply andb_true_iff in Z0 as [_ Z0]; apply Z.eqb_eq in Z0 as ->; constructor|].
  set (k := (Z.abs_N off + 30) / 60).
  assert (K : Z.of_N k = ((Z.abs off + 30) / 60)%Z). { unfold k. rewrite N2Z.inj_div, N2Z.inj_add, N2Z.inj_abs_N. reflexivity. }
  assert (KB : k < 1440) by (apply N.div_lt_upper_bound; lia). rewrite <- K.
  assert (H : k / 60 < 24) by (apply N.div_lt_upper_bound; lia). assert (M : k mod 60 < 60) by (apply N.mod_lt; discriminate).
  assert (E : k / 60 * 3600 + k mod 60 * 60 = 60 * k). { pose proof (N.div_mod k 60 ltac:(discriminate)). lia. }
  destruct (Z.ltb_spec off 0) as [L|L].
  - replace (Z.sgn off * (60 * Z.of_N k))%Z with (- Z.of_N (k / 60 * 3600 + k mod 60 * 60))%Z by (rewrite E, Z.sgn_neg by exact L; lia).
    apply (zn_west (pad 2 (k / 60)) (pad 2 (k mod 60))); auto; apply pad2; lia.
  - replace (Z.sgn off * (60 * Z.of_N k))%Z with (Z.of_N (k / 60 * 3600 + k mod 60 * 60))%Z by (rewrite E; destruct (Z.sgn_spec off) as [[P ->]|[[P ->]|[P ->]]]; [lia|subst off; rewrite K; reflexivity|lia]).
    apply (zn_east (pad 2 (k / 60)) (pad 2 (k mod 60))); auto; apply pad2; lia.
Qed.
Lemma rounded_minutes off : (off mod 60 = 0)%Z -> rounded off = off.
Proof.
  intros M. unfold rounded. assert (A : (Z.abs off mod 60 = 0)%Z).
  { apply Z.mod_divide in M; [|lia]. apply Z.mod_divide; [lia|]. now apply Z.divide_abs_r. }
  pose proof (Z.div_mod (Z.abs off) 60 ltac:(lia)) as D. rewrite A in D.
  replace ((Z.abs off + 30) / 60)%Z with (Z.abs off / 60)%Z by (apply (Z.div_unique _ _ _ 30); lia).
  destruct (Z.sgn_spec off) as [[P ->]|[[P ->]|[P ->]]]; lia.
Qed.

Theorem rfc3339_opts_spec uz off secs nanos : (Z.abs off < 86370)%Z -> (0 <= secs)%Z -> (secs + off <= LAST_SECOND)%Z -> nanos < 10 ^ 9 ->
  instant_text (rfc3339_opts uz off secs nanos) (secs + off - rounded off) nanos.
Proof.
  intros O S L Nn. unfold rfc3339_opts, LAST_SECOND in *. set (local := (secs + off)%Z) in *. destruct (civil (local / 86400)) as [[y m] d] eqn:E.
  pose proof (Z.div_mod local 86400 ltac:(lia)) as D. pose proof (Z.mod_pos_bound local 86400 ltac:(lia)) as R.
  assert (B : (-719528 <= local / 86400 < 2932897)%Z) by lia.
  destruct (civil_year _ _ _ _ E B) as (Y & M & Dd). set (sod := Z.to_N (local mod 86400)). assert (SB : sod < 86400) by lia.
  exists (pad 4 (Z.to_N y)), (pad 2 m), (pad 2 d), (pad 2 (sod / 3600)), (pad 2 (sod / 60 mod 60)), (pad 2 (sod mod 60)), (fraction_text nanos), (offset_text uz off),
    (Z.to_N y), m, d, (sod / 3600), (sod / 60 mod 60), (sod mod 60), (local / 86400)%Z, (rounded off).
  assert (H : sod / 3600 < 24) by (apply N.div_lt_upper_bound; lia).
  assert (Mi : sod / 60 mod 60 < 60) by (apply N.mod_lt; discriminate). assert (Se : sod mod 60 < 60) by (apply N.mod_lt; discriminate).
  split; [apply pad_spec; [lia|change (10 ^ N.of_nat 4) with 10000; lia]|]. do 5 (split; [apply pad2; lia|]).
  split; [apply day_civil; rewrite E; now rewrite Z2N.id by lia|]. split; [exact H|]. split; [exact Mi|]. split; [exact Se|].
  split; [now apply fraction_spec|]. split; [now apply offset_spec|]. split.
  - unfold year_text. replace ((0 <=? y) && (y <=? 9999))%Z with true by lia. reflexivity.
  - assert (T : sod = sod / 3600 * 3600 + sod / 60 mod 60 * 60 + sod mod 60).
    { pose proof (N.div_mod sod 60 ltac:(discriminate)) as D1. pose proof (N.div_mod (sod / 60) 60 ltac:(discriminate)) as D2.
      rewrite N.div_div in D2 by discriminate. change (60 * 60) with 3600 in D2. lia. }
    assert (Ts : Z.of_N sod = (local mod 86400)%Z) by (unfold sod; apply Z2N.id; lia). lia.
Qed.

Theorem rfc3339_spec off secs nanos : (Z.abs off < 86370)%Z -> (0 <= secs)%Z -> (secs + off <= LAST_SECOND)%Z -> nanos < 10 ^ 9 ->
  instant_text (rfc3339 off secs nanos) (secs + off - rounded off) nanos.
Proof. apply rfc3339_opts_spec. Qed.
Theorem iso_date_spec n : n < 65536 -> date_text_iso (iso_date n) (Z.of_N n).
Proof.
  intros B. unfold iso_date. destruct (civil (Z.of_N n)) as [[y m] d] eqn:E.
  destruct (civil_year _ _ _ _ E ltac:(lia)) as (Y & M & D).
  exists (pad 4 (Z.to_N y)), (pad 2 m), (pad 2 d), (Z.to_N y), m, d.
  split; [apply pad_spec; [lia|change (10 ^ N.of_nat 4) with 10000; lia]|]. split; [apply pad2; lia|]. split; [apply pad2; lia|]. split.
  - unfold year_text. replace ((0 <=? y) && (y <=? 9999))%Z with true by lia. reflexivity.
  - apply day_civil. rewrite E. now rewrite Z2N.id by lia.
Qed.

(* ---------------- a text means one instant ---------------- *)
Lemma digits_all k s n : digits k s n -> Forall (fun c => is_digit c = true) s.
Proof.
  intros [_ P]. apply parse_digits_iff in P. unfold parse_digits in P. destruct s as [|c s]; [discriminate|]. revert P. generalize (c :: s). clear. intros l. generalize 0.
  induction l as [|c l IH]; intros a H; [constructor|]. cbn [digits_val] in H. destruct (is_digit c) eqn:E; [|discriminate]. constructor; [exact E|]. exact (IH _ H).
Qed.
Lemma digits_fun k s n m : digits k s n -> digits k s m -> n = m.
Proof. intros [_ A] [_ B]. apply parse_digits_iff in A, B. congruence. Qed.
Lemma app_inj_len (A : Type) (a b c d : list A) : length a = length b -> a ++ c = b ++ d -> a = b /\ c = d.
Proof.
  revert b. induction a as [|x a IH]; intros [|y b] L E; try discriminate; [auto|]. cbn [app] in E. injection E as -> E. injection L as L.
  destruct (IH b L E) as [-> ->]. auto.
Qed.
Lemma digits_split k s n s' n' r r' : digits k s n -> digits k s' n' -> s ++ r = s' ++ r' -> s = s' /\ n = n' /\ r = r'.
Proof.
  intros A B E. assert (L : length s = length s') by (destruct A as [-> _]; destruct B as [-> _]; reflexivity).
  apply app_inj_len in E; [|exact L]. destruct E as [-> ->]. split; [reflexivity|]. split; [|reflexivity]. now apply (digits_fun k s').
Qed.
Definition head_not_digit (t : text) : Prop := match t with c :: _ => is_digit c = false | [] => True end.
Lemma digit_run a : forall a' b b', Forall (fun c => is_digit c = true) a -> Forall (fun c => is_digit c = true) a' ->
  head_not_digit b -> head_not_digit b' -> a ++ b = a' ++ b' -> a = a' /\ b = b'.
Proof.
  induction a as [|c a IH]; intros a' b b' A A' B B' E; destruct a' as [|c' a'].
  - auto.
  - cbn [app] in E. subst b. inversion A'; subst. cbn [head_not_digit] in B. congruence.
  - cbn [app] in E. subst b'. inversion A; subst. cbn [head_not_digit] in B'. congruence.
  - cbn [app] in E. injection E as -> E. inversion A; inversion A'; subst. destruct (IH a' b b') as [-> ->]; auto.
Qed.
Lemma zone_head z o : zone z o -> exists c r, z = c :: r /\ is_digit c = false /\ c <> 46.
Proof. intros H. destruct H; eexists; eexists; (split; [reflexivity|]); split; try reflexivity; discriminate. Qed.
Lemma zone_cases z o : zone z o -> z = [90] /\ o = 0%Z \/ exists hs ms h m, digits 2 hs h /\ digits 2 ms m /\
  (z = 43 :: hs ++ 58 :: ms /\ o = Z.of_N (h * 3600 + m * 60) \/ z = 45 :: hs ++ 58 :: ms /\ o = (- Z.of_N (h * 3600 + m * 60))%Z).
Proof. intros [|hs ms h m Dh Dm _ _|hs ms h m Dh Dm _ _]; [left; auto|right..]; exists hs, ms, h, m; auto. Qed.
Lemma hm_fun hs ms h m hs' ms' h' m' : digits 2 hs h -> digits 2 ms m -> digits 2 hs' h' -> digits 2 ms' m' -> hs ++ 58 :: ms = hs' ++ 58 :: ms' -> h = h' /\ m = m'.
Proof.
  intros A B C D E. destruct (digits_split _ _ _ _ _ _ _ A C E) as (_ & -> & E'). injection E' as ->. split; [reflexivity|]. exact (digits_fun _ _ _ _ B D).
Qed.
Lemma zone_fun z o o' : zone z o -> zone z o' -> o = o'.
Proof.
  intros H H'. apply zone_cases in H, H'.
  destruct H as [[-> ->]|(hs & ms & h & m & Dh & Dm & [[-> ->]|[-> ->]])], H' as [[E ->]|(hs' & ms' & h' & m' & Dh' & Dm' & [[E ->]|[E ->]])]; try discriminate; try reflexivity;
    injection E as E; destruct (hm_fun _ _ _ _ _ _ _ _ Dh Dm Dh' Dm' E) as [-> ->]; reflexivity.
Qed.
Lemma fraction_head f n : fraction f n -> f = [] /\ n = 0 \/ exists k s m, f = 46 :: s /\ (k <= 9)%nat /\ digits k s m /\ n = m * 10 ^ (9 - N.of_nat k).
Proof. intros H. destruct H; [now left|right]. eauto 10. Qed.
Lemma tail_fun f n z o f' n' z' o' : fraction f n -> zone z o -> fraction f' n' -> zone z' o' -> f ++ z = f' ++ z' -> n = n' /\ o = o'.
Proof.
  intros F Z F' Z' E. destruct (zone_head _ _ Z) as (c & r & -> & C & C46). destruct (zone_head _ _ Z') as (c' & r' & -> & C' & C46').
  destruct (fraction_head _ _ F) as [[-> ->]|(k & s & m & -> & K & D & ->)], (fraction_head _ _ F') as [[-> ->]|(k' & s' & m' & -> & K' & D' & ->)]; cbn [app] in E.
  - injection E as -> ->. split; [reflexivity|]. exact (zone_fun _ _ _ Z Z').
  - congruence.
  - congruence.
  - injection E as E. apply digit_run in E; [|exact (digits_all _ _ _ D)|exact (digits_all _ _ _ D')|exact C|exact C']. destruct E as [-> E].
    injection E as -> ->. assert (k' = k) as -> by (destruct D, D'; congruence). rewrite (digits_fun _ _ _ _ D D'). split; [reflexivity|]. exact (zone_fun _ _ _ Z Z').
Qed.
Lemma day_fun n n' t : day n t -> day n' t -> n = n'.
Proof. intros A B. apply day_civil in A, B. rewrite <- (proj2 (civil_spec n)), <- (proj2 (civil_spec n')). congruence. Qed.

Theorem instant_text_fun s a n a' n' : instant_text s a n -> instant_text s a' n' -> a = a' /\ n = n'.
Proof.
  intros (ys & ms & ds & hs & is & ss & fs & zs & y & m & d & h & mi & sec & k & off & Dy & Dm & Dd & Dh & Di & Ds & C & _ & _ & _ & F & Z & -> & ->).
  intros (ys' & ms' & ds' & hs' & is' & ss' & fs' & zs' & y' & m' & d' & h' & mi' & sec' & k' & off' & Dy' & Dm' & Dd' & Dh' & Di' & Ds' & C' & _ & _ & _ & F' & Z' & E & ->).
  destruct (digits_split _ _ _ _ _ _ _ Dy Dy' E) as (_ & -> & E1). injection E1 as E1.
  destruct (digits_split _ _ _ _ _ _ _ Dm Dm' E1) as (_ & -> & E2). injection E2 as E2.
  destruct (digits_split _ _ _ _ _ _ _ Dd Dd' E2) as (_ & -> & E3). injection E3 as E3.
  destruct (digits_split _ _ _ _ _ _ _ Dh Dh' E3) as (_ & -> & E4). injection E4 as E4.
  destruct (digits_split _ _ _ _ _ _ _ Di Di' E4) as (_ & -> & E5). injection E5 as E5.
  destruct (digits_split _ _ _ _ _ _ _ Ds Ds' E5) as (_ & -> & E6).
  destruct (tail_fun _ _ _ _ _ _ _ _ F Z F' Z' E6) as [-> ->]. rewrite (day_fun _ _ _ C C'). auto.
Qed.

(* ---------------- the characters ---------------- *)
Definition date_char (c : N) : Prop := is_digit c = true \/ In c [43; 45; 46; 58; 84; 90].
Lemma pad_chars k n : Forall date_char (pad k n).
Proof. eapply Forall_impl; [|apply pad_digits]. intros c H. now left. Qed.
Lemma char_one c l : In c [43; 45; 46; 58; 84; 90] -> Forall date_char l -> Forall date_char (c :: l).
Proof. intros H. constructor; [now right|assumption]. Qed.
Lemma rfc3339_chars off secs nanos : Forall date_char (rfc3339 off secs nanos).
Proof.
  unfold rfc3339, rfc3339_opts. destruct (civil _) as [[y m] d].
  assert (Y : Forall date_char (year_text y)).
  { unfold year_text. destruct (_ && _); [apply pad_chars|]. apply char_one; [destruct (y <? 0)%Z; cbn; tauto|].
    eapply Forall_impl; [|apply show_N_digits]. intros c H. now left. }
  assert (F : Forall date_char (fraction_text nanos)).
  { unfold fraction_text. repeat (destruct (_ =? _)); try constructor; try apply pad_chars; right; cbn; tauto. }
  assert (O : Forall date_char (offset_text true off)).
  { unfold offset_text. destruct (true && _)%Z; [apply char_one; [cbn; tauto|constructor]|]. apply char_one; [destruct (off <? 0)%Z; cbn; tauto|].
    apply Forall_app. split; [apply pad_chars|]. apply char_one; [cbn; tauto|apply pad_chars]. }
  cbv zeta. repeat (apply Forall_app; split); try apply pad_chars; try assumption; apply char_one; try constructor; cbn; tauto.
Qed.

(* ---------------- addresses ---------------- *)
Theorem ipv4_spec n : n < 2 ^ 32 -> dotted_quad (show_ipv4 n) n.
Proof.
  intros B. unfold show_ipv4. change (2 ^ 24) with 16777216. change (2 ^ 16) with 65536. change (2 ^ 8) with 256. change (2 ^ 32) with 4294967296 in B.
  do 8 eexists. do 4 (split; [apply parse_digits_iff, parse_digits_show|]). do 4 (split; [apply N.mod_lt; discriminate|]). split; [reflexivity|].
  pose proof (N.div_mod n 256 ltac:(discriminate)) as D0.
  pose proof (N.div_mod (n / 256) 256 ltac:(discriminate)) as D1. rewrite N.div_div in D1 by discriminate. change (256 * 256) with 65536 in D1.
  pose proof (N.div_mod (n / 65536) 256 ltac:(discriminate)) as D2. rewrite N.div_div in D2 by discriminate. change (65536 * 256) with 16777216 in D2.
  assert (D3 : n / 16777216 mod 256 = n / 16777216). { apply N.mod_small. apply N.div_lt_upper_bound; lia. }
  rewrite D3. lia.
Qed.

Lemma hex_lower_val d : d < 16 -> hex_val (hex_lower d) = Some d.
Proof.
  intros H. unfold hex_lower, hex_val. destruct (N.ltb_spec d 10) as [L|L].
  - rewrite is_digit_48 by exact L. f_equal. lia.
  - assert (E : is_digit (87 + d) = false) by (unfold is_digit; lia). rewrite E.
    replace ((65 <=? 87 + d) && (87 + d <=? 70)) with false by lia. replace ((97 <=? 87 + d) && (87 + d <=? 102)) with true by lia. f_equal. lia.
Qed.
Lemma hex_lower_is d : d < 16 -> is_hex (hex_lower d) = true.
Proof. intros H. unfold is_hex. now rewrite hex_lower_val. Qed.
Lemma hex_min_spec n : n < 65536 -> exists k, (1 <= k <= 4)%nat /\ hex_digits k (hex_min n) n.
Proof.
  intros B. unfold hex_min, hex_digits.
  assert (S : forall x, x / 16 mod 16 < 16) by (intros; apply N.mod_lt; discriminate).
  assert (S' : forall x, x mod 16 < 16) by (intros; apply N.mod_lt; discriminate).
  pose proof (N.div_mod n 16 ltac:(discriminate)) as D0.
  pose proof (N.div_mod (n / 16) 16 ltac:(discriminate)) as D1. rewrite N.div_div in D1 by discriminate. change (16 * 16) with 256 in D1.
  pose proof (N.div_mod (n / 256) 16 ltac:(discriminate)) as D2. rewrite N.div_div in D2 by discriminate. change (256 * 16) with 4096 in D2.
  destruct (N.ltb_spec n 16) as [L|L].
  { exists 1%nat. split; [lia|]. split; [reflexivity|]. cbn [forallb hex_num]. rewrite hex_lower_is, hex_lower_val by exact L. split; [reflexivity|lia]. }
  destruct (N.ltb_spec n 256) as [L1|L1].
  { assert (Q : n / 16 < 16) by (apply N.div_lt_upper_bound; lia).
    exists 2%nat. split; [lia|]. split; [reflexivity|]. cbn [forallb hex_num]. rewrite !hex_lower_is, !hex_lower_val by auto. split; [reflexivity|lia]. }
  destruct (N.ltb_spec n 4096) as [L2|L2].
  { assert (Q : n / 256 < 16) by (apply N.div_lt_upper_bound; lia).
    exists 3%nat. split; [lia|]. split; [reflexivity|]. cbn [forallb hex_num]. rewrite !hex_lower_is, !hex_lower_val by auto. split; [reflexivity|lia]. }
  assert (Q : n / 4096 < 16) by (apply N.div_lt_upper_bound; lia).
  exists 4%nat. split; [lia|]. split; [reflexivity|]. cbn [forallb hex_num]. rewrite !hex_lower_is, !hex_lower_val by auto. split; [reflexivity|lia].
Qed.
Lemma seg_groups l : Forall (fun n => n < 65536) l -> groups_or_none (seg_list l) l.
Proof.
  induction 1 as [|n l B F IH]; [right; split; reflexivity|]. left. unfold seg_list in *. destruct (hex_min_spec n B) as (k & K & H).
  destruct l as [|n' l].
  - cbn [map join]. now apply (gr_one k).
  - change (join [58] (map hex_min (n :: n' :: l))) with (hex_min n ++ [58] ++ join [58] (map hex_min (n' :: l))).
    destruct IH as [IH|[_ IH]]; [|discriminate]. now apply (gr_cons k).
Qed.
(** A run found by the scan: inside the list, all zeros. *)
Definition run_in (pre : list N) (r : nat * nat) : Prop :=
  (fst r + snd r <= length pre)%nat /\ forall j, (fst r <= j < fst r + snd r)%nat -> nth j pre 1 = 0.
Lemma run_more pre s r : run_in pre r -> run_in (pre ++ [s]) r.
Proof.
  intros [L Z]. split; [rewrite app_length; lia|]. intros j J. rewrite app_nth1 by lia. now apply Z.
Qed.
Lemma longest_zeros_run segs : forall pre cur best, run_in pre best ->
  (snd cur = 0%nat \/ (run_in pre cur /\ (fst cur + snd cur = length pre)%nat)) ->
  run_in (pre ++ segs) (longest_zeros (length pre) segs cur best).
Proof.
  induction segs as [|s segs IH]; intros pre cur best B C; [now rewrite app_nil_r|]. cbn [longest_zeros].
  replace (pre ++ s :: segs) with ((pre ++ [s]) ++ segs) by (rewrite <- app_assoc; reflexivity).
  assert (L : S (length pre) = length (pre ++ [s])) by (rewrite app_length; cbn; lia). rewrite L.
  destruct (N.eqb_spec s 0) as [->|NZ].
  - set (cur' := (if (snd cur =? 0)%nat then length pre else fst cur, S (snd cur))).
    assert (C' : run_in (pre ++ [0]) cur' /\ (fst cur' + snd cur')%nat = length (pre ++ [0%N])).
    { destruct C as [C|[[C1 C2] C3]].
      - unfold cur'. rewrite C. cbn [Nat.eqb fst snd]. rewrite <- L. split; [|lia]. split; cbn [fst snd]; [lia|]. intros j J.
        assert (j = length pre) as -> by lia. rewrite app_nth2, Nat.sub_diag by lia. reflexivity.
      - unfold cur'. destruct (Nat.eqb_spec (snd cur) 0) as [Z|Z]; cbn [fst snd]; rewrite <- L.
        + rewrite Z. split; [|lia]. split; cbn [fst snd]; [lia|]. intros j J. assert (j = length pre) as -> by lia. rewrite app_nth2, Nat.sub_diag by lia. reflexivity.
        + split; [|lia]. split; cbn [fst snd]; [lia|]. intros j J. destruct (Nat.eq_dec j (length pre)) as [->|NE].
          * rewrite app_nth2, Nat.sub_diag by lia. reflexivity.
          * rewrite app_nth1 by lia. apply C2. lia. }
    apply IH; [|right; exact C']. destruct (_ <? _)%nat; [apply C'|now apply run_more].
  - apply IH; [now apply run_more|]. now left.
Qed.
Lemma zeros_prefix len : forall l : list N, (len <= length l)%nat -> (forall j, (j < len)%nat -> nth j l 1 = 0) -> l = repeat 0 len ++ skipn len l.
Proof.
  induction len as [|len IH]; intros l L Z; [reflexivity|]. destruct l as [|c l]; [cbn in L; lia|]. cbn [repeat app skipn].
  pose proof (Z 0%nat ltac:(lia)) as C. cbn [nth] in C. subst c. f_equal. apply IH; [cbn in L; lia|]. intros j J. exact (Z (S j) ltac:(lia)).
Qed.
Lemma run_repeat start len : forall l, run_in l (start, len) -> l = firstn start l ++ repeat 0 len ++ skipn (start + len) l.
Proof.
  induction start as [|start IH]; intros l [L Z]; cbn [fst snd] in *.
  - cbn [firstn app]. apply zeros_prefix; [lia|]. intros j J. apply Z. lia.
  - destruct l as [|c l]; [cbn in L; lia|]. cbn [firstn app Nat.add skipn]. f_equal. apply IH. split; cbn [fst snd]; [cbn in L; lia|].
    intros j J. exact (Z (S j) ltac:(lia)).
Qed.
Lemma segments_octets k : forall o, length o = (2 * k)%nat -> Forall (fun b => b < 256) o -> octets (segments o) = o /\ length (segments o) = k /\ Forall (fun n => n < 65536) (segments o).
Proof.
  induction k as [|k IH]; intros o L F.
  - destruct o; [repeat split; constructor|discriminate].
  - destruct o as [|a [|b o]]; try (cbn in L; lia). inversion F as [|? ? A F']; subst. inversion F' as [|? ? B F'']; subst.
    destruct (IH o) as (E & Le & Fo); [cbn in L; lia|exact F''|]. cbn [segments octets length]. rewrite E, Le.
    split; [|split; [reflexivity|constructor; [lia|exact Fo]]]. f_equal; [|f_equal].
    + rewrite N.div_add_l by discriminate. rewrite N.div_small by exact B. lia.
    + rewrite N.add_comm, N.mod_add by discriminate. now apply N.mod_small.
Qed.
Theorem ipv6_spec o : length o = 16%nat -> Forall (fun b => b < 256) o -> address (show_ipv6 o) o.
Proof.
  intros L F. destruct (segments_octets 8 o L F) as (E & Le & B). exists (segments o). split; [|exact E]. unfold show_ipv6.
  generalize dependent (segments o). intros segs _ Le B. destruct (mapped segs) as [n|] eqn:M.
  - unfold mapped in M. destruct segs as [|a [|b [|c [|d [|e [|f [|h [|l [|x r]]]]]]]]]; try discriminate.
    destruct ((a =? 0) && (b =? 0) && (c =? 0) && (d =? 0) && (e =? 0) && (f =? 65535)) eqn:Z; [|discriminate]. injection M as <-.
    rewrite !andb_true_iff, !N.eqb_eq in Z. destruct Z as [[[[[-> ->] ->] ->] ->] ->].
    assert (H : h < 65536) by (do 6 (apply Forall_inv_tail in B); now apply Forall_inv in B).
    assert (Lw : l < 65536) by (do 7 (apply Forall_inv_tail in B); now apply Forall_inv in B).
    change [0; 0; 0; 0; 0; 65535; h; l] with ([] ++ repeat 0 5 ++ [65535; h; l]).
    change (txt "::ffff:" ++ show_ipv4 (h * 65536 + l)) with ([] ++ txt "::" ++ (txt "ffff" ++ txt ":" ++ show_ipv4 (h * 65536 + l))).
    apply ap_short; [now right| |reflexivity|lia]. left. apply (gr_cons 4); [lia|repeat split|].
    assert (Q : [h; l] = [(h * 65536 + l) / 65536; (h * 65536 + l) mod 65536]).
    { f_equal; [|f_equal]; [rewrite N.div_add_l by discriminate; rewrite N.div_small by exact Lw; lia|].
      rewrite N.add_comm, N.mod_add by discriminate. symmetry. now apply N.mod_small. }
    rewrite Q. apply gr_quad. apply ipv4_spec. change (2 ^ 32) with 4294967296. lia.
  - clear M. pose proof (longest_zeros_run segs [] (O, O) (O, O)) as R. cbn [app length] in R. change (list N) with (list N) in R.
    assert (R' : run_in segs (longest_zeros 0 segs (0%nat, 0%nat) (0%nat, 0%nat))).
    { apply R; [split; cbn [fst snd length]; [lia|intros j J; lia]|now left]. }
    clear R. destruct (longest_zeros 0 segs _ _) as [start len]. destruct (Nat.ltb_spec 1 len) as [Lt|Lt].
    + pose proof (run_repeat _ _ _ R') as Eq. destruct R' as [RL _]. cbn [fst snd] in RL.
      rewrite Eq at 3. apply ap_short; [| |rewrite firstn_length, skipn_length; lia|lia].
      * apply seg_groups. now apply Forall_firstn.
      * apply seg_groups. now apply Forall_skipn.
    + destruct (seg_groups segs B) as [G|[_ ->]]; [|discriminate]. now apply ap_full.
Qed.
