(** What the model of [str::parse] accepts, as decimal numerals. *)
From Coq Require Import Lia.
From Verif Require Import Base Types Text Numeral.
Local Open Scope list_scope.
Local Open Scope N_scope.

Lemma numeral_nonempty s n : numeral s n -> s <> [].
Proof. intros [d _|s' n' d _ _] X; [discriminate X|]. destruct s'; discriminate X. Qed.
Lemma is_digit_iff c : is_digit c = true <-> 48 <= c <= 57.
Proof. unfold is_digit. rewrite andb_true_iff, !N.leb_le. reflexivity. Qed.

Lemma digits_snoc a s c : digits_val a (s ++ [c]) = match digits_val a s with Some n => if is_digit c then Some (n * 10 + (c - 48)) else None | None => None end.
Proof. revert a. induction s as [|x s IH]; intros a; cbn [app digits_val]; [reflexivity|]. destruct (is_digit x); [apply IH|reflexivity]. Qed.

Lemma parse_digits_iff s n : parse_digits s = Some n <-> numeral s n.
Proof.
  split.
  - intros H. assert (NE : s <> []) by (intros ->; discriminate H).
    assert (D : digits_val 0 s = Some n) by (destruct s; [discriminate H|exact H]). clear H. revert n D NE.
    induction s as [|c s IH] using rev_ind; intros n D NE; [elim NE; reflexivity|]. rewrite digits_snoc in D.
    destruct (digits_val 0 s) as [m|] eqn:E; [|discriminate D]. destruct (is_digit c) eqn:C; [|discriminate D]. injection D as <-.
    apply is_digit_iff in C. assert (X : c = 48 + (c - 48)) by lia. assert (Y : c - 48 < 10) by lia.
    revert X Y. generalize (c - 48). intros d -> Y. destruct s as [|x s].
    + cbn in E. injection E as <-. replace (0 * 10 + d) with d by lia. now constructor.
    + replace (m * 10 + d) with (10 * m + d) by lia. apply nm_next; [|exact Y]. apply IH; [reflexivity|discriminate].
  - intros H. assert (D : digits_val 0 s = Some n).
    { induction H as [d L|s n d H IH L].
      - cbn [digits_val]. replace (is_digit (48 + d)) with true by (symmetry; apply is_digit_iff; lia). f_equal. lia.
      - rewrite digits_snoc, IH. replace (is_digit (48 + d)) with true by (symmetry; apply is_digit_iff; lia). f_equal. lia. }
    unfold parse_digits. destruct s; [elim (numeral_nonempty _ _ H); reflexivity|exact D].
Qed.
Lemma numeral_head s n : numeral s n -> forall c r, s = c :: r -> is_digit c = true.
Proof.
  induction 1 as [d L|s n d H IH L]; intros c r E.
  - injection E as <- _. apply is_digit_iff. lia.
  - destruct s as [|x s]; [elim (numeral_nonempty _ _ H); reflexivity|]. injection E as <- _. now apply (IH x s).
Qed.

Lemma parse_usize_iff s n : parse_usize s = Some n <-> unsigned_text s n.
Proof.
  unfold parse_usize, unsigned_text, text in *. cbv zeta. split.
  - intros H. match type of H with match ?x with Some _ => _ | None => _ end = _ => destruct x as [m|] eqn:P; [|discriminate H] end.
    destruct (N.ltb_spec m (2 ^ 64)) as [L|_]; [|discriminate H]. injection H as <-. split; [exact L|]. apply parse_digits_iff in P.
    destruct s as [|c r]; [now left|]. cbn [starts_with tl] in P. destruct (N.eqb_spec c 43) as [->|_]; [right; now exists r|now left].
  - intros [L H]. assert (P : parse_digits (if starts_with 43 s then tl s else s) = Some n).
    { apply parse_digits_iff. destruct H as [H|(r & -> & H)]; [|exact H]. destruct s as [|c r]; [exact H|]. cbn [starts_with tl].
      destruct (N.eqb_spec c 43) as [->|_]; [|exact H]. pose proof (numeral_head _ _ H _ _ eq_refl) as X. vm_compute in X. discriminate X. }
    match goal with |- match ?x with Some _ => _ | None => _ end = _ => replace x with (Some n) by (symmetry; exact P) end. apply N.ltb_lt in L. now rewrite L.
Qed.
Lemma parse_int_iff b s z : parse_int b s = Some z <-> signed_text b s z.
Proof.
  unfold parse_int, signed_text, text in *. cbv zeta. split.
  - intros H. match type of H with match ?x with Some _ => _ | None => _ end = _ => destruct x as [m|] eqn:P; [|discriminate H] end.
    match type of H with (if ?c then _ else _) = _ => destruct c eqn:R; [|discriminate H] end. injection H as <-.
    apply andb_true_iff in R. destruct R as [R1 R2]. apply Z.leb_le in R1. apply Z.ltb_lt in R2. split; [now split|].
    apply parse_digits_iff in P. destruct s as [|c r]; [left; exists m; split; [reflexivity|now left]|]. cbn [starts_with tl] in *.
    destruct (N.eqb_spec c 45) as [->|N5].
    + right. exists m, r. split; [reflexivity|]. split; [reflexivity|]. change (45 =? 43) with false in P. exact P.
    + left. exists m. split; [reflexivity|]. destruct (N.eqb_spec c 43) as [->|_]; [right; now exists r|now left].
  - intros [[R1 R2] H].
    assert (P : exists n, parse_digits (if starts_with 43 s || starts_with 45 s then tl s else s) = Some n /\ (if starts_with 45 s then (- Z.of_N n)%Z else Z.of_N n) = z).
    { destruct H as [(n & -> & [H|(r & -> & H)])|(n & r & -> & -> & H)]; exists n.
      - destruct s as [|c r]; [elim (numeral_nonempty _ _ H); reflexivity|]. pose proof (numeral_head _ _ H _ _ eq_refl) as X. cbn [starts_with tl].
        destruct (N.eqb_spec c 43) as [->|_]; [vm_compute in X; discriminate X|]. destruct (N.eqb_spec c 45) as [->|_]; [vm_compute in X; discriminate X|]. cbn [orb]. split; [now apply parse_digits_iff|reflexivity].
      - cbn [starts_with tl]. change (43 =? 43) with true. change (43 =? 45) with false. cbn [orb]. split; [now apply parse_digits_iff|reflexivity].
      - cbn [starts_with tl]. change (45 =? 43) with false. change (45 =? 45) with true. cbn [orb]. split; [now apply parse_digits_iff|reflexivity]. }
    destruct P as (n & P & E). match goal with |- match ?x with Some _ => _ | None => _ end = _ => replace x with (Some n) by (symmetry; exact P) end. rewrite E. apply Z.leb_le in R1. apply Z.ltb_lt in R2. now rewrite R1, R2.
Qed.
