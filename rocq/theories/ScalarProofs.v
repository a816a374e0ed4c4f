(** Proofs about scalars in query text: UUIDs, the range of the calendar, 256-bit integers. *)
From Coq Require Import String Lia.
From Verif Require Import Base Types Text LiteralSpec Calendar CalendarSpec CalendarProofs Literal LiteralProofs SqlLex SqlLexProofs.
Local Open Scope list_scope.
Local Open Scope N_scope.

(* ---------------- UUIDs ---------------- *)
Lemma hdl_length k n : length (hex_digits_lower k n) = k.
Proof. induction k; cbn [hex_digits_lower length]; congruence. Qed.
Lemma hdl_split j k n : hex_digits_lower (j + k) n = hex_digits_lower j (n / 16 ^ N.of_nat k) ++ hex_digits_lower k n.
Proof.
  induction j as [|j IH]; [reflexivity|]. cbn [Nat.add hex_digits_lower app]. rewrite IH. f_equal. f_equal. f_equal.
  rewrite N.div_div by (apply N.pow_nonzero; discriminate). f_equal. rewrite <- N.pow_add_r. f_equal. lia.
Qed.
Lemma hdl_hex k n : forallb is_hex (hex_digits_lower k n) = true.
Proof. induction k as [|k IH]; [reflexivity|]. cbn [hex_digits_lower forallb]. rewrite IH, hex_lower_is; [reflexivity|]. apply N.mod_lt. discriminate. Qed.
Lemma hdl_num k n : forall a, hex_num a (hex_digits_lower k n) = a * 16 ^ N.of_nat k + n mod 16 ^ N.of_nat k.
Proof.
  induction k as [|k IH]; intros a; cbn [hex_digits_lower hex_num].
  - change (16 ^ N.of_nat 0) with 1. rewrite N.mod_1_r. lia.
  - rewrite IH, hex_lower_val by (apply N.mod_lt; discriminate).
    replace (N.of_nat (S k)) with (N.of_nat k + 1) by lia. rewrite N.pow_add_r, N.pow_1_r.
    assert (NZ : 16 ^ N.of_nat k <> 0) by (apply N.pow_nonzero; discriminate).
    rewrite N.mod_mul_r by (try exact NZ; discriminate). generalize (16 ^ N.of_nat k) (n / 16 ^ N.of_nat k mod 16). intros. ring.
Qed.
Lemma hdl_digits k n : hex_digits k (hex_digits_lower k n) (n mod 16 ^ N.of_nat k).
Proof. split; [apply hdl_length|]. split; [apply hdl_hex|]. rewrite hdl_num. lia. Qed.
Lemma firstn_exact (a b : text) k : length a = k -> firstn k (a ++ b) = a.
Proof. intros <-. rewrite firstn_app, firstn_all, Nat.sub_diag. cbn [firstn]. apply app_nil_r. Qed.
Lemma skipn_exact (a b : text) k : length a = k -> skipn k (a ++ b) = b.
Proof. intros <-. rewrite skipn_app, skipn_all, Nat.sub_diag. reflexivity. Qed.
Theorem uuid_spec n : n < 2 ^ 128 -> uuid_text (show_uuid n) n.
Proof.
  intros B. set (A := hex_digits_lower 8 (n / 16 ^ 24)). set (Bb := hex_digits_lower 4 (n / 16 ^ 20)). set (C := hex_digits_lower 4 (n / 16 ^ 16)).
  set (D := hex_digits_lower 4 (n / 16 ^ 12)). set (Ee := hex_digits_lower 12 n).
  assert (H : hex_digits_lower 32 n = A ++ Bb ++ C ++ D ++ Ee).
  { change 32%nat with (8 + 24)%nat. rewrite hdl_split. f_equal. change 24%nat with (4 + 20)%nat. rewrite hdl_split. f_equal.
    change 20%nat with (4 + 16)%nat. rewrite hdl_split. f_equal. change 16%nat with (4 + 12)%nat. rewrite hdl_split. reflexivity. }
  assert (LA : length A = 8%nat) by apply hdl_length. assert (LB : length Bb = 4%nat) by apply hdl_length. assert (LC : length C = 4%nat) by apply hdl_length.
  assert (LD : length D = 4%nat) by apply hdl_length.
  exists A, Bb, C, D, Ee, ((n / 16 ^ 24) mod 16 ^ 8), ((n / 16 ^ 20) mod 16 ^ 4), ((n / 16 ^ 16) mod 16 ^ 4), ((n / 16 ^ 12) mod 16 ^ 4), (n mod 16 ^ 12).
  do 5 (split; [apply hdl_digits|]). split.
  - unfold show_uuid. rewrite H. rewrite (firstn_exact A) by exact LA. rewrite (skipn_exact A) by exact LA. rewrite (firstn_exact Bb) by exact LB.
    assert (S12 : skipn 12 (A ++ Bb ++ C ++ D ++ Ee) = C ++ D ++ Ee) by (rewrite app_assoc; apply skipn_exact; rewrite app_length; lia).
    assert (S16 : skipn 16 (A ++ Bb ++ C ++ D ++ Ee) = D ++ Ee) by (rewrite (app_assoc A), (app_assoc _ C); apply skipn_exact; rewrite !app_length; lia).
    assert (S20 : skipn 20 (A ++ Bb ++ C ++ D ++ Ee) = Ee) by (rewrite (app_assoc A), (app_assoc _ C), (app_assoc _ D); apply skipn_exact; rewrite !app_length; lia).
    rewrite S12, S16, S20, (firstn_exact C) by exact LC. rewrite (firstn_exact D) by exact LD. reflexivity.
  - assert (J : forall a b, n mod 16 ^ (a + b) = (n / 16 ^ b) mod 16 ^ a * 16 ^ b + n mod 16 ^ b).
    { intros a b. rewrite N.add_comm, N.pow_add_r. rewrite N.mod_mul_r by (apply N.pow_nonzero; discriminate). lia. }
    pose proof (J 8 24) as J1. pose proof (J 4 20) as J2. pose proof (J 4 16) as J3. pose proof (J 4 12) as J4.
    change (8 + 24) with 32 in J1. change (4 + 20) with 24 in J2. change (4 + 16) with 20 in J3. change (4 + 12) with 16 in J4.
    rewrite J4 in J3. rewrite J3 in J2. rewrite J2 in J1. rewrite N.mod_small in J1 by exact B. rewrite J1 at 1.
    generalize ((n / 16 ^ 24) mod 16 ^ 8) ((n / 16 ^ 20) mod 16 ^ 4) ((n / 16 ^ 16) mod 16 ^ 4) ((n / 16 ^ 12) mod 16 ^ 4) (n mod 16 ^ 12). clear.
    intros a b c d e. change (16 ^ 24) with (2 ^ 16 * 2 ^ 16 * 2 ^ 16 * 2 ^ 48). change (16 ^ 20) with (2 ^ 16 * 2 ^ 16 * 2 ^ 48).
    change (16 ^ 16) with (2 ^ 16 * 2 ^ 48). change (16 ^ 12) with (2 ^ 48). ring.
Qed.

(* ---------------- instants ---------------- *)
Lemma rounded_exact off : rounded off = off <-> (off mod 60 = 0)%Z.
Proof.
  split; [|apply rounded_minutes]. unfold rounded. intros E. apply Z.mod_divide; [lia|]. rewrite <- E. exists (Z.sgn off * ((Z.abs off + 30) / 60))%Z. ring.
Qed.
Lemma civil_late n y m d : civil n = (y, m, d) -> (2932897 <= n)%Z -> (9999 < y)%Z.
Proof.
  intros E B. destruct (civil_spec n) as [V S]. unfold civil in E.
  destruct (year_day (n + 719162)) as [y' d'] eqn:Y. apply year_day_spec in Y as [Y1 Y2]. destruct (month_day _ _ _). injection E as -> _ _.
  destruct (Z.le_gt_cases y 9999) as [P|P]; [exfalso|lia]. pose proof (dby_mono (y + 1) (9999 - y) ltac:(lia)) as Mo.
  replace (y + 1 + (9999 - y))%Z with 10000%Z in Mo by lia. change (dby 10000) with 3652059%Z in Mo. rewrite dby_next in Mo. lia.
Qed.
Theorem rfc3339_opts_late uz off secs nanos : (LAST_SECOND < secs + off)%Z -> forall a n, ~ instant_text (rfc3339_opts uz off secs nanos) a n.
Proof.
  intros L a n (ys & ms & ds & hs & is & ss & fs & zs & y & m & d & h & mi & sec & k & o & Dy & _ & _ & _ & _ & _ & _ & _ & _ & _ & _ & _ & E & _).
  unfold rfc3339_opts, LAST_SECOND in *. destruct (civil _) as [[y' m'] d'] eqn:C. apply civil_late in C; [|apply Z.div_le_lower_bound; lia].
  unfold year_text in E. replace ((0 <=? y') && (y' <=? 9999))%Z with false in E by lia. replace (y' <? 0)%Z with false in E by lia.
  pose proof (digits_all _ _ _ Dy) as F. destruct Dy as [Ly _]. destruct ys as [|c ys]; [discriminate|]. cbn [app] in E. injection E as E _. apply Forall_inv in F. subst c. discriminate.
Qed.
Theorem rfc3339_late off secs nanos : (LAST_SECOND < secs + off)%Z -> forall a n, ~ instant_text (rfc3339 off secs nanos) a n.
Proof. apply rfc3339_opts_late. Qed.

Lemma rounded_close off : (Z.abs (off - rounded off) <= 30)%Z.
Proof.
  unfold rounded. pose proof (Z.div_mod (Z.abs off + 30) 60 ltac:(lia)). pose proof (Z.mod_pos_bound (Z.abs off + 30) 60 ltac:(lia)).
  destruct (Z.sgn_spec off) as [[P ->]|[[P ->]|[P ->]]]; lia.
Qed.

(* ---------------- inside quotes ---------------- *)
Lemma escape_plain t : Forall (fun c => plain_char c = true) t -> escape_string t = t.
Proof.
  induction 1 as [|c t P _ IH]; [reflexivity|]. unfold escape_string in *. cbn [flat_map]. rewrite IH. unfold escape_byte, plain_char, word_char in *.
  replace (c <? 128) with true by lia. replace (c =? 92) with false by lia. replace (c =? 39) with false by lia. replace (c =? 8) with false by lia.
  replace (c =? 12) with false by lia. replace (c =? 13) with false by lia. replace (c =? 10) with false by lia. replace (c =? 9) with false by lia.
  replace (c =? 0) with false by lia. replace (c =? 7) with false by lia. replace (c =? 11) with false by lia. reflexivity.
Qed.
Lemma plain_small t : Forall (fun c => plain_char c = true) t -> Forall (fun c => c < 256) t.
Proof. apply Forall_impl. intros c. unfold plain_char, word_char. lia. Qed.
Lemma read_plain t : Forall (fun c => plain_char c = true) t -> read_string ([39] ++ t ++ [39]) = Some (t, []).
Proof.
  intros P. pose proof (read_quote t [] (plain_small t P) eq_refl) as R. unfold quote in R. rewrite escape_plain in R by exact P. now rewrite app_nil_r in R.
Qed.
Lemma read_escaped t : Forall (fun c => c < 256) t -> read_string ([39] ++ escape_string t ++ [39]) = Some (t, []).
Proof. intros P. pose proof (read_quote t [] P eq_refl) as R. unfold quote in R. now rewrite app_nil_r in R. Qed.

(* ---------------- 256-bit integers ---------------- *)
Lemma int256_literal be : length be = 32%nat -> Forall (fun b => b < 256) be ->
  read_literal (show_hex256 be ++ txt "::Int256") = Some (LCast (LNum (Z.of_N (be_number be))) (txt "Int256"), []).
Proof.
  intros L B. change (show_hex256 be ++ txt "::Int256") with (show_hex256 be ++ txt "::" ++ txt "Int256" ++ []). unfold read_literal.
  assert (Q : read_nat (show_hex256 be ++ txt "::" ++ txt "Int256" ++ []) = Some (be_number be, txt "::" ++ txt "Int256" ++ [])).
  { apply read_nat_hex256; [exact B|intros ->; discriminate|reflexivity]. }
  assert (H : exists r, show_hex256 be ++ txt "::" ++ txt "Int256" ++ [] = 48 :: r) by (eexists; reflexivity).
  revert Q H. generalize (show_hex256 be ++ txt "::" ++ txt "Int256" ++ []). intros s Q [r H]. cbn [Nat.add].
  rewrite (read_lit_number _ s 48 r H eq_refl), Q. rewrite read_cast_word; [reflexivity|repeat constructor|exact Logic.I].
Qed.
