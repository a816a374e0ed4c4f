(** Proofs about rendering values and reading the text back. *)
From Coq Require Import String Lia.
From Verif Require Import Base Types Text Literal LiteralSpec.
Local Open Scope list_scope.
Local Open Scope N_scope.

(* ---------------- strings ---------------- *)

Lemma hex_val_upper d : d < 16 -> hex_val (hex_upper d) = Some d.
Proof.
  intros H. unfold hex_upper, hex_val, is_digit. destruct (N.ltb_spec d 10).
  - replace ((48 <=? 48 + d) && (48 + d <=? 57)) with true by lia. f_equal; lia.
  - replace ((48 <=? 55 + d) && (55 + d <=? 57)) with false by lia.
    replace ((65 <=? 55 + d) && (55 + d <=? 70)) with true by lia. f_equal; lia.
Qed.

Lemma string_body_escape_byte b t : b < 256 ->
  string_body (escape_byte b ++ t) = option_map (fun p => (b :: fst p, snd p)) (string_body t).
Proof.
  intros H. unfold escape_byte.
  destruct (N.ltb_spec b 128) as [L|L].
  - repeat (match goal with |- context [if b =? ?k then _ else _] => destruct (N.eqb_spec b k) as [->|?] end;
      [cbn [app string_body]; vm_compute (_ =? _); reflexivity|]).
    cbn [app string_body].
    replace (b =? 39) with false by lia. replace (b =? 92) with false by lia. reflexivity.
  - unfold hex2_upper. cbn [app string_body]. vm_compute (_ =? 39). vm_compute (_ =? 92). vm_compute (120 =? 120).
    cbv beta iota. rewrite !hex_val_upper.
    + replace (b / 16 * 16 + b mod 16) with b; [reflexivity|]. rewrite N.mul_comm. apply N.div_mod. discriminate.
    + apply N.mod_lt. discriminate.
    + apply N.div_lt_upper_bound; lia.
Qed.

Lemma string_body_escape bs t : Forall (fun b => b < 256) bs ->
  string_body (escape_string bs ++ t) = option_map (fun p => (bs ++ fst p, snd p)) (string_body t).
Proof.
  induction 1 as [|b bs H _ IH].
  - cbn [escape_string flat_map app]. destruct (string_body t) as [[a r]|]; reflexivity.
  - unfold escape_string in *. cbn [flat_map]. rewrite <- app_assoc, string_body_escape_byte, IH by exact H.
    destruct (string_body t) as [[a r]|]; reflexivity.
Qed.

Lemma string_body_close rest : starts_with 39 rest = false -> string_body (39 :: rest) = Some ([], rest).
Proof.
  intros H. cbn [string_body]. vm_compute (39 =? 39). destruct rest as [|c r]; [reflexivity|].
  cbn [starts_with] in H. now rewrite H.
Qed.

Lemma read_quote bs rest : Forall (fun b => b < 256) bs -> starts_with 39 rest = false ->
  read_string (quote bs ++ rest) = Some (bs, rest).
Proof.
  intros H R. unfold quote, read_string. cbn [app]. vm_compute (39 =? 39). cbv iota.
  rewrite <- app_assoc, string_body_escape by exact H. cbn [app]. rewrite string_body_close by exact R.
  cbn [option_map fst snd]. now rewrite app_nil_r.
Qed.

Lemma read_quote_any bs rest : Forall (fun b => b < 256) bs ->
  read_string (quote bs ++ rest) =
  if starts_with 39 rest then option_map (fun p => (bs ++ 39 :: fst p, snd p)) (string_body (tl rest)) else Some (bs, rest).
Proof.
  intros H. destruct (starts_with 39 rest) eqn:R; [|now apply read_quote].
  unfold quote, read_string. cbn [app]. vm_compute (39 =? 39). cbv iota.
  rewrite <- app_assoc, string_body_escape by exact H.
  destruct rest as [|c r]; [discriminate|]. cbn [starts_with] in R. apply N.eqb_eq in R as ->.
  cbn [app string_body tl]. vm_compute (39 =? 39). cbv iota.
  destruct (string_body r) as [[a b]|]; reflexivity.
Qed.

Lemma escape_ascii bs : Forall (fun b => b < 256) bs -> Forall (fun c => c < 128) (escape_string bs).
Proof.
  assert (X : forall d, d < 16 -> hex_upper d < 128) by (intros d H; unfold hex_upper; destruct (d <? 10); lia).
  induction 1 as [|b bs B _ IH]; [constructor|]. cbn [escape_string flat_map]. apply Forall_app. split; [|exact IH].
  unfold escape_byte. destruct (N.ltb_spec b 128).
  - repeat match goal with |- context [if ?c then _ else _] => destruct c end; repeat constructor; lia.
  - repeat constructor; try lia; apply X; [apply N.div_lt_upper_bound; lia|apply N.mod_lt; discriminate].
Qed.

(* ---------------- decimals ---------------- *)

Lemma digits_val_bound s : forall a n, digits_val a s = Some n -> a * 10 ^ lenN s <= n < (a + 1) * 10 ^ lenN s.
Proof.
  induction s as [|c s IH]; intros a n H; cbn [digits_val] in H.
  - injection H as <-. unfold lenN. cbn [length]. change (N.of_nat 0) with 0. rewrite N.pow_0_r. lia.
  - destruct (is_digit c) eqn:D; [|discriminate]. apply IH in H. unfold is_digit in D.
    unfold lenN in *. cbn [length]. rewrite Nat2N.inj_succ, N.pow_succ_r' by lia.
    set (P := 10 ^ N.of_nat (length s)) in *. clearbody P.
    assert (c - 48 < 10) by lia. set (d := c - 48) in *. clearbody d. nia.
Qed.

Lemma show_go_first fuel : forall n acc, n < 2 ^ N.of_nat fuel -> n <> 0 ->
  exists c r, show_go (S fuel) n acc = c :: r /\ is_digit c = true /\ c <> 48.
Proof.
  induction fuel as [|f IH]; intros n acc H N0.
  - change (2 ^ N.of_nat 0) with 1 in H. lia.
  - cbn [show_go]. destruct (N.eqb_spec (n / 10) 0) as [E|E].
    + exists (48 + n mod 10), acc. assert (n mod 10 = n) by (pose proof (N.div_mod n 10); lia).
      split; [reflexivity|]. pose proof (N.mod_lt n 10). split; [apply is_digit_48; lia|lia].
    + apply IH; [|exact E]. rewrite Nat2N.inj_succ, N.pow_succ_r' in H.
      apply N.div_lt_upper_bound; lia.
Qed.

Lemma show_N_length n : n <> 0 -> 10 ^ (lenN (show_N n) - 1) <= n < 10 ^ lenN (show_N n).
Proof.
  intros H. pose proof (parse_digits_show n) as P. pose proof (show_N_nonempty n) as NE.
  destruct (show_go_first (N.size_nat n) n [] (size_nat_bound n) H) as (c & r & E & D & C).
  unfold show_N in *. rewrite E in *. unfold parse_digits in P.
  split.
  - cbn [digits_val] in P. rewrite D in P. apply digits_val_bound in P.
    unfold is_digit in D. unfold lenN in *. cbn [length]. rewrite Nat2N.inj_succ.
    replace (N.succ (N.of_nat (length r)) - 1) with (N.of_nat (length r)) by lia.
    set (P10 := 10 ^ N.of_nat (length r)) in *. clearbody P10. assert (1 <= c - 48) by lia.
    set (d := c - 48) in *. clearbody d. nia.
  - apply digits_val_bound in P. rewrite N.mul_1_l in P. apply P.
Qed.

Lemma digits_no c s : is_digit c = false -> Forall (fun c => is_digit c = true) s -> ~ In c s.
Proof. intros H F I. apply (proj1 (Forall_forall _ _) F) in I. congruence. Qed.

Lemma split_once_absent c s : ~ In c s -> split_once c s = None.
Proof.
  induction s as [|x s IH]; intros H; [reflexivity|]. cbn [split_once].
  destruct (N.eqb_spec x c) as [->|E]; [destruct H; now left|].
  rewrite IH; [reflexivity|]. intros I. apply H. now right.
Qed.

Lemma lenN_skipn {A} (l : list A) k : k <= lenN l -> lenN (skipn (length l - N.to_nat k) l) = k.
Proof. unfold lenN. intros H. rewrite skipn_length. lia. Qed.

Lemma dec_unsigned_show n : dec_unsigned (show_N n) = Some (n, 0).
Proof.
  unfold dec_unsigned. rewrite split_once_absent by (apply digits_no; [reflexivity|apply show_N_digits]).
  now rewrite parse_digits_show.
Qed.

Lemma dec_unsigned_split n k : k <= lenN (show_N n) ->
  dec_unsigned (firstn (length (show_N n) - N.to_nat k) (show_N n) ++ [46] ++ skipn (length (show_N n) - N.to_nat k) (show_N n))
  = Some (n, k).
Proof.
  intros H. unfold dec_unsigned. cbn [app]. rewrite split_once_intro.
  - now rewrite firstn_skipn, parse_digits_show, lenN_skipn by exact H.
  - intros I. apply (digits_no 46 (show_N n)); [reflexivity|apply show_N_digits|].
    rewrite <- (firstn_skipn (length (show_N n) - N.to_nat k)). apply in_or_app. now left.
Qed.

Lemma starts_with_app_false c s t : s <> [] -> starts_with c (s ++ t) = starts_with c s.
Proof. destruct s; [easy|reflexivity]. Qed.

Lemma pow10_pos p : (0 < 10 ^ Z.of_N p)%Z.
Proof. apply Z.pow_pos_nonneg; lia. Qed.

Lemma show_decimal_value p x :
  dec_value (show_decimal p x) =
  if (x <? 0)%Z then
    if lenN (show_N (Z.to_N (- x))) <? p then
      if lenN (show_N (Z.to_N (- x))) + 1 =? p then None else Some (x, 0)
    else Some (x, p)
  else if lenN (show_N (Z.to_N x)) <? p then Some (x, 0) else Some (x, p).
Proof.
  unfold show_decimal, show_Z. destruct (Z.ltb_spec x 0) as [X|X].
  - set (n := Z.to_N (- x)).
    assert (L : lenN (45 :: show_N n) = lenN (show_N n) + 1) by (unfold lenN; cbn [length]; lia).
    rewrite L. destruct (N.ltb_spec (lenN (show_N n)) p) as [A|A].
    + destruct (N.eqb_spec (lenN (show_N n) + 1) p) as [B|B].
      * replace (lenN (show_N n) + 1 <? p) with false by lia. subst p.
        replace (length (45%N :: show_N n) - N.to_nat (lenN (show_N n) + 1))%nat with 0%nat
          by (unfold lenN; cbn [length]; lia).
        cbn [firstn skipn app]. unfold dec_value. cbn [starts_with]. vm_compute (46 =? 45). cbv iota.
        unfold dec_unsigned. cbn [split_once]. vm_compute (46 =? 46). cbn [app parse_digits digits_val].
        vm_compute (is_digit 45). reflexivity.
      * replace (lenN (show_N n) + 1 <? p) with true by lia.
        unfold dec_value. cbn [starts_with tl]. vm_compute (45 =? 45). cbv iota. rewrite dec_unsigned_show.
        f_equal. f_equal. unfold n. lia.
    + replace (lenN (show_N n) + 1 <? p) with false by lia.
      replace (length (45%N :: show_N n) - N.to_nat p)%nat with (S (length (show_N n) - N.to_nat p))
        by (unfold lenN in A; cbn [length]; lia).
      cbn [firstn skipn app]. unfold dec_value. cbn [starts_with tl]. vm_compute (45 =? 45). cbv iota.
      pose proof (dec_unsigned_split n p A) as E. cbn [app] in E. rewrite E. f_equal. f_equal. unfold n. lia.
  - set (n := Z.to_N x). pose proof (show_N_nonempty n) as NE.
    destruct (N.ltb_spec (lenN (show_N n)) p) as [A|A].
    + unfold dec_value. rewrite show_N_head by reflexivity. rewrite dec_unsigned_show. f_equal. f_equal. unfold n. lia.
    + unfold dec_value. rewrite dec_unsigned_split by lia.
      replace (starts_with 45 _) with false.
      * f_equal. f_equal. unfold n. lia.
      * pose proof (show_N_digits n) as D. destruct (firstn _ (show_N n)) as [|c r] eqn:F; [reflexivity|].
        cbn [app starts_with]. destruct (N.eqb_spec c 45) as [->|]; [|reflexivity].
        exfalso. apply (digits_no 45 (show_N n)); [reflexivity|exact D|].
        rewrite <- (firstn_skipn (length (show_N n) - N.to_nat p)), F. now left.
Qed.

Lemma pow10_le_iff n p : n <> 0 -> (p <= lenN (show_N n) <-> 10 ^ p <= 10 * n).
Proof.
  intros H. pose proof (show_N_length n H) as [A B]. pose proof (show_N_nonempty n) as NE.
  assert (1 <= lenN (show_N n)) by (unfold lenN; destruct (show_N n); [easy|cbn [length]; lia]).
  set (d := lenN (show_N n)) in *. split; intros L.
  - apply N.le_trans with (10 ^ d); [apply N.pow_le_mono_r; lia|].
    replace d with (N.succ (d - 1)) by lia. rewrite N.pow_succ_r'. lia.
  - destruct (N.le_gt_cases p d) as [|G]; [assumption|exfalso].
    assert (10 ^ N.succ d <= 10 ^ p) by (apply N.pow_le_mono_r; lia). rewrite N.pow_succ_r' in H1. lia.
Qed.

Lemma show_decimal_exact p x :
  denotes_decimal (show_decimal p x) x p <-> x = 0%Z \/ (10 ^ Z.of_N p <= 10 * Z.abs x)%Z.
Proof.
  assert (Q : (10 ^ Z.of_N p <= 10 * Z.abs x)%Z <-> 10 ^ p <= 10 * Z.to_N (Z.abs x)).
  { rewrite <- (Z2N.id (Z.abs x)) at 1 by lia. rewrite <- (N2Z.inj_pow 10 p : Z.of_N (10 ^ p) = (10 ^ Z.of_N p)%Z). lia. }
  rewrite Q. clear Q. unfold denotes_decimal. rewrite show_decimal_value.
  assert (POW : p <> 0 -> x <> 0%Z -> (x * 10 ^ Z.of_N p <> x * 10 ^ Z.of_N 0)%Z).
  { intros P X E. apply Z.mul_cancel_l in E; [|exact X].
    change (10 ^ Z.of_N 0)%Z with 1%Z in E.
    assert (10 ^ 1 <= 10 ^ Z.of_N p)%Z by (apply Z.pow_le_mono_r; lia). rewrite Z.pow_1_r in H. lia. }
  destruct (Z.ltb_spec x 0) as [X|X].
  - replace (Z.abs x) with (- x)%Z by lia.
    pose proof (pow10_le_iff (Z.to_N (- x)) p ltac:(lia)) as I.
    destruct (N.ltb_spec (lenN (show_N (Z.to_N (- x)))) p) as [A|A].
    + destruct (N.eqb_spec (lenN (show_N (Z.to_N (- x))) + 1) p) as [B|B].
      * split; [intros (n & k & E & _); discriminate|]. intros [?|G]; [lia|apply I in G; lia].
      * split; [|intros [?|G]; [lia|apply I in G; lia]].
        intros (n & k & E & F). injection E as <- <-. exfalso. apply (POW ltac:(lia) ltac:(lia) F).
    + split; [intros _; right; apply I; lia|]. intros _. exists x, p. split; reflexivity.
  - replace (Z.abs x) with x by lia.
    destruct (Z.eq_dec x 0) as [->|NZ].
    + split; [now left|]. intros _. destruct (_ <? _); eexists _, _; (split; [reflexivity|]); reflexivity.
    + pose proof (pow10_le_iff (Z.to_N x) p ltac:(lia)) as I.
      destruct (N.ltb_spec (lenN (show_N (Z.to_N x))) p) as [A|A].
      * split; [|intros [?|G]; [lia|apply I in G; lia]].
        intros (n & k & E & F). injection E as <- <-. exfalso. apply (POW ltac:(lia) ltac:(lia) F).
      * split; [intros _; right; apply I; lia|]. intros _. exists x, p. split; reflexivity.
Qed.

(* ---------------- numbers ---------------- *)

Lemma span_app f s t : Forall (fun c => f c = true) s -> match t with c :: _ => f c = false | [] => True end ->
  span f (s ++ t) = (s, t).
Proof.
  induction 1 as [|c s H _ IH]; intros T.
  - cbn [app]. destruct t as [|c r]; [reflexivity|]. cbn [span]. now rewrite T.
  - cbn [app span]. now rewrite H, IH.
Qed.

Lemma read_nat_show n rest :
  match rest with c :: _ => is_digit c = false /\ c <> 120 | [] => True end ->
  read_nat (show_N n ++ rest) = Some (n, rest).
Proof.
  intros R. unfold read_nat.
  assert (S : strip_prefix (txt "0x") (show_N n ++ rest) = None).
  { pose proof (show_N_digits n) as D. change (txt "0x") with [48; 120].
    destruct (show_N n) as [|a [|b s]].
    - cbn [app]. destruct rest as [|c r]; [reflexivity|]. cbn [strip_prefix].
      destruct (N.eqb_spec 48 c) as [<-|]; [destruct R as [R _]; discriminate|reflexivity].
    - cbn [app strip_prefix]. destruct (48 =? a); [|reflexivity]. destruct rest as [|c r]; [reflexivity|].
      destruct (N.eqb_spec 120 c) as [<-|]; [destruct R as [_ R]; easy|reflexivity].
    - cbn [app strip_prefix]. destruct (48 =? a); [|reflexivity].
      destruct (N.eqb_spec 120 b) as [<-|]; [|reflexivity].
      apply Forall_inv_tail, Forall_inv in D. discriminate. }
  rewrite S, span_app by (exact (show_N_digits n) || (destruct rest; [exact I|apply R])).
  now rewrite parse_digits_show.
Qed.

Lemma is_hex_upper d : d < 16 -> is_hex (hex_upper d) = true.
Proof. intros H. unfold is_hex. now rewrite hex_val_upper. Qed.

Lemma hex2_digits be : Forall (fun b => b < 256) be -> Forall (fun c => is_hex c = true) (flat_map hex2_upper be).
Proof.
  induction 1 as [|b be B _ IH]; [constructor|]. cbn [flat_map hex2_upper app]. repeat constructor; [| |exact IH];
  apply is_hex_upper; [apply N.div_lt_upper_bound; lia|apply N.mod_lt; discriminate].
Qed.
Lemma hex_num_bytes be : forall acc, Forall (fun b => b < 256) be ->
  hex_num acc (flat_map hex2_upper be) = fold_left (fun a b => a * 256 + b) be acc.
Proof.
  induction be as [|b be IH]; intros acc H; [reflexivity|].
  cbn [flat_map hex2_upper app hex_num fold_left]. pose proof (Forall_inv H) as B. cbv beta in B.
  rewrite !hex_val_upper by (first [apply N.div_lt_upper_bound; lia | apply N.mod_lt; discriminate]).
  rewrite IH by exact (Forall_inv_tail H). f_equal. pose proof (N.div_mod b 16 ltac:(discriminate)). lia.
Qed.

Lemma read_nat_hex256 be rest : Forall (fun b => b < 256) be -> be <> [] ->
  match rest with c :: _ => is_hex c = false | [] => True end ->
  read_nat (show_hex256 be ++ rest) = Some (be_number be, rest).
Proof.
  intros B NE R. unfold read_nat, show_hex256. change (txt "0x") with [48; 120]. cbn [app strip_prefix].
  vm_compute (48 =? 48). vm_compute (120 =? 120). cbv iota.
  rewrite span_app by (first [now apply hex2_digits | exact R]).
  rewrite hex_num_bytes by exact B. unfold be_number.
  destruct be as [|b be]; [easy|]. reflexivity.
Qed.

(* ---------------- literals ---------------- *)

Definition good_head (t : text) : Prop :=
  match t with c :: _ => c <> 93 /\ c <> 41 /\ c <> 125 /\ c <> 58 /\ c <> 44 | [] => False end.

Lemma show_N_good n t : good_head (show_N n ++ t).
Proof.
  pose proof (show_N_digits n) as D. pose proof (show_N_nonempty n) as NE.
  destruct (show_N n) as [|c r]; [easy|]. apply Forall_inv in D. unfold is_digit in D. cbn [app good_head]. lia.
Qed.
Lemma show_Z_good z t : good_head (show_Z z ++ t).
Proof. unfold show_Z. destruct (z <? 0)%Z; [cbn [app good_head]; lia|apply show_N_good]. Qed.

Lemma forallb_bytes bs : forallb (fun b => b <? 256) bs = true -> Forall (fun b => b < 256) bs.
Proof. intros H. apply Forall_forall. intros b I. rewrite forallb_forall in H. apply H in I. lia. Qed.

Lemma display_good E v l t : meaning v = Some l -> display E v = Ok t -> good_head t.
Proof.
  destruct v; cbn [meaning display]; intros M D; try discriminate.
  - destruct w; injection D as <-; first [apply show_Z_good | rewrite <- (app_nil_r (show_Z x)); apply show_Z_good].
  - destruct w; injection D as <-; first [apply show_N_good | rewrite <- (app_nil_r (show_N x)); apply show_N_good].
  - injection D as <-. cbn [show_hex256 txt app good_head]. vm_compute. repeat split; discriminate.
  - injection D as <-. cbn [quote app good_head]. lia.
  - injection D as <-. rewrite <- (app_nil_r (show_Z x)); apply show_Z_good.
  - injection D as <-. rewrite <- (app_nil_r (show_Z x)); apply show_Z_good.
  - unfold rbind in D. destruct (seq_res _); try discriminate. injection D as <-. cbn [app good_head]. lia.
  - unfold rbind in D. destruct (seq_res _); try discriminate. injection D as <-. cbn [app good_head]. lia.
  - injection D as <-. vm_compute. repeat split; discriminate.
  - destruct (negb _); [discriminate|]. unfold rbind in D. destruct (seq_res _); try discriminate.
    destruct (seq_res _); try discriminate. injection D as <-. cbn [app good_head]. lia.
Qed.

(** The reader on one rendered value. *)
Definition reads (t : text) (l : lit) : Prop :=
  forall fuel rest, (2 * length t <= fuel)%nat -> follows rest -> read_lit fuel (t ++ rest) = Some (ungroup l, rest).

Lemma follows_no_digit rest : follows rest -> match rest with c :: _ => is_digit c = false /\ c <> 120 | [] => True end.
Proof.
  destruct rest as [|c r]; [easy|]. cbn [follows In]. intros H.
  destruct H as [H|[H _]]; [repeat (destruct H as [H|H]; [subst; split; [reflexivity|discriminate]|]); destruct H|].
  subst. split; [reflexivity|discriminate].
Qed.
Lemma follows_no_quote rest : follows rest -> starts_with 39 rest = false.
Proof.
  destruct rest as [|c r]; [easy|]. cbn [follows In starts_with]. intros H.
  destruct H as [H|[H _]]; [repeat (destruct H as [H|H]; [subst; reflexivity|]); destruct H|]. now subst.
Qed.
Lemma follows_no_word rest : follows rest -> match rest with c :: _ => is_word c = false | [] => True end.
Proof.
  destruct rest as [|c r]; [easy|]. cbn [follows In]. intros H.
  destruct H as [H|[H _]]; [repeat (destruct H as [H|H]; [subst; reflexivity|]); destruct H|]. now subst.
Qed.
Lemma read_cast_none l rest : follows rest -> read_cast l rest = (l, rest).
Proof.
  intros H. unfold read_cast. change (txt "::") with [58; 58].
  replace (strip_prefix [58; 58] rest) with (@None text); [reflexivity|].
  destruct rest as [|c r]; [reflexivity|]. cbn [follows In] in H. cbn [strip_prefix].
  destruct (N.eqb_spec 58 c) as [<-|]; [|reflexivity].
  destruct H as [H|[_ H]]; [repeat (destruct H as [H|H]; [discriminate|]); destruct H|].
  destruct r as [|d r]; [reflexivity|]. cbn [starts_with] in H. rewrite N.eqb_sym in H. now rewrite H.
Qed.
Lemma read_cast_word l w rest : Forall (fun c => is_word c = true) w -> follows rest ->
  read_cast l (txt "::" ++ w ++ rest) = (LCast l w, rest).
Proof.
  intros W H. unfold read_cast. change (txt "::") with [58; 58]. cbn [app strip_prefix]. vm_compute (58 =? 58). cbv iota.
  rewrite span_app; [reflexivity|exact W|now apply follows_no_word].
Qed.

(** A rendered number: neither a bracket, a quote nor NULL. *)
Lemma read_lit_number fuel s c r : s = c :: r -> is_digit c = true ->
  read_lit (S fuel) s = match read_nat s with Some (n, rest) => Some (read_cast (LNum (Z.of_N n)) rest) | None => None end.
Proof.
  intros -> D. cbn [read_lit]. unfold is_digit in D.
  replace (c =? 39) with false by lia. replace (c =? 91) with false by lia. replace (c =? 40) with false by lia.
  replace (c =? 123) with false by lia.
  replace (strip_prefix (txt "NULL") (c :: r)) with (@None text).
  2: { change (txt "NULL") with [78; 85; 76; 76]. cbn [strip_prefix]. now replace (78 =? c) with false by lia. }
  replace (c =? 45) with false by lia. reflexivity.
Qed.
Lemma read_lit_show_N fuel n rest : (0 < fuel)%nat ->
  match rest with c :: _ => is_digit c = false /\ c <> 120 | [] => True end ->
  read_lit fuel (show_N n ++ rest) = Some (read_cast (LNum (Z.of_N n)) rest).
Proof.
  intros F R. destruct fuel as [|f]; [lia|].
  pose proof (show_N_digits n) as D. pose proof (show_N_nonempty n) as NE. pose proof (read_nat_show n rest R) as Q.
  destruct (show_N n) as [|c r] eqn:S; [easy|].
  erewrite read_lit_number; [|reflexivity|exact (Forall_inv D)]. now rewrite Q.
Qed.
Lemma read_lit_show_Z fuel z rest : (0 < fuel)%nat ->
  match rest with c :: _ => is_digit c = false /\ c <> 120 | [] => True end ->
  read_lit fuel (show_Z z ++ rest) = Some (read_cast (LNum z) rest).
Proof.
  intros F R. unfold show_Z. destruct (Z.ltb_spec z 0) as [Z0|Z0].
  - destruct fuel as [|f]; [lia|]. cbn [app read_lit].
    vm_compute (45 =? _). cbv iota. 
    replace (strip_prefix (txt "NULL") (45 :: show_N (Z.to_N (- z)) ++ rest)) with (@None text) by reflexivity.
    rewrite read_nat_show by exact R. do 3 f_equal. lia.
  - rewrite read_lit_show_N by assumption. do 3 f_equal. lia.
Qed.

Lemma seq_res_ok {A} (l : list (res A)) r : seq_res l = Ok r -> Forall2 (fun a b => a = Ok b) l r.
Proof.
  revert r; induction l as [|[a|e|] l IH]; intros r H; cbn [seq_res] in H; try discriminate.
  - injection H as <-. constructor.
  - destruct (seq_res l) as [t| |]; try discriminate. injection H as <-. constructor; [reflexivity|now apply IH].
Qed.
Lemma opt_list_ok {A B} (f : A -> option B) l r : opt_list f l = Some r -> Forall2 (fun a b => f a = Some b) l r.
Proof.
  revert r; induction l as [|a l IH]; intros r H; cbn [opt_list] in H.
  - injection H as <-. constructor.
  - fold (opt_list f) in H. destruct (f a) eqn:E; [|discriminate]. destruct (opt_list f l) as [t|]; [|discriminate].
    injection H as <-. constructor; [assumption|now apply IH].
Qed.
Lemma Forall2_map_l {A B C} (f : A -> B) (P : B -> C -> Prop) l r :
  Forall2 P (map f l) r <-> Forall2 (fun a c => P (f a) c) l r.
Proof.
  split.
  - revert r; induction l as [|a l IH]; intros r H; inversion H; subst; constructor; auto.
  - induction 1; constructor; auto.
Qed.

Lemma comma_join_cons t ts : ts <> [] -> comma_join (t :: ts) = t ++ [44] ++ comma_join ts.
Proof. destruct ts; [easy|reflexivity]. Qed.

(** A list of items, each readable, is readable up to its closing bracket. *)
Lemma read_items_ok close : (close = 93 \/ close = 41) -> forall ts ls, Forall2 reads ts ls -> Forall good_head ts -> ts <> [] ->
  forall fuel rest, (2 * length (comma_join ts) < fuel)%nat ->
  read_items fuel close (comma_join ts ++ close :: rest) = Some (map ungroup ls, rest).
Proof.
  intros C ts ls H. induction H as [|t l ts ls R Rs IH]; intros G NE fuel rest F; [easy|].
  destruct fuel as [|f]; [lia|]. cbn [read_items].
  destruct ts as [|t2 ts].
  - inversion Rs; subst. cbn [comma_join] in *. rewrite R; [|lia|cbn [follows In]; destruct C; subst; auto 8].
    rewrite N.eqb_refl. reflexivity.
  - rewrite comma_join_cons in F |- * by discriminate.
    rewrite <- !app_assoc. rewrite !app_length in F. cbn [length] in F.
    rewrite R; [|lia|cbn [follows In app]; auto 8]. cbn [app].
    replace (44 =? close) with false by (destruct C; subst; reflexivity). vm_compute (44 =? 44). cbv iota.
    rewrite IH; [reflexivity|exact (Forall_inv_tail G)|discriminate|lia].
Qed.

Lemma good_strip c t rest : good_head t -> In c [93; 41; 125] -> strip_prefix [c] (t ++ rest) = None.
Proof.
  destruct t as [|d t]; [easy|]. cbn [good_head In app strip_prefix]. intros H I.
  destruct (N.eqb_spec c d) as [->|]; [|reflexivity]. exfalso. destruct H as (A & B & C & _).
  destruct I as [I|[I|[I|[]]]]; subst; congruence.
Qed.
Lemma good_join ts : Forall good_head ts -> ts <> [] -> good_head (comma_join ts).
Proof.
  destruct ts as [|t [|t2 ts]]; [easy|intros H _; exact (Forall_inv H)|].
  intros H _. apply Forall_inv in H. cbn [comma_join]. destruct t as [|c t]; [easy|exact H].
Qed.


Lemma read_pairs_ok kts kls vts vls : Forall2 reads kts kls -> Forall2 reads vts vls ->
  Forall good_head kts -> Forall good_head vts -> length kts = length vts -> kts <> [] ->
  forall fuel rest, (2 * length (comma_join (map map_entry (combine kts vts))) < fuel)%nat ->
  read_pairs fuel (comma_join (map map_entry (combine kts vts)) ++ 125 :: rest)
  = Some (map (fun kv => (ungroup (fst kv), ungroup (snd kv))) (combine kls vls), rest).
Proof.
  intros HK. revert vts vls. induction HK as [|k lk kts kls RK RKs IH]; intros vts vls HV GK GV L NE fuel rest F; [easy|].
  destruct HV as [|v lv vts vls RV RVs]; [discriminate|].
  destruct fuel as [|f]; [lia|]. cbn [combine map fst snd] in *.
  pose proof (Forall_inv GV) as Gv.
  assert (FK : forall t, follows ([58] ++ v ++ t)).
  { intros t. right. split; [reflexivity|]. destruct v as [|c v]; [easy|]. cbn [good_head app starts_with] in *. lia. }
  destruct kts as [|k2 kts].
  - inversion RKs; subst. destruct vts; [|discriminate]. inversion RVs; subst. cbn [combine map comma_join] in *. unfold map_entry in *. cbn [fst snd] in *.
    rewrite !app_length in F. cbn [length] in F. cbn [read_pairs]. rewrite <- !app_assoc.
    rewrite RK; [|lia|apply FK]. cbn [app strip_prefix]. vm_compute (58 =? 58). cbv iota.
    rewrite RV; [|lia|cbn [follows In]; auto 8]. vm_compute (125 =? 125). reflexivity.
  - destruct vts as [|v2 vts]; [discriminate|]. rewrite comma_join_cons in F |- * by discriminate.
    rewrite app_length in F. unfold map_entry in F at 1. unfold map_entry at 1. cbn [fst snd] in F |- *.
    rewrite !app_length in F. cbn [length] in F. cbn [read_pairs]. rewrite <- !app_assoc.
    rewrite RK; [|lia|apply FK]. cbn [app strip_prefix]. vm_compute (58 =? 58). cbv iota.
    rewrite RV; [|lia|cbn [follows In]; auto 8]. vm_compute (44 =? _). cbv iota.
    rewrite (IH (v2 :: vts) vls); [reflexivity|exact RVs|exact (Forall_inv_tail GK)|exact (Forall_inv_tail GV)| |discriminate|lia].
    cbn [length] in *. lia.
Qed.

Lemma Forall2_length' {A B} (P : A -> B -> Prop) l r : Forall2 P l r -> length l = length r.
Proof. induction 1; cbn [length]; congruence. Qed.

(** Pairing up renderings and meanings of a list of values. *)
Lemma zip_reads E l ts ls :
  Forall (fun v => forall lv t, meaning v = Some lv -> display E v = Ok t -> reads t lv) l ->
  Forall2 (fun v b => display E v = Ok b) l ts -> Forall2 (fun v b => meaning v = Some b) l ls ->
  Forall2 reads ts ls /\ Forall good_head ts.
Proof.
  intros H D M. revert ts ls D M. induction H as [|v l HV _ IH]; intros ts ls D M.
  - inversion D; inversion M; subst. split; constructor.
  - inversion D as [|? t ? ts' D1 D2]; inversion M as [|? lv ? ls' M1 M2]; subst.
    destruct (IH ts' ls' D2 M2) as [A B]. split; constructor; auto. eapply display_good; eassumption.
Qed.

Lemma ungroup_tuple_many l : length l <> 1%nat -> ungroup (LTup l) = LTup (map ungroup l).
Proof. destruct l as [|x [|y l]]; [reflexivity|cbn [length]; congruence|reflexivity]. Qed.

Lemma display_reads E v : forall l t, meaning v = Some l -> display E v = Ok t -> reads t l.
Proof.
  induction v as [v L|vs H|vs H|ks vs HK HV] using value_nested_ind; intros l t M D fuel rest F R.
  - assert (T : (0 < length t)%nat).
    { pose proof (display_good E v l t M D). destruct t; [easy|cbn [length]; lia]. }
    assert (W1 : Forall (fun c => is_word c = true) (txt "Int128")) by (repeat constructor).
    assert (W2 : Forall (fun c => is_word c = true) (txt "UInt128")) by (repeat constructor).
    assert (W3 : Forall (fun c => is_word c = true) (txt "UInt256")) by (repeat constructor).
    destruct v; cbn [meaning display] in M, D; try discriminate; try (destruct L; fail).
    + destruct w; injection M as <-; injection D as <-; cbn [ungroup];
        try (rewrite read_lit_show_Z by (first [lia | now apply follows_no_digit]); now rewrite read_cast_none).
      change (txt "::Int128") with (txt "::" ++ txt "Int128"). rewrite <- !app_assoc.
      rewrite read_lit_show_Z by (first [lia | now split]). now rewrite read_cast_word.
    + destruct w; injection M as <-; injection D as <-; cbn [ungroup];
        try (rewrite read_lit_show_N by (first [lia | now apply follows_no_digit]); now rewrite read_cast_none).
      change (txt "::UInt128") with (txt "::" ++ txt "UInt128"). rewrite <- !app_assoc.
      rewrite read_lit_show_N by (first [lia | now split]). now rewrite read_cast_word.
    + destruct (_ && _) eqn:B; [|discriminate]. apply andb_true_iff in B as [B1 B2].
      injection M as <-. assert (D' : t = show_hex256 be ++ txt "::UInt256") by congruence. subst t. clear D. cbn [ungroup].
      change (txt "::UInt256") with (txt "::" ++ txt "UInt256"). rewrite <- !app_assoc.
      assert (Q : read_nat (show_hex256 be ++ txt "::" ++ txt "UInt256" ++ rest) = Some (be_number be, txt "::" ++ txt "UInt256" ++ rest)).
      { apply read_nat_hex256; [now apply forallb_bytes|intros ->; discriminate|reflexivity]. }
      destruct fuel as [|f]; [lia|].
      erewrite read_lit_number; [|reflexivity|reflexivity]. 
      change (48 :: _) with (show_hex256 be ++ txt "::" ++ txt "UInt256" ++ rest). rewrite Q. now rewrite read_cast_word.
    + destruct (forallb _ _) eqn:B; [|discriminate]. injection M as <-; injection D as <-. cbn [ungroup].
      destruct fuel as [|f]; [lia|]. cbn [read_lit quote app]. vm_compute (39 =? 39). cbv iota.
      pose proof (read_quote bs rest (forallb_bytes _ B) (follows_no_quote _ R)) as Q.
      unfold quote, read_string in Q. cbn [app] in Q. vm_compute (39 =? 39) in Q. cbv iota in Q. now rewrite Q.
    + injection M as <-; injection D as <-. cbn [ungroup].
      rewrite read_lit_show_Z by (first [lia | now apply follows_no_digit]); now rewrite read_cast_none.
    + injection M as <-; injection D as <-. cbn [ungroup].
      rewrite read_lit_show_Z by (first [lia | now apply follows_no_digit]); now rewrite read_cast_none.
    + injection M as <-; injection D as <-. cbn [ungroup].
      destruct fuel as [|f]; [lia|]. reflexivity.
  - cbn [meaning display] in M, D. destruct (opt_list meaning vs) as [ls|] eqn:ML; [|discriminate].
    cbn [option_map] in M. injection M as <-.
    destruct (seq_res (map (display E) vs)) as [ts| |] eqn:DL; try discriminate. cbn [rbind] in D. injection D as <-.
    apply opt_list_ok in ML. apply seq_res_ok, Forall2_map_l in DL. destruct (zip_reads E vs ts ls H DL ML) as [A G].
    cbn [app length] in F. rewrite app_length in F. cbn [length] in F.
    destruct fuel as [|f]; [lia|]. cbn [app read_lit]. vm_compute (91 =? _). cbv iota.
    rewrite <- app_assoc. cbn [app]. destruct ts as [|t1 ts].
    + inversion A; subst. cbn [comma_join app strip_prefix]. vm_compute (93 =? 93). reflexivity.
    + rewrite good_strip; [|apply good_join; [exact G|discriminate]|cbn [In]; auto].
      rewrite (read_items_ok 93 (or_introl eq_refl) (t1 :: ts) ls); [reflexivity|exact A|exact G|discriminate|lia].
  - cbn [meaning display] in M, D. destruct (opt_list meaning vs) as [ls|] eqn:ML; [|discriminate].
    cbn [option_map] in M. injection M as <-.
    destruct (seq_res (map (display E) vs)) as [ts| |] eqn:DL; try discriminate. cbn [rbind] in D. injection D as <-.
    apply opt_list_ok in ML. apply seq_res_ok, Forall2_map_l in DL. destruct (zip_reads E vs ts ls H DL ML) as [A G].
    cbn [app length] in F. rewrite app_length in F. cbn [length] in F.
    destruct fuel as [|f]; [lia|]. cbn [app read_lit]. vm_compute (40 =? _). cbv iota.
    rewrite <- app_assoc. cbn [app]. destruct ts as [|t1 ts].
    + inversion A; subst. cbn [comma_join app strip_prefix]. vm_compute (41 =? 41). reflexivity.
    + rewrite good_strip; [|apply good_join; [exact G|discriminate]|cbn [In]; auto].
      rewrite (read_items_ok 41 (or_intror eq_refl) (t1 :: ts) ls); [|exact A|exact G|discriminate|lia].
      destruct ls as [|l1 [|l2 ls]]; [inversion A|reflexivity|reflexivity].
  - cbn [meaning display] in M, D. destruct (N.eqb_spec (lenN ks) (lenN vs)) as [LN|]; [|discriminate].
    cbn [negb] in D.
    destruct (opt_list meaning ks) as [lks|] eqn:MK; [|discriminate].
    destruct (opt_list meaning vs) as [lvs|] eqn:MV; [|discriminate]. injection M as <-.
    destruct (seq_res (map (display E) ks)) as [tks| |] eqn:DK; try discriminate. cbn [rbind] in D.
    destruct (seq_res (map (display E) vs)) as [tvs| |] eqn:DV; try discriminate. cbn [rbind] in D. injection D as <-.
    apply opt_list_ok in MK. apply seq_res_ok, Forall2_map_l in DK. destruct (zip_reads E ks tks lks HK DK MK) as [AK GK].
    apply opt_list_ok in MV. apply seq_res_ok, Forall2_map_l in DV. destruct (zip_reads E vs tvs lvs HV DV MV) as [AV GV].
    apply Forall2_length' in DK as LK. apply Forall2_length' in DV as LV.
    assert (LT : length tks = length tvs) by (unfold lenN in LN; lia).
    cbn [app length] in F. rewrite app_length in F. cbn [length] in F.
    destruct fuel as [|f]; [lia|]. cbn [app read_lit]. vm_compute (123 =? _). cbv iota.
    rewrite <- app_assoc. cbn [app]. destruct tks as [|k1 tks].
    + inversion AK; subst. destruct tvs; [|discriminate]. inversion AV; subst.
      cbn [combine map comma_join app strip_prefix]. vm_compute (125 =? 125). reflexivity.
    + rewrite good_strip; [| |cbn [In]; auto].
      * erewrite read_pairs_ok; [|exact AK|exact AV|exact GK|exact GV|exact LT|discriminate|lia]. reflexivity.
      * destruct tvs as [|v1 tvs]; [discriminate|]. apply good_join; [|discriminate].
        clear - GK. revert tvs v1. generalize (k1 :: tks), GK. clear.
        intros l G. induction G as [|k l K _ IH]; intros tvs v1; [constructor|]. cbn [combine map]. constructor.
        -- unfold map_entry; cbn [fst]. destruct k; [easy|exact K].
        -- destruct tvs as [|v2 tvs]; [destruct l; constructor|apply IH].
Qed.

Lemma display_meaning_ok E v l : meaning v = Some l -> exists t, display E v = Ok t.
Proof.
  assert (S : forall vs ls, Forall (fun v => forall l, meaning v = Some l -> exists t, display E v = Ok t) vs ->
    opt_list meaning vs = Some ls -> exists ts, seq_res (map (display E) vs) = Ok ts).
  { clear. intros vs ls H. revert ls. induction H as [|v vs HV _ IH]; intros ls M; [now exists []|].
    cbn [opt_list] in M. fold (opt_list meaning) in M. destruct (meaning v) eqn:M1; [|discriminate].
    destruct (opt_list meaning vs) eqn:M2; [|discriminate]. destruct (HV _ eq_refl) as [t T]. destruct (IH _ eq_refl) as [ts TS].
    exists (t :: ts). cbn [map seq_res]. now rewrite T, TS. }
  revert l. induction v as [v L|vs H|vs H|ks vs HK HV] using value_nested_ind; intros l M.
  - destruct v; cbn [meaning display] in *; try discriminate; try (destruct L; fail); try (destruct w); eexists; reflexivity.
  - cbn [meaning display] in *. destruct (opt_list meaning vs) eqn:ML; [|discriminate].
    destruct (S _ _ H ML) as [ts ->]. eexists; reflexivity.
  - cbn [meaning display] in *. destruct (opt_list meaning vs) eqn:ML; [|discriminate].
    destruct (S _ _ H ML) as [ts ->]. eexists; reflexivity.
  - cbn [meaning display] in *. destruct (_ =? _); [|discriminate].
    destruct (opt_list meaning ks) eqn:MK; [|discriminate]. destruct (opt_list meaning vs) eqn:MV; [|discriminate].
    destruct (S _ _ HK MK) as [ts ->]. destruct (S _ _ HV MV) as [ts' ->]. eexists; reflexivity.
Qed.

Lemma read_literal_display E v l t rest : meaning v = Some l -> display E v = Ok t -> follows rest ->
  read_literal (t ++ rest) = Some (ungroup l, rest).
Proof.
  intros M D R. unfold read_literal. apply (display_reads E v l t M D); [rewrite app_length; lia|exact R].
Qed.

(* ---------------- tuples of one element ---------------- *)

Fixpoint lit_size (l : lit) : nat :=
  match l with
  | LCast x _ => S (lit_size x)
  | LArr l | LTup l => S (list_sum (map lit_size l))
  | LMap l => S (list_sum (map (fun kv => lit_size (fst kv) + lit_size (snd kv))%nat l))
  | _ => 1%nat
  end.
Section LitInd.
  Variable P : lit -> Prop.
  Hypothesis HN : forall z, P (LNum z).
  Hypothesis HS : forall s, P (LStr s).
  Hypothesis HU : P LNull.
  Hypothesis HC : forall x t, P x -> P (LCast x t).
  Hypothesis HA : forall l, Forall P l -> P (LArr l).
  Hypothesis HT : forall l, Forall P l -> P (LTup l).
  Hypothesis HM : forall l, Forall (fun kv => P (fst kv) /\ P (snd kv)) l -> P (LMap l).
  Fixpoint lit_nested_ind (x : lit) : P x :=
    let go := fix go l : Forall P l := match l with [] => Forall_nil _ | x :: r => Forall_cons _ (lit_nested_ind x) (go r) end in
    match x with
    | LNum z => HN z | LStr s => HS s | LNull => HU
    | LCast y t => HC y t (lit_nested_ind y)
    | LArr l => HA l (go l)
    | LTup l => HT l (go l)
    | LMap l => HM l ((fix gom l : Forall (fun kv => P (fst kv) /\ P (snd kv)) l :=
        match l with [] => Forall_nil _
        | (k, v) :: r => @Forall_cons _ (fun kv => P (fst kv) /\ P (snd kv)) (k, v) r (conj (lit_nested_ind k) (lit_nested_ind v)) (gom r) end) l)
    end.
End LitInd.

Lemma list_sum_le {A} (f g : A -> nat) l : Forall (fun a => (f a <= g a)%nat) l ->
  (list_sum (map f l) <= list_sum (map g l))%nat.
Proof. unfold list_sum. induction 1; cbn [map fold_right]; lia. Qed.
Lemma ungroup_size l : (lit_size (ungroup l) <= lit_size l)%nat.
Proof.
  induction l using lit_nested_ind; cbn [ungroup lit_size]; try lia.
  - rewrite map_map. apply le_n_S, list_sum_le. exact H.
  - assert (Q : (lit_size (LTup (map ungroup l)) <= lit_size (LTup l))%nat).
    { cbn [lit_size]. rewrite map_map. apply le_n_S, list_sum_le. exact H. }
    destruct l as [|x [|y l]]; [exact Q| |exact Q].
    apply Forall_inv in H. unfold list_sum. cbn [map fold_right]. lia.
  - rewrite map_map. apply le_n_S, list_sum_le. cbn [fst snd]. eapply Forall_impl; [|exact H]. cbv beta. intros; lia.
Qed.

Lemma map_fix_iff {A} (f : A -> A) l : map f l = l <-> Forall (fun a => f a = a) l.
Proof.
  induction l as [|a l IH]; [split; constructor|]. cbn [map]. split; intros H.
  - injection H as H1 H2. constructor; [exact H1|now apply IH].
  - rewrite (Forall_inv H). f_equal. apply IH, (Forall_inv_tail H).
Qed.

Lemma ungroup_fixed v : forall l, meaning v = Some l -> (ungroup l = l <-> no_single v = true).
Proof.
  assert (Q : forall vs ls, Forall (fun v => forall l, meaning v = Some l -> (ungroup l = l <-> no_single v = true)) vs ->
    Forall2 (fun v l => meaning v = Some l) vs ls -> (map ungroup ls = ls <-> forallb no_single vs = true)).
  { clear. intros vs ls H M. revert H. induction M as [|v l vs ls M1 M2 IH]; intros H; [split; reflexivity|].
    cbn [map forallb]. rewrite andb_true_iff. rewrite <- (Forall_inv H l M1), <- (IH (Forall_inv_tail H)).
    split; [intros E; injection E as E1 E2; now split|intros [-> ->]; reflexivity]. }
  induction v as [v L|vs H|vs H|ks vs HK HV] using value_nested_ind; intros l M.
  - destruct v; cbn [meaning no_single] in *; try discriminate; try (destruct L; fail); try (destruct w);
      try (destruct (forallb _ _)); try (destruct (_ && _)); try discriminate; injection M as <-; cbn [ungroup]; split; reflexivity.
  - cbn [meaning no_single] in *. destruct (opt_list meaning vs) as [ls|] eqn:ML; [|discriminate].
    injection M as <-. apply opt_list_ok in ML. cbn [ungroup]. rewrite <- (Q vs ls H ML).
    split; [intros E; now injection E|intros ->; reflexivity].
  - cbn [meaning no_single] in *. destruct (opt_list meaning vs) as [ls|] eqn:ML; [|discriminate].
    injection M as <-. apply opt_list_ok in ML. apply Forall2_length' in ML as LL.
    destruct (N.eqb_spec (lenN vs) 1) as [E|E].
    + cbn [negb andb]. split; [|discriminate]. intros U. exfalso.
      destruct ls as [|x [|y ls]]; unfold lenN in E; cbn [length] in LL; try lia.
      cbn [ungroup] in U. pose proof (ungroup_size x) as S. rewrite U in S. cbn [lit_size map] in S.
      unfold list_sum in S. cbn [fold_right] in S. lia.
    + cbn [negb andb]. rewrite <- (Q vs ls H ML). rewrite ungroup_tuple_many by (unfold lenN in E; lia).
      split; [intros U; now injection U|intros ->; reflexivity].
  - cbn [meaning no_single] in *. destruct (N.eqb_spec (lenN ks) (lenN vs)) as [LN|]; [|discriminate].
    destruct (opt_list meaning ks) as [lks|] eqn:MK; [|discriminate].
    destruct (opt_list meaning vs) as [lvs|] eqn:MV; [|discriminate]. injection M as <-.
    apply opt_list_ok in MK. apply opt_list_ok in MV. apply Forall2_length' in MK as LK. apply Forall2_length' in MV as LV.
    rewrite andb_true_iff, <- (Q ks lks HK MK), <- (Q vs lvs HV MV). cbn [ungroup].
    assert (LL : length lks = length lvs) by (unfold lenN in LN; lia).
    assert (Z : map (fun kv => (ungroup (fst kv), ungroup (snd kv))) (combine lks lvs) = combine lks lvs <->
      map ungroup lks = lks /\ map ungroup lvs = lvs).
    { clear - LL. revert lvs LL. induction lks as [|k lks IH]; intros [|v lvs] LL; try discriminate; [easy|].
      cbn [combine map fst snd]. cbn [length] in LL. specialize (IH lvs ltac:(lia)). split.
      - intros X. injection X as X1 X2 X3. apply IH in X3 as [-> ->]. now rewrite X1, X2.
      - intros [X Y]. injection X as -> X. injection Y as -> Y. f_equal. apply IH. now split. }
    rewrite <- Z. split; [intros U; now injection U|intros ->; reflexivity].
Qed.

(* ---------------- panics ---------------- *)

Lemma seq_res_panic E vs : Forall (fun v => (display E v = Panic <-> fmt_panics v = true) /\ forall e, display E v <> Err e) vs ->
  (seq_res (map (display E) vs) = Panic <-> existsb fmt_panics vs = true) /\ forall e, seq_res (map (display E) vs) <> Err e.
Proof.
  induction 1 as [|v vs [P1 P2] _ [IH1 IH2]]; [split; [split; discriminate|discriminate]|]. cbn [map seq_res existsb].
  destruct (display E v) as [t|e|] eqn:D.
  - assert (F : fmt_panics v = false) by (destruct (fmt_panics v); [destruct P1 as [_ P1]; now specialize (P1 eq_refl)|reflexivity]).
    rewrite F. cbn [orb]. destruct (seq_res (map (display E) vs)) as [ts|e|] eqn:S.
    + rewrite <- IH1. split; [split; discriminate|discriminate].
    + now destruct (IH2 e).
    + rewrite <- IH1. split; [split; reflexivity|discriminate].
  - now destruct (P2 e).
  - rewrite (proj1 P1 eq_refl). split; [split; reflexivity|discriminate].
Qed.

Lemma display_panics E v : (display E v = Panic <-> fmt_panics v = true) /\ forall e, display E v <> Err e.
Proof.
  induction v as [v L|vs H|vs H|ks vs HK HV] using value_nested_ind.
  - destruct v; cbn [display fmt_panics]; try (destruct L; fail); try (destruct w); try (split; [split; discriminate|discriminate]);
      try (split; [split; reflexivity|discriminate]).
    destruct (_ || _); split; try discriminate; split; (reflexivity || discriminate).
  - cbn [display fmt_panics]. destruct (seq_res_panic E vs H) as [A B].
    destruct (seq_res _) eqn:S; cbn [rbind]; [rewrite <- A; split; [split; discriminate|discriminate]|now destruct (B e)|].
    rewrite <- A. split; [easy|discriminate].
  - cbn [display fmt_panics]. destruct (seq_res_panic E vs H) as [A B].
    destruct (seq_res _) eqn:S; cbn [rbind]; [rewrite <- A; split; [split; discriminate|discriminate]|now destruct (B e)|].
    rewrite <- A. split; [easy|discriminate].
  - cbn [display fmt_panics]. destruct (lenN ks =? lenN vs); cbn [negb orb]; [|split; [easy|discriminate]].
    destruct (seq_res_panic E ks HK) as [A B]. destruct (seq_res_panic E vs HV) as [A' B'].
    destruct (seq_res (map _ ks)) eqn:S; cbn [rbind].
    + assert (F : existsb fmt_panics ks = false) by (destruct (existsb fmt_panics ks); [destruct A as [_ A]; now specialize (A eq_refl)|reflexivity]).
      rewrite F. cbn [orb].
      destruct (seq_res (map _ vs)) eqn:S'; cbn [rbind]; [rewrite <- A'; split; [split; discriminate|discriminate]|now destruct (B' e)|].
      rewrite <- A'. split; [easy|discriminate].
    + now destruct (B e).
    + rewrite (proj1 A eq_refl). split; [easy|discriminate].
Qed.
