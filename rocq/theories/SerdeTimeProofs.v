(** Proofs about the serde forms of dates and times, and a parser that meets the assumptions. *)
From Coq Require Import String Lia.
From Verif Require Import Base Types Text Numeral NumeralProofs LiteralSpec LiteralProofs Calendar CalendarSpec CalendarProofs ScalarProofs Numeric NumericProofs SerdeTime.
Local Open Scope list_scope.
Local Open Scope N_scope.

(* ---------------- a parser ---------------- *)
Definition take_num (k : nat) (s : text) : option (N * text) :=
  if (length (firstn k s) =? k)%nat then option_map (fun n => (n, skipn k s)) (parse_digits (firstn k s)) else None.
Definition take_char (c : N) (s : text) : option text := match s with x :: r => if x =? c then Some r else None | [] => None end.
Notation "'do' x <= e ; f" := (match e with Some x => f | None => None end) (at level 200, x pattern, e at level 100, f at level 200).
Definition take_fraction (s : text) : option (N * text) :=
  match take_char 46 s with
  | Some r => let (ds, rest) := span is_digit r in do n <= parse_digits ds; Some (n * 10 ^ (9 - lenN ds), rest)
  | None => Some (0, s)
  end.
Definition hours_minutes (s : text) : option N := do (h, r) <= take_num 2 s; do r <= take_char 58 r; do (m, _) <= take_num 2 r; Some (h * 3600 + m * 60).
Definition take_zone (s : text) : option Z :=
  match take_char 90 s, take_char 43 s, take_char 45 s with
  | Some _, _, _ => Some 0%Z
  | _, Some r, _ => option_map Z.of_N (hours_minutes r)
  | _, _, Some r => option_map (fun n => (- Z.of_N n)%Z) (hours_minutes r)
  | _, _, _ => None
  end.
Definition take_date (s : text) : option (Z * text) :=
  do (y, r) <= take_num 4 s; do r <= take_char 45 r; do (m, r) <= take_num 2 r; do r <= take_char 45 r; do (d, r) <= take_num 2 r;
  Some (day_num (Z.of_N y, m, d), r).
Definition strict_3339 (s : text) : option (Z * N) :=
  do (n, r) <= take_date s; do r <= take_char 84 r;
  do (h, r) <= take_num 2 r; do r <= take_char 58 r; do (mi, r) <= take_num 2 r; do r <= take_char 58 r; do (sec, r) <= take_num 2 r;
  do (f, r) <= take_fraction r; do o <= take_zone r;
  Some ((n * 86400 + Z.of_N h * 3600 + Z.of_N mi * 60 + Z.of_N sec - o)%Z, f).
Definition strict_iso (s : text) : option Z := do (n, r) <= take_date s; match r with [] => Some n | _ => None end.
Definition strict : chrono_de := {| parse_3339 := strict_3339; parse_iso := strict_iso |}.

Lemma take_num_ok k a n r : digits k a n -> take_num k (a ++ r) = Some (n, r).
Proof.
  intros [L P]. apply parse_digits_iff in P. unfold take_num. rewrite firstn_exact, skipn_exact by exact L. rewrite L, Nat.eqb_refl, P. reflexivity.
Qed.
Lemma take_char_ok c r : take_char c (c :: r) = Some r.
Proof. cbn [take_char]. now rewrite N.eqb_refl. Qed.
Lemma hours_minutes_ok hs ms h m : digits 2 hs h -> digits 2 ms m -> hours_minutes (hs ++ 58 :: ms) = Some (h * 3600 + m * 60).
Proof.
  intros A B. unfold hours_minutes. rewrite (take_num_ok _ _ _ _ A), take_char_ok. rewrite <- (app_nil_r ms), (take_num_ok _ _ _ _ B). reflexivity.
Qed.
Lemma take_zone_ok z o : zone z o -> take_zone z = Some o.
Proof.
  intros H. apply zone_cases in H. destruct H as [[-> ->]|(hs & ms & h & m & Dh & Dm & [[-> ->]|[-> ->]])]; [reflexivity| |];
    unfold take_zone; cbn [take_char]; [change (43 =? 90) with false; change (43 =? 43) with true|change (45 =? 90) with false; change (45 =? 43) with false; change (45 =? 45) with true];
    cbv iota; rewrite (hours_minutes_ok _ _ _ _ Dh Dm); reflexivity.
Qed.
Lemma take_fraction_ok f n z o : fraction f n -> zone z o -> take_fraction (f ++ z) = Some (n, z).
Proof.
  intros F Z. destruct (zone_head _ _ Z) as (c & r & -> & C & C46). destruct (fraction_head _ _ F) as [[-> ->]|(k & s & m & -> & K & D & ->)].
  - cbn [app]. unfold take_fraction, take_char. destruct (N.eqb_spec c 46); [congruence|reflexivity].
  - cbn [app]. unfold take_fraction. rewrite take_char_ok. rewrite span_app; [|exact (digits_all _ _ _ D)|exact C]. destruct D as [L D]. apply parse_digits_iff in D. rewrite D. unfold lenN. now rewrite L.
Qed.
Lemma take_date_ok ys ms ds y m d n r : digits 4 ys y -> digits 2 ms m -> digits 2 ds d -> day n (Z.of_N y, m, d) ->
  take_date (ys ++ 45 :: ms ++ 45 :: ds ++ r) = Some (n, r).
Proof.
  intros A B C D. unfold take_date. rewrite (take_num_ok _ _ _ _ A), take_char_ok, (take_num_ok _ _ _ _ B), take_char_ok, (take_num_ok _ _ _ _ C).
  apply day_civil in D. rewrite <- D, (proj2 (civil_spec n)). reflexivity.
Qed.
Theorem strict_reads s secs nanos : instant_text s secs nanos -> parse_3339 strict s = Some (secs, nanos).
Proof.
  intros (ys & ms & ds & hs & is & ss & fs & zs & y & m & d & h & mi & sec & k & off & Dy & Dm & Dd & Dh & Di & Ds & C & _ & _ & _ & F & Z & -> & ->).
  cbn [strict parse_3339]. unfold strict_3339. change (txt "-") with [45]. change (txt "T") with [84]. change (txt ":") with [58]. cbn [app].
  rewrite (take_date_ok _ _ _ _ _ _ _ _ Dy Dm Dd C), take_char_ok, (take_num_ok _ _ _ _ Dh), take_char_ok, (take_num_ok _ _ _ _ Di), take_char_ok, (take_num_ok _ _ _ _ Ds).
  rewrite (take_fraction_ok _ _ _ _ F Z), (take_zone_ok _ _ Z). reflexivity.
Qed.
Theorem strict_reads_iso s n : date_text_iso s n -> parse_iso strict s = Some n.
Proof.
  intros (ys & ms & ds & y & m & d & Dy & Dm & Dd & -> & C). cbn [strict parse_iso]. unfold strict_iso. change (txt "-") with [45]. cbn [app].
  rewrite <- (app_nil_r ds). now rewrite (take_date_ok _ _ _ _ _ _ _ _ Dy Dm Dd C).
Qed.
