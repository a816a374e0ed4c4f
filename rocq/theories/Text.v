(** Text: Unicode scalar values, the [str] methods the crate uses, decimal numbers. *)
From Coq Require Import String Ascii.
From Verif Require Import Base Types.

(** An ASCII literal of the Rust source as text. *)
Definition txt (s : string) : text := map N_of_ascii (list_ascii_of_string s).
Definition text_eqb : text -> text -> bool := list_eqb N.eqb.

Lemma list_eqb_N_spec l m : list_eqb N.eqb l m = true <-> l = m.
Proof.
  revert m; induction l as [|x l IH]; intros [|y m]; cbn [list_eqb]; split; intros H; try easy.
  - apply andb_true_iff in H as [H1 H2]. apply N.eqb_eq in H1 as ->. now apply IH in H2 as ->.
  - injection H as -> ->. rewrite N.eqb_refl. cbn [andb]. now apply IH.
Qed.
Lemma text_eqb_eq a b : text_eqb a b = true <-> a = b.
Proof. apply list_eqb_N_spec. Qed.
Lemma text_eqb_refl a : text_eqb a a = true.
Proof. now apply text_eqb_eq. Qed.
Lemma text_eqb_neq a b : text_eqb a b = false <-> a <> b.
Proof.
  split.
  - intros H ->. now rewrite text_eqb_refl in H.
  - intros H. destruct (text_eqb a b) eqn:E; [|reflexivity]. now apply text_eqb_eq in E.
Qed.

(** The Unicode tables behind [char::is_alphabetic], [is_numeric] and [is_whitespace]
    above ASCII, and the time-zone database of chrono-tz: external to the crate. *)
Record unicode := {
  u_alpha : N -> bool; u_num : N -> bool; u_space : N -> bool
}.

Definition is_alpha (U : unicode) (c : N) : bool :=
  if c <? 128 then ((65 <=? c) && (c <=? 90)) || ((97 <=? c) && (c <=? 122)) else u_alpha U c.
Definition is_digit (c : N) : bool := (48 <=? c) && (c <=? 57).
Definition is_num (U : unicode) (c : N) : bool := if c <? 128 then is_digit c else u_num U c.
Definition is_space (U : unicode) (c : N) : bool :=
  if c <? 128 then ((9 <=? c) && (c <=? 13)) || (c =? 32) else u_space U c.

(** [str::trim] *)
Fixpoint trim_start (U : unicode) (s : text) : text :=
  match s with [] => [] | c :: r => if is_space U c then trim_start U r else s end.
Definition trim_end (U : unicode) (s : text) : text := rev (trim_start U (rev s)).
Definition trim (U : unicode) (s : text) : text := trim_end U (trim_start U s).

(** [str::split_once(c)] *)
Fixpoint split_once (c : N) (s : text) : option (text * text) :=
  match s with
  | [] => None
  | x :: r => if x =? c then Some ([], r) else
      match split_once c r with Some (a, b) => Some (x :: a, b) | None => None end
  end.

(** [starts_with(c)] / [ends_with(c)] for one character *)
Definition starts_with (c : N) (s : text) : bool := match s with x :: _ => x =? c | [] => false end.
Definition ends_with (c : N) (s : text) : bool := starts_with c (rev s).
(** [&s[1..s.len() - 1]]: panics on a text of one character (the byte range 1..0). *)
Definition strip_ends (s : text) : res text :=
  match s with [] | [_] => Panic | _ :: r => Ok (removelast r) end.

(** [items.join(",")] *)
Fixpoint join (sep : text) (l : list text) : text :=
  match l with [] => [] | [x] => x | x :: r => x ++ sep ++ join sep r end.

(* ---------------- decimal numbers ---------------- *)

(** Display of an unsigned integer; the fuel is never exhausted ([show_N_digits]). *)
Fixpoint show_go (fuel : nat) (n : N) (acc : text) : text :=
  match fuel with
  | O => acc
  | S f => let acc' := (48 + n mod 10) :: acc in if n / 10 =? 0 then acc' else show_go f (n / 10) acc'
  end.
Definition show_N (n : N) : text := show_go (S (N.size_nat n)) n [].
(** Display of a signed integer *)
Definition show_Z (z : Z) : text :=
  if (z <? 0)%Z then 45 :: show_N (Z.to_N (- z)) else show_N (Z.to_N z).

Fixpoint digits_val (acc : N) (s : text) : option N :=
  match s with
  | [] => Some acc
  | c :: r => if is_digit c then digits_val (acc * 10 + (c - 48)) r else None
  end.
Definition parse_digits (s : text) : option N := match s with [] => None | _ => digits_val 0 s end.

(** [str::parse::<usize>()]: optional '+', at least one digit, no overflow. *)
Definition parse_usize (s : text) : option N :=
  let body := if starts_with 43 s then tl s else s in
  match parse_digits body with Some n => if n <? 2 ^ 64 then Some n else None | None => None end.
(** [str::parse::<i8/i16>()] with [b] bits: optional sign. *)
Definition parse_int (b : Z) (s : text) : option Z :=
  let neg := starts_with 45 s in
  let body := if starts_with 43 s || neg then tl s else s in
  match parse_digits body with
  | Some n => let z := if neg then (- Z.of_N n)%Z else Z.of_N n in
      if ((- 2 ^ (b - 1) <=? z) && (z <? 2 ^ (b - 1)))%Z then Some z else None
  | None => None
  end.

(* ---------------- lemmas ---------------- *)

Lemma digits_val_app a s t : digits_val a (s ++ t) =
  match digits_val a s with Some b => digits_val b t | None => None end.
Proof.
  revert a; induction s as [|c s IH]; intros a; cbn [digits_val app]; [reflexivity|].
  destruct (is_digit c); [apply IH|reflexivity].
Qed.

Lemma is_digit_48 d : d < 10 -> is_digit (48 + d) = true.
Proof. unfold is_digit; intros; lia. Qed.

Lemma show_go_spec fuel : forall n acc a, n < 2 ^ N.of_nat fuel ->
  exists k, digits_val a (show_go (S fuel) n acc) = digits_val (a * 10 ^ N.of_nat (S k) + n) acc.
Proof.
  induction fuel as [|f IH]; intros n acc a H.
  - assert (n = 0) as -> by (cbn in H; lia). exists 0%nat.
    change (show_go 1 0 acc) with (48 :: acc). cbn [digits_val].
    replace (is_digit 48) with true by reflexivity. f_equal.
  - cbn [show_go]. destruct (N.eqb_spec (n / 10) 0) as [E|E].
    + exists 0%nat. cbn [digits_val]. rewrite is_digit_48 by (apply N.mod_lt; lia).
      f_equal. change (N.of_nat 1) with 1. rewrite N.pow_1_r.
      assert (n mod 10 = n) by (pose proof (N.div_mod n 10); lia). lia.
    + assert (L : n / 10 < 2 ^ N.of_nat f).
      { apply N.div_lt_upper_bound; [lia|]. rewrite Nnat.Nat2N.inj_succ, N.pow_succ_r' in H. lia. }
      destruct (IH (n / 10) ((48 + n mod 10) :: acc) a L) as [k Hk].
      exists (S k). cbn [show_go] in Hk. rewrite Hk. cbn [digits_val].
      rewrite is_digit_48 by (apply N.mod_lt; lia). f_equal.
      rewrite (Nnat.Nat2N.inj_succ (S k)), N.pow_succ_r'.
      set (p := 10 ^ N.of_nat (S k)). pose proof (N.div_mod n 10). lia.
Qed.

Lemma size_nat_bound n : n < 2 ^ N.of_nat (N.size_nat n).
Proof.
  assert (H : N.of_nat (N.size_nat n) = N.size n) by (destruct n; [reflexivity|cbn]; 
    induction p; cbn in *; rewrite ?Nnat.Nat2N.inj_succ; try rewrite IHp; try reflexivity; lia).
  rewrite H. apply N.size_gt.
Qed.

Lemma show_N_val n a : exists k, digits_val a (show_N n) = Some (a * 10 ^ N.of_nat (S k) + n).
Proof.
  destruct (show_go_spec (N.size_nat n) n [] a (size_nat_bound n)) as [k H]. exists k.
  unfold show_N. rewrite H. reflexivity.
Qed.

Lemma show_go_shape fuel : forall n acc, Forall (fun c => is_digit c = true) acc ->
  Forall (fun c => is_digit c = true) (show_go fuel n acc) /\ (acc <> [] \/ fuel <> 0%nat -> show_go fuel n acc <> []).
Proof.
  induction fuel as [|f IH]; intros n acc H; cbn [show_go].
  - split; [assumption|]. intros [?|?]; congruence.
  - assert (Forall (fun c => is_digit c = true) ((48 + n mod 10) :: acc)) as F.
    { constructor; [apply is_digit_48, N.mod_lt; lia|assumption]. }
    destruct (n / 10 =? 0).
    + split; [assumption|intros _; discriminate].
    + destruct (IH (n / 10) _ F) as [A B]. split; [exact A|intros _; apply B; left; discriminate].
Qed.

Lemma show_N_digits n : Forall (fun c => is_digit c = true) (show_N n).
Proof. apply show_go_shape. constructor. Qed.
Lemma show_N_nonempty n : show_N n <> [].
Proof. apply (show_go_shape (S (N.size_nat n)) n []); [constructor|right; discriminate]. Qed.

Lemma parse_digits_show n : parse_digits (show_N n) = Some n.
Proof.
  unfold parse_digits. destruct (show_N n) eqn:E; [now apply show_N_nonempty in E|].
  rewrite <- E. destruct (show_N_val n 0) as [k ->]. reflexivity.
Qed.

Lemma show_N_head n c : is_digit c = false -> starts_with c (show_N n) = false.
Proof.
  intros Hc. pose proof (show_N_digits n) as F. destruct (show_N n) as [|x r]; [reflexivity|].
  cbn. inversion F; subst. destruct (N.eqb_spec x c) as [->|]; [congruence|reflexivity].
Qed.

Lemma parse_usize_show n : n < 2 ^ 64 -> parse_usize (show_N n) = Some n.
Proof.
  intros H. unfold parse_usize. rewrite (show_N_head n 43) by reflexivity. rewrite parse_digits_show.
  apply N.ltb_lt in H. now rewrite H.
Qed.

Lemma parse_int_show b z : (- 2 ^ (b - 1) <= z < 2 ^ (b - 1))%Z -> parse_int b (show_Z z) = Some z.
Proof.
  intros H. unfold parse_int, show_Z. destruct (Z.ltb_spec z 0).
  - cbn [starts_with tl]. change (45 =? 45) with true. change (45 =? 43) with false. cbn [orb].
    rewrite parse_digits_show. cbn zeta. rewrite Z2N.id by lia. rewrite Z.opp_involutive.
    replace (_ && _)%bool with true; [reflexivity|]. symmetry. apply andb_true_iff; split; lia.
  - rewrite (show_N_head _ 43), (show_N_head _ 45) by reflexivity. cbn [orb].
    rewrite parse_digits_show. cbn zeta. rewrite Z2N.id by lia.
    replace (_ && _)%bool with true; [reflexivity|]. symmetry. apply andb_true_iff; split; lia.
Qed.

(* trim *)
Section Trim.
  Variable U : unicode.

  Definition edge_ok (s : text) : Prop :=
    match s with [] => True | c :: _ => is_space U c = false end /\
    match rev s with [] => True | c :: _ => is_space U c = false end.

  Lemma trim_start_ok s : match s with [] => True | c :: _ => is_space U c = false end -> trim_start U s = s.
  Proof. destruct s as [|c r]; cbn; [reflexivity|now intros ->]. Qed.

  Lemma trim_id s : edge_ok s -> trim U s = s.
  Proof.
    intros [A B]. unfold trim. rewrite (trim_start_ok s A). unfold trim_end.
    rewrite (trim_start_ok _ B). apply rev_involutive.
  Qed.

  Lemma trim_start_suffix s : exists p, s = p ++ trim_start U s /\ Forall (fun c => is_space U c = true) p.
  Proof.
    induction s as [|c r [p [IH F]]]; cbn; [exists []; split; [reflexivity|constructor]|].
    destruct (is_space U c) eqn:E; [|exists []; split; [reflexivity|constructor]].
    exists (c :: p). cbn. rewrite <- IH. split; [reflexivity|now constructor].
  Qed.
  Lemma trim_start_head s : match trim_start U s with [] => True | c :: _ => is_space U c = false end.
  Proof. induction s as [|c r IH]; cbn; [exact I|]. destruct (is_space U c) eqn:E; [assumption|now rewrite E]. Qed.

  Lemma trim_infix s : exists p q, s = p ++ trim U s ++ q /\
    Forall (fun c => is_space U c = true) p /\ Forall (fun c => is_space U c = true) q.
  Proof.
    unfold trim, trim_end. destruct (trim_start_suffix s) as [p [E F]].
    destruct (trim_start_suffix (rev (trim_start U s))) as [q [E' F']].
    exists p, (rev q). split; [|split; [assumption|now apply Forall_rev]].
    assert (G : rev (rev (trim_start U s)) = rev (q ++ trim_start U (rev (trim_start U s)))) by now rewrite <- E'.
    rewrite rev_involutive, rev_app_distr in G. rewrite <- G. exact E.
  Qed.

  Lemma trim_edges s : edge_ok (trim U s).
  Proof.
    unfold trim, trim_end. set (a := trim_start U s). split.
    - destruct (trim_start_suffix (rev a)) as [q [E F]].
      assert (G : a = rev (trim_start U (rev a)) ++ rev q).
      { apply (f_equal (@rev N)) in E. now rewrite rev_involutive, rev_app_distr in E. }
      pose proof (trim_start_head s : match a with [] => True | c :: _ => _ end) as H.
      destruct (rev (trim_start U (rev a))) as [|c r]; [exact I|]. rewrite G in H. exact H.
    - rewrite rev_involutive. apply trim_start_head.
  Qed.
  Lemma trim_trim s : trim U (trim U s) = trim U s.
  Proof. apply trim_id, trim_edges. Qed.

  Lemma trim_length s : (length (trim U s) <= length s)%nat.
  Proof.
    destruct (trim_infix s) as (p & q & E & _). apply (f_equal (@length N)) in E.
    rewrite !app_length in E. lia.
  Qed.
End Trim.

Lemma split_once_spec c s a b : split_once c s = Some (a, b) -> s = a ++ c :: b /\ ~ In c a.
Proof.
  revert a b; induction s as [|x r IH]; intros a b; cbn [split_once]; [discriminate|].
  destruct (N.eqb_spec x c) as [->|Hne].
  - injection 1 as <- <-. split; [reflexivity|intros []].
  - destruct (split_once c r) as [[a' b']|]; [|discriminate]. injection 1 as <- <-.
    destruct (IH a' b' eq_refl) as [-> Hn]. split; [reflexivity|]. intros [H|H]; congruence.
Qed.
Lemma split_once_intro c a b : ~ In c a -> split_once c (a ++ c :: b) = Some (a, b).
Proof.
  induction a as [|x a IH]; intros H; cbn [app split_once].
  - now rewrite N.eqb_refl.
  - destruct (N.eqb_spec x c) as [->|]; [exfalso; apply H; now left|].
    rewrite IH; [reflexivity|intros Hi; apply H; now right].
Qed.

Lemma strip_ends_quoted q s : strip_ends (q :: s ++ [q]) = Ok s.
Proof. destruct s as [|x s]; [reflexivity|]. cbn [app strip_ends]. f_equal. apply (removelast_last (x :: s) q). Qed.
Lemma strip_ends_spec s r : strip_ends s = Ok r -> exists a b, s = a :: r ++ [b].
Proof.
  destruct s as [|a [|b t]]; cbn [strip_ends]; try discriminate. intros H. injection H as <-.
  exists a, (last (b :: t) b). f_equal. now apply app_removelast_last.
Qed.
Lemma strip_ends_panic s : strip_ends s = Panic <-> (length s <= 1)%nat.
Proof. destruct s as [|a [|b t]]; cbn [strip_ends length]; split; intros; try easy; try lia. Qed.
Lemma ends_with_snoc c s x : ends_with c (s ++ [x]) = (x =? c).
Proof. unfold ends_with. now rewrite rev_app_distr. Qed.
