(** Properties C11 and C12: type names. *)
From Coq Require Import String Ascii.
From Verif Require Import Base Types Text TypeText TypeTextProofs TypeTextProofs2.
Local Open Scope list_scope.

(** A concrete time-zone database and Unicode table for the examples. *)
Definition demo_tz : tzdb := {| tz_name := show_N; tz_parse := parse_digits |}.
Definition demo_uni : unicode := {| u_alpha := fun _ => false; u_num := fun _ => false; u_space := fun _ => false |}.
Lemma demo_tz_ok : tzdb_ok demo_tz.
Proof.
  split; [exact parse_digits_show|]. intros z c H. pose proof (show_N_digits z) as F.
  rewrite Forall_forall in F. apply F in H. unfold is_digit in H. lia.
Qed.

(* ===================== C11 ===================== *)

(** Printing then parsing, any nesting depth, any Unicode table, any time-zone database whose
    names parse back and contain no parenthesis or comma. *)
Theorem C11_print_parse : forall U D t, tzdb_ok D -> printable U t -> parse_ty U D (show_ty D t) = Ok t.
Proof. exact parse_show. Qed.

(** Names without the special characters '(' ')' ',' '=' and without white space at the ends
    are readable. *)
Theorem C11_plain_names : forall U n,
  (forall c, In c n -> c <> 40 /\ c <> 41 /\ c <> 44 /\ c <> 61) -> edge_ok U n -> name_ok U n.
Proof.
  intros U n H He. split; [intros Hi; apply H in Hi; tauto|]. split; [now apply trim_id|].
  apply nest_flat. apply Forall_forall. intros c Hc. apply H in Hc. unfold flat. lia.
Qed.

(** Whatever text was parsed, printing the type gives a text that parses to the same type. *)
Theorem C11_reparse_stable : forall U D s t, tzdb_ok D ->
  parse_ty U D s = Ok t -> parse_ty U D (show_ty D t) = Ok t.
Proof. exact parse_stable. Qed.

(** So two types with the same printed name are equal. *)
Theorem C11_injective : forall U D t1 t2, tzdb_ok D -> printable U t1 -> printable U t2 ->
  show_ty D t1 = show_ty D t2 -> t1 = t2.
Proof.
  intros U D t1 t2 HD H1 H2 E. apply (parse_show U D t1 HD) in H1. apply (parse_show U D t2 HD) in H2. congruence.
Qed.

(** The restriction on enum names is needed: a legal ClickHouse enum name with a comma, an '='
    or a parenthesis is not read back. *)
Theorem C11_enum_names_refuted : forall U D,
  parse_ty U D (show_ty D (TEnum8 [(txt "a,b", 1%Z)])) = Err ETypeParse /\
  parse_ty U D (show_ty D (TEnum8 [(txt "a=b", 1%Z)])) = Err ETypeParse /\
  parse_ty U D (show_ty D (TEnum8 [(txt "a)b", 1%Z)])) = Panic /\
  parse_ty U D (show_ty D (TEnum8 [(txt " a", 1%Z)])) = Ok (TEnum8 [(txt "a", 1%Z)]).
Proof. intros U D. vm_compute. repeat split. Qed.

Definition demo_type : ty :=
  TTuple [TMap (TLowCard TString) (TArray (TNullable (TDateTime64 3 7)));
          TEnum8 [(txt "it's (a, b)", (-128)%Z); (txt "", 127%Z)]; TTuple []; TDecimal256 76; TFixedString (2 ^ 64 - 1)].
Example C11_nonvacuous : printable demo_uni demo_type /\
  show_ty demo_tz demo_type = txt "Tuple(Map(LowCardinality(String),Array(Nullable(DateTime64(3,'7')))),Enum8('it's (a, b)' = -128,'' = 127),Tuple(),Decimal256(76),FixedString(18446744073709551615))"
  /\ parse_ty demo_uni demo_tz (txt " Tuple") = Err ETypeParse
  /\ parse_ty demo_uni demo_tz (txt "Tuple ( Bool , Decimal( 20 , +4), Enum16( 'x' = -300 )  )  ") = Ok (TTuple [TUInt I8; TDecimal128 4; TEnum16 [(txt "x", (-300)%Z)]]).
Proof.
  split; [|vm_compute; repeat split]. cbn [printable demo_type].
  assert (V : forall n z, text_eqb (trim demo_uni n) n = true -> nest 0 n = Some 0%nat -> forallb (fun c => negb (c =? 61)) n = true ->
     (-128 <= z < 128)%Z -> variant_ok demo_uni 8 (n, z)).
  { intros n z H1 H2 H3 H4. split; [|exact H4]. split; [|split; [now apply text_eqb_eq|exact H2]].
    intros Hi. rewrite forallb_forall in H3. apply H3 in Hi. discriminate. }
  repeat split; auto; repeat apply Forall_cons; try apply Forall_nil; apply V; try reflexivity; lia.
Qed.

Print Assumptions C11_print_parse.
Print Assumptions C11_plain_names.
Print Assumptions C11_reparse_stable.
Print Assumptions C11_injective.
Print Assumptions C11_enum_names_refuted.

(* ===================== C12 ===================== *)

(** The parser always terminates. *)
Theorem C12_terminates : forall U D s, parse_ty U D s <> Err EFuel.
Proof. exact parse_terminates. Qed.

(** It does not panic on texts meeting the three local conditions of [tidy]. *)
Theorem C12_tidy_no_panic : forall U D s, tidy U s -> parse_ty U D s <> Panic.
Proof. exact tidy_never_panics. Qed.

(** Findings: each condition is needed. *)
Theorem C12_stray_parenthesis_refuted : forall U D, parse_ty U D (txt "Tuple(Int8)(Int8)") = Panic.
Proof. intros; vm_compute; reflexivity. Qed.
Theorem C12_lone_quote_refuted : forall U D, parse_ty U D (txt "DateTime(')") = Panic.
Proof. intros; vm_compute; reflexivity. Qed.
Theorem C12_enum_quote_refuted : forall U D, parse_ty U D (txt "Enum8(' = 1)") = Panic.
Proof. intros; vm_compute; reflexivity. Qed.

Fixpoint close_okb (U : unicode) (s : text) : bool :=
  match s with
  | [] => true
  | c :: r => (if c =? 41 then match trim_start U r with [] => true | d :: _ => (d =? 44) || (d =? 41) end else true)
              && close_okb U r
  end.
Lemma close_okb_sound U s : close_okb U s = true -> close_ok U s.
Proof.
  induction s as [|x s IH]; intros H a w c b E Hw Hc; [destruct a; discriminate|].
  cbn [close_okb] in H. apply andb_true_iff in H as [H1 H2]. destruct a as [|y a].
  - injection E as -> E. change (41 =? 41) with true in H1. cbn iota in H1.
    assert (T : trim_start U s = c :: b).
    { rewrite E. clear - Hw Hc. induction Hw as [|z w Hz Hw IH]; cbn [app trim_start]; [now rewrite Hc|now rewrite Hz]. }
    rewrite T in H1. lia.
  - injection E as -> E. eapply (IH H2); eauto.
Qed.

(** Malformed but tidy texts give errors. *)
Example C12_nonvacuous : tidy demo_uni (txt "Tuple(Map(Int8),,)") /\
  parse_ty demo_uni demo_tz (txt "Tuple(Map(Int8),,)") = Err ETypeParse.
Proof.
  split; [|reflexivity]. split; [reflexivity|]. split.
  - apply close_okb_sound. reflexivity.
  - intros a b E. exfalso. 
    assert (In 39 (txt "Tuple(Map(Int8),,)")) as H by (rewrite E; apply in_app_iff; right; now left).
    vm_compute in H. intuition discriminate.
Qed.

Print Assumptions C12_terminates.
Print Assumptions C12_tidy_no_panic.
Print Assumptions C12_stray_parenthesis_refuted.
Print Assumptions C12_lone_quote_refuted.
Print Assumptions C12_enum_quote_refuted.
