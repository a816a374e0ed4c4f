(** Properties C12 (exact) and C69: the type language. *)
From Coq Require Import String ZArith Lia.
From Verif Require Import Base Types Text TypeText TypeTextProofs TypeTextProofs2 TypeGrammar TypeGrammarProofs Props_TypeText.
Local Open Scope list_scope.
Local Open Scope N_scope.

(** The parser panics exactly on the texts listed by [panics]: a closing parenthesis without an
    opening one in an argument list, or a single quote where a quoted text should stand. *)
Theorem C12_panics_iff : forall U D s, parse_ty U D s = Panic <-> panics U D s.
Proof. intros U D s. apply grammar_go. lia. Qed.

(** Every other text gives a type or the type-parse error. *)
Lemma only_err {A B} (r : res A) (f : A -> res B) : (forall e, r = Err e -> e = ETypeParse) -> (forall a e, f a = Err e -> e = ETypeParse) -> forall e, (a <- r ;; f a) = Err e -> e = ETypeParse.
Proof. intros H1 H2 e. destruct r; cbn [rbind]; intros E; [eapply H2, E|injection E as <-; now apply H1|discriminate]. Qed.
Lemma oe_or {A} (o : option A) e : or_err o = Err e -> e = ETypeParse.
Proof. destruct o; cbn; congruence. Qed.
Lemma oe_rmap {A B} (f : A -> B) r : (forall e, r = Err e -> e = ETypeParse) -> forall e, rmap f r = Err e -> e = ETypeParse.
Proof. intros H e. destruct r; cbn; try discriminate. intros [= <-]. now apply H. Qed.
Lemma oe_mapM {A B} (f : A -> res B) l : (forall a e, In a l -> f a = Err e -> e = ETypeParse) -> forall e, mapM f l = Err e -> e = ETypeParse.
Proof.
  induction l as [|a l IH]; intros H e; cbn [mapM]; [discriminate|]. apply only_err; [intros; eapply H; eauto; now left|]. intros b. apply only_err; [|discriminate].
  apply IH. intros x e' I. apply H. now right.
Qed.
Lemma oe_scan U s : forall d seg e, scan_args U d seg s = Err e -> e = ETypeParse.
Proof.
  induction s as [|c s IH]; intros d seg e; cbn [scan_args]; [destruct d; congruence|]. destruct (c =? 44).
  - destruct d; [|apply IH]. apply only_err; [apply IH|discriminate].
  - destruct (c =? 40); [apply IH|]. destruct (c =? 41); [destruct d; [discriminate|apply IH]|apply IH].
Qed.
Lemma oe_one args e : one_arg args = Err e -> e = ETypeParse.
Proof. destruct args as [|a [|]]; cbn; congruence. Qed.
Lemma oe_strip s e : strip_ends s = Err e -> e = ETypeParse.
Proof. destruct s as [|x [|]]; discriminate. Qed.
Lemma oe_tz D s : forall e, parse_tz D s = Err e -> e = ETypeParse.
Proof. unfold parse_tz. destruct (_ || _); [congruence|]. apply only_err; [apply oe_strip|]. intros; eapply oe_or; eauto. Qed.
Lemma oe_scale args : forall e, scale args = Err e -> e = ETypeParse.
Proof. unfold scale. apply only_err; [apply oe_one|]. intros; eapply oe_or; eauto. Qed.
Lemma oe_variant U b a : forall e, parse_enum_variant U b a = Err e -> e = ETypeParse.
Proof.
  unfold parse_enum_variant. apply only_err; [apply oe_or|]. intros [v x]. destruct (_ || _); [congruence|]. apply only_err; [apply oe_strip|].
  intros n. apply only_err; [apply oe_or|discriminate].
Qed.
Lemma oe_go U D : forall f s, (List.length s < f)%nat -> forall e, parse_go U D f s = Err e -> e = ETypeParse.
Proof.
  induction f as [|f IH]; intros s L e; [lia|]. destruct (go_cases U D f s) as [(n & H)|[(n & body & H)|H]].
  - rewrite (go_plain U D f s n H). apply oe_or.
  - rewrite (go_applied U D f s n body H). destruct (scan_args U 0 [] body) as [args|e'|] eqn:E; cbn [rbind]; [|apply oe_scan in E; congruence|discriminate].
    apply scan_ok_iff in E. assert (R : forall a e, In a args -> parse_go U D f a = Err e -> e = ETypeParse).
    { intros a e' I. apply IH. pose proof (args_shorter U s n body args a H E I). lia. }
    destruct (lookup n head_table) as [h|]; [|congruence].
    destruct h; cbn [apply_head]; try (apply oe_rmap, oe_scale);
      try (destruct (one_arg_cases args) as [(a & ->)| ->]; [cbn [one_arg rbind]; apply oe_rmap; intros e'; apply R; now left|cbn; congruence]);
      try (apply oe_rmap, oe_mapM; intros a e' _; apply oe_variant).
    + destruct args as [|a [|b [|]]]; try congruence. apply only_err; [apply oe_or|]. intros x. apply only_err; [apply oe_or|]. intros y e'.
      repeat (destruct (_ <=? _); [discriminate|]). congruence.
    + apply only_err; [apply oe_one|]. intros a. apply oe_rmap, oe_tz.
    + destruct args as [|a [|b [|]]]; try congruence; [apply only_err; [apply oe_or|discriminate]|].
      destruct (_ || _); [congruence|]. apply only_err; [apply oe_or|]. intros x. apply only_err; [apply oe_tz|discriminate].
    + apply oe_rmap, oe_mapM. intros a e' I. rewrite (args_trimmed U body args a E I). now apply R.
    + destruct args as [|a [|b [|]]]; try congruence. apply only_err; [intros e'; apply R; now left|]. intros k. apply only_err; [intros e'; apply R; right; now left|discriminate].
  - congruence.
Qed.
Theorem C12_otherwise_a_type_or_an_error : forall U D s, ~ panics U D s -> (exists t, parse_ty U D s = Ok t) \/ parse_ty U D s = Err ETypeParse.
Proof.
  intros U D s H. destruct (parse_ty U D s) as [t|e|] eqn:E; [eauto|right; f_equal|exfalso; now apply H, C12_panics_iff].
  apply (oe_go U D (S (List.length s)) s ltac:(lia) e E).
Qed.

(* ===================== C69: the grammar ===================== *)

(** The parser accepts exactly the texts of the grammar, with the meaning the grammar gives them. *)
Theorem C69_grammar : forall U D s t, parse_ty U D s = Ok t <-> reads U D s t.
Proof. intros U D s t. apply grammar_go. lia. Qed.

(** No text means two types, and no text of the language makes the parser panic. *)
Theorem C69_unambiguous : forall U D s t1 t2, reads U D s t1 -> reads U D s t2 -> t1 = t2.
Proof. intros U D s t1 t2 H1 H2. apply C69_grammar in H1, H2. congruence. Qed.
Theorem C69_language_is_safe : forall U D s t, reads U D s t -> ~ panics U D s.
Proof. intros U D s t H1 H2. apply C69_grammar in H1. apply C12_panics_iff in H2. congruence. Qed.

(** White space around a type name is not significant... in front of it, it is an error. *)
Theorem C69_trailing_space : forall U D s t c, is_space U c = true -> ident_char U c = false -> reads U D s t -> reads U D (s ++ [c]) t.
Proof.
  intros U D s t c S NI H. apply C69_grammar. apply C69_grammar in H. unfold parse_ty in *.
  assert (T : forall r, trim U (r ++ [c]) = trim U r).
  { intros r. unfold trim. induction r as [|x r IH].
    - cbn [app trim_start]. rewrite S. reflexivity.
    - cbn [app trim_start]. destruct (is_space U x); [exact IH|]. unfold trim_end. cbn [app]. rewrite app_comm_cons, rev_app_distr. cbn [rev app trim_start]. now rewrite S. }
  assert (N : forall n rest, named U s n rest -> named U (s ++ [c]) n rest).
  { intros n rest (I & r & -> & -> & SR). split; [exact I|]. exists (r ++ [c]). split; [now rewrite app_assoc|]. split; [symmetry; apply T|]. destruct r; [exact NI|exact SR]. }
  destruct (go_cases U D (List.length s) s) as [(n & HN)|[(n & body & HA)|HE]]; [| |congruence].
  - rewrite (go_plain U D _ s n HN) in H. now rewrite (go_plain U D _ _ n (N _ _ HN)).
  - assert (HA' : applied U (s ++ [c]) n body) by (destruct HA as (b & HN & E); exists b; split; [now apply N|exact E]).
    apply C69_grammar. apply (proj1 (grammar_go U D (Datatypes.S (List.length s)) s ltac:(lia))) in H.
    inversion H as [s0 n0 t0 N0 P0|s0 n0 mk body0 a x A0 S0 G X|s0 body0 a b p x t0 A0 G P X DE|s0 body0 n0 z A0 G Z|s0 body0 a p n0 z A0 G P Z|s0 body0 a p A0 G P
      |s0 nm bits mk body0 args items A0 S0 G F|s0 n0 mk body0 a t0 A0 W G R|s0 body0 args ts A0 G F|s0 body0 a b k v A0 G R1 R2]; subst;
      try (exfalso; now eapply named_applied; eauto); destruct (applied_fun _ _ _ _ _ _ HA A0) as (-> & ->);
      [eapply rd_scaled|eapply rd_decimal|eapply rd_datetime|eapply rd_datetime64|eapply rd_datetime64_utc|eapply rd_enum|eapply rd_wrap|eapply rd_tuple|eapply rd_map]; eauto.
Qed.

(** A leading space is refused, although arguments may have them. *)
Theorem C69_leading_space_refused : forall U D c s t, ident_start U c = false -> ~ reads U D (c :: s) t.
Proof.
  intros U D c s t H R. apply C69_grammar in R. unfold parse_ty in R. cbn [parse_go eat_identifier] in R. unfold ident_start in H. cbn [negb andb] in R.
  rewrite orb_false_r, H in R. discriminate.
Qed.

(** Findings.  The server names tuple elements and has types this parser does not know: such a
    column cannot be read at all.  A comma too many at the end is accepted. *)
Theorem C69_named_tuple_refuted : forall U D t, ~ reads U D (txt "Tuple(a UInt8, b String)") t.
Proof. intros U D t H. apply C69_grammar in H. vm_compute in H. discriminate. Qed.
Theorem C69_unknown_types_refuted : forall U D t, ~ reads U D (txt "Date32") t /\ ~ reads U D (txt "Nested(a UInt8)") t /\ ~ reads U D (txt "SimpleAggregateFunction(sum, UInt64)") t /\ ~ reads U D (txt "DateTime64(3, 'UTC', 1)") t.
Proof. intros U D t. repeat split; intros H; apply C69_grammar in H; vm_compute in H; discriminate. Qed.
Theorem C69_trailing_comma : forall U D, reads U D (txt "Tuple(Int8,)") (TTuple [TInt I8]) /\ reads U D (txt "Array(String,)") (TArray TString).
Proof. intros U D. split; apply C69_grammar; vm_compute; reflexivity. Qed.

Example C69_nonvacuous :
  reads demo_uni demo_tz (txt "Map ( LowCardinality(String) , Array(Tuple(Enum8('a' = 1,'b'=-2), Decimal(18,4), DateTime64(3,'7'))) ) ")
    (TMap (TLowCard TString) (TArray (TTuple [TEnum8 [(txt "a", 1%Z); (txt "b", (-2)%Z)]; TDecimal64 4; TDateTime64 3 7]))) /\
  panics demo_uni demo_tz (txt "Map(Int8, Array(DateTime(')))") /\ panics demo_uni demo_tz (txt "Whatever(a)(b)") /\
  parse_ty demo_uni demo_tz (txt "Enum8('a' = 1, ' = 2)") = Panic /\ parse_ty demo_uni demo_tz (txt "Enum8(a = 1, ' = 2)") = Err ETypeParse.
Proof.
  split; [apply C69_grammar; vm_compute; reflexivity|]. split; [apply C12_panics_iff; vm_compute; reflexivity|].
  split; [apply C12_panics_iff; vm_compute; reflexivity|]. split; vm_compute; reflexivity.
Qed.

Print Assumptions C12_panics_iff.
Print Assumptions C12_otherwise_a_type_or_an_error.
Print Assumptions C69_grammar.
Print Assumptions C69_unambiguous.
Print Assumptions C69_language_is_safe.
Print Assumptions C69_trailing_space.
Print Assumptions C69_leading_space_refused.
Print Assumptions C69_named_tuple_refuted.
Print Assumptions C69_unknown_types_refuted.
Print Assumptions C69_trailing_comma.
