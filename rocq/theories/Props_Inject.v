(** Property C73: arguments cannot change the structure of a query. *)
From Coq Require Import String Lia.
From Verif Require Import Base Types Text Literal LiteralSpec LiteralProofs ColumnSpec Query QuerySpec QueryProofs SqlLex SqlLexProofs Props_Literal Props_Query.
Local Open Scope list_scope.
Local Open Scope N_scope.

Lemma piece_of_det n t p : piece_of n t p -> p = piece_for n t.
Proof.
  intros H. destruct H as [ds k V NE L B|ds H D| | |s]; try reflexivity; cbn [piece_for].
  - unfold parse_usize, starts_with. destruct ds as [|c r]; [congruence|]. set (ds := c :: r) in *.
    assert (PD : parse_digits ds = Some (N.of_nat (S k))) by (unfold parse_digits; unfold ds at 1; exact V).
    destruct (c =? 43) eqn:C.
    + apply N.eqb_eq in C. subst c. exfalso. unfold ds in V. cbn [digits_val] in V. discriminate V.
    + rewrite PD. replace (N.of_nat (S k) <? 2 ^ 64) with true by lia.
      replace ((N.of_nat (S k) <=? N.of_nat n) && (0 <? N.of_nat (S k))) with true by lia. f_equal. lia.
  - unfold parse_usize. rewrite digits_no_plus by exact D. destruct (parse_digits ds) as [k|] eqn:P; [|reflexivity].
    destruct (N.ltb_spec k (2 ^ 64)) as [L|L]; [|reflexivity]. destruct ((k <=? N.of_nat n) && (0 <? k)) eqn:C; [|reflexivity]. exfalso.
    unfold parse_digits in P. destruct ds as [|c r]; [discriminate P|]. destruct (H (N.to_nat (k - 1))) as [Q|[Q|Q]]; [|discriminate Q|lia|lia].
    rewrite P. f_equal. lia.
Qed.

(** The query that is sent has, to the server, the tokens of its template with each placeholder
    replaced by the tokens of its argument's text, whatever the arguments are; and those texts
    stay within their place ([contained]): they are expressions with balanced brackets and without
    semicolons, comments or open quotes.  [shape] depends on the query and the number of
    arguments only. *)
Theorem C73_structure : forall toks n template sh, Forall well_lexed toks -> Forall2 (piece_of n) toks template -> shape template = Some sh ->
  forall E args rendered, fmt_ok E -> List.length args = n -> Forall (fun v => representable v = true) args ->
    Forall2 (fun v t => display E v = Ok t) args rendered ->
    exists out, parse_query_arguments E args toks [] = Ok out /\ server_tokens out = with_arguments rendered sh /\ Forall contained rendered.
Proof.
  intros toks n template sh WL P S E args rendered F L R D. exists (fill rendered template).
  assert (T : template = map (piece_for n) toks).
  { clear - P. induction P; [reflexivity|]. cbn [map]. f_equal; [now apply piece_of_det|assumption]. }
  assert (C : Forall contained rendered).
  { clear - F R D. induction D as [|v t args rendered D _ IH]; [constructor|]. inversion R; subst. constructor; [|auto].
    apply inside_contained. eapply display_inside; eauto. }
  split; [|split; [|exact C]].
  - rewrite T. subst n. now apply parse_arguments_template.
  - rewrite server_toks. refine (proj1 (shape_fill rendered _ template _) Code sh S).
    + eapply Forall_impl; [|exact C]. intros t (A & B & _). now split.
    + assert (LR : List.length rendered = n) by (subst n; symmetry; clear - D; induction D; cbn; congruence).
      clear - P LR. induction P as [|t p ts ps H _ IH]; [constructor|]. constructor; [|exact IH]. destruct H; cbn [in_range]; auto. lia.
Qed.

(** A string argument is one token, and the server reads in it the bytes that were given. *)
Theorem C73_string_argument : forall E bs t, Forall (fun b => b < 256) bs -> display E (VString bs) = Ok t ->
  exists raw, server_tokens t = [TQuoted 39 raw] /\ t = [39] ++ raw ++ [39] /\ read_string t = Some (bs, []).
Proof.
  intros E bs t B D. exists (escape_string bs). pose proof (C22_string_reads_back E bs t [] B D eq_refl) as RB. rewrite app_nil_r in RB.
  cbn [display] in D. injection D as <-. split; [|split; [reflexivity|exact RB]]. rewrite server_toks. exact (proj2 (reads_quote bs B)).
Qed.

(** A placeholder directly after a minus sign has no such guarantee: a negative number there
    begins a comment, and the rest of the line disappears. *)
Definition minus_query : list token := [TkOther (txt "SELECT"); TkOther (txt " "); TkOther (txt "1"); TkOther (txt "-"); TkArgument (txt "1"); TkOther (txt ","); TkOther (txt "2")].
Theorem C73_after_minus_refuted : exists out out',
  parse_query_arguments demo_fmt [VInt I32 5] minus_query [] = Ok out /\ parse_query_arguments demo_fmt [VInt I32 (-5)] minus_query [] = Ok out' /\
  server_tokens out = [TWord (txt "SELECT"); TChar 32; TWord (txt "1"); TChar 45; TWord (txt "5"); TChar 44; TWord (txt "2")] /\
  server_tokens out' = [TWord (txt "SELECT"); TChar 32; TWord (txt "1"); TComment (txt "5,2")].
Proof. eexists. eexists. split; [vm_compute; reflexivity|]. split; [vm_compute; reflexivity|]. split; vm_compute; reflexivity. Qed.
(** Two string placeholders next to each other are read as one string. *)
Theorem C73_adjacent_refuted : exists out,
  parse_query_arguments demo_fmt [VString (txt "a"); VString (txt "b")] [TkArgument (txt "1"); TkArgument (txt "2")] [] = Ok out /\
  server_tokens out = [TQuoted 39 (txt "a''b")].
Proof. eexists. split; vm_compute; reflexivity. Qed.

Lemma demo_fmt_ok : fmt_ok demo_fmt.
Proof.
  unfold fmt_ok. repeat split; try discriminate; try (vm_compute; reflexivity); intros; vm_compute; repeat constructor.
Qed.
Definition demo_query : list token :=
  [TkOther (txt "SELECT"); TkOther (txt " "); TkOther (txt "'it''s'"); TkOther (txt ","); TkArgument (txt "1"); TkOther (txt " "); TkOther (txt "-- '"); TkOther [10];
   TkOther (txt "WHERE"); TkOther (txt " "); TkOther (txt "x"); TkOther (txt " "); TkOther (txt "="); TkOther (txt " "); TkArgument (txt "2"); TkSemicolon].
Definition demo_template : list piece :=
  [Lit (txt "SELECT"); Lit (txt " "); Lit (txt "'it''s'"); Lit (txt ","); Hole 0; Lit (txt " "); Lit (txt "-- '"); Lit [10];
   Lit (txt "WHERE"); Lit (txt " "); Lit (txt "x"); Lit (txt " "); Lit (txt "="); Lit (txt " "); Hole 1; Lit (txt ";")].
Example C73_nonvacuous : fmt_ok demo_fmt /\ Forall well_lexed demo_query /\ Forall2 (piece_of 2) demo_query demo_template /\
  shape demo_template = Some [inl (TWord (txt "SELECT")); inl (TChar 32); inl (TQuoted 39 (txt "it''s")); inl (TChar 44); inr 0%nat; inl (TChar 32);
    inl (TComment (txt " '")); inl (TWord (txt "WHERE")); inl (TChar 32); inl (TWord (txt "x")); inl (TChar 32); inl (TChar 61); inl (TChar 32); inr 1%nat; inl (TChar 59)] /\
  display demo_fmt (VString (txt "'; DROP TABLE t --")) = Ok (txt "'\'; DROP TABLE t --'").
Proof.
  split; [exact demo_fmt_ok|]. split; [repeat (constructor; [first [exact I|split; [discriminate|repeat constructor]]|]); constructor|]. split; [|split; vm_compute; reflexivity].
  unfold demo_query, demo_template. repeat (constructor; [first [apply po_other | apply po_semicolon | (apply po_hole; [reflexivity|discriminate|lia|reflexivity])]|]). constructor.
Qed.
Print Assumptions C73_structure.
Print Assumptions C73_string_argument.
Print Assumptions C73_after_minus_refuted.
Print Assumptions C73_adjacent_refuted.
