(** C42: the rename rules of the derive macro. *)
From Coq Require Import String.
From Verif Require Import Base Types Text Rename RenameProofs.
Local Open Scope list_scope.
Local Open Scope N_scope.

(** Each rule joins the words of the name (what is between the underscores) in its way. *)
Theorem C42_conventions : forall s,
  join [95] (words s) = s /\ Forall (fun w => ~ In 95 w) (words s) /\
  apply_to_field RSnake s = Ok s /\ apply_to_field RLower s = Ok s /\ apply_to_field RNone s = Ok s /\
  apply_to_field RUpper s = Ok (map upper s) /\
  apply_to_field RScreamingSnake s = Ok (join [95] (map (map upper) (words s))) /\
  apply_to_field RKebab s = Ok (join [45] (words s)) /\
  apply_to_field RScreamingKebab s = Ok (join [45] (map (map upper) (words s))) /\
  apply_to_field RPascal s = Ok (concat (map capital (words s))).
Proof.
  intros s. repeat split; try reflexivity.
  - apply words_join.
  - apply words_free.
  - cbn [apply_to_field]. rewrite <- words_upper, words_join. reflexivity.
  - cbn [apply_to_field]. now rewrite dashes_words.
  - cbn [apply_to_field]. now rewrite dashes_words, words_upper.
  - cbn [apply_to_field]. now rewrite (proj1 (pascal_words s)).
Qed.
Print Assumptions C42_conventions.

(** camelCase: the first non-empty word in lower case initial, the others capitalized. *)
Theorem C42_camel : forall s c r ws, filter full (words s) = (c :: r) :: ws -> c < 128 ->
  apply_to_field RCamel s = Ok (decapital (c :: r) ++ concat (map capital ws)).
Proof. intros s c r ws E H. rewrite camel, E. apply N.ltb_lt in H. now rewrite H. Qed.
Print Assumptions C42_camel.

(** Which names make the macro panic: none, except camelCase for a name without a character other
    than '_' or whose first other character is not ASCII. *)
Theorem C42_failures : forall r s,
  (forall e, apply_to_field r s <> Err e) /\
  (apply_to_field r s = Panic <-> r = RCamel /\ match filter (fun c => negb (c =? 95)) s with [] => True | c :: _ => 128 <= c end).
Proof.
  intros r s. destruct (match r with RCamel => true | _ => false end) eqn:K.
  - destruct r; try discriminate. split.
    + intros e. cbn [apply_to_field]. destruct (pascal_loop true s); [discriminate|]. destruct (n <? 128); discriminate.
    + rewrite camel_fails. tauto.
  - assert (R : r <> RCamel) by (intros ->; discriminate). destruct (never_fails r s R) as [A B]. split; [exact B|]. split; [tauto|]. intros [X _]. contradiction.
Qed.
Print Assumptions C42_failures.

(** Different fields get different columns under every rule but PascalCase and camelCase ... *)
Theorem C42_distinct : forall r s t, r <> RPascal -> r <> RCamel ->
  Forall (fun c => ~ (65 <= c <= 90) /\ c <> 45) s -> Forall (fun c => ~ (65 <= c <= 90) /\ c <> 45) t ->
  apply_to_field r s = apply_to_field r t -> s = t.
Proof. exact rules_injective. Qed.
Print Assumptions C42_distinct.
(** ... under which [a_b] and [a__b] are the same column. *)
Theorem C42_pascal_collision_refuted : exists s t, s <> t /\ apply_to_field RPascal s = apply_to_field RPascal t /\ apply_to_field RCamel s = apply_to_field RCamel t.
Proof. exists (txt "a_b"), (txt "a__b"). split; [vm_compute; discriminate|]. split; reflexivity. Qed.
Print Assumptions C42_pascal_collision_refuted.
(** "lowercase" does not change the case of letters. *)
Theorem C42_lowercase_refuted : exists s, apply_to_field RLower s <> Ok (map lower s).
Proof. exists (txt "userID"). vm_compute. discriminate. Qed.
Print Assumptions C42_lowercase_refuted.

(** The rules are found under exactly their documented names. *)
Theorem C42_rule_names : forall s r, rule_from_str s = Some r <->
  (s, r) = (txt "lowercase", RLower) \/ (s, r) = (txt "UPPERCASE", RUpper) \/ (s, r) = (txt "PascalCase", RPascal) \/ (s, r) = (txt "camelCase", RCamel) \/
  (s, r) = (txt "snake_case", RSnake) \/ (s, r) = (txt "SCREAMING_SNAKE_CASE", RScreamingSnake) \/ (s, r) = (txt "kebab-case", RKebab) \/
  (s, r) = (txt "SCREAMING-KEBAB-CASE", RScreamingKebab).
Proof.
  intros s r. split.
  - unfold rule_from_str, rename_rules. cbn [lookup_rule].
    repeat match goal with |- context [text_eqb s ?n] => let E := fresh in destruct (text_eqb s n) eqn:E; [apply text_eqb_eq in E; subst; intros X; injection X as <-; tauto|] end. intros X. discriminate X.
  - intros H. destruct H as [H|[H|[H|[H|[H|[H|[H|H]]]]]]]; assert (Hs := f_equal fst H); assert (Hr := f_equal snd H); cbn [fst snd] in Hs, Hr; subst; vm_compute; reflexivity.
Qed.
Print Assumptions C42_rule_names.

Example C42_nonvacuous : apply_to_field RCamel (txt "_my__field_name1") = Ok (txt "myFieldName1") /\ apply_to_field RPascal (txt "my_field") = Ok (txt "MyField") /\
  apply_to_field RScreamingKebab (txt "my_field") = Ok (txt "MY-FIELD") /\ apply_to_field RCamel (txt "__") = Panic /\
  filter full (words (txt "_my__field_name1")) = [txt "my"; txt "field"; txt "name1"].
Proof. repeat split; vm_compute; reflexivity. Qed.
