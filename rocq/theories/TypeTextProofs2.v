(** What the parser returns can be printed and read back; it terminates; when it cannot panic. *)
From Coq Require Import String Ascii.
From Verif Require Import Base Types Text TypeText TypeTextProofs.
Local Open Scope list_scope.

Ltac norm_app := repeat (first [rewrite <- app_assoc | progress cbn [app]]).

(* ---------------- arguments found by the scanner ---------------- *)

Lemma trim_balanced U s : balanced s -> balanced (trim U s).
Proof. unfold balanced. now rewrite nest_trim. Qed.

Lemma scan_balanced U s : forall d seg args, nest 0 (rev seg) = Some d -> scan_args U d seg s = Ok args ->
  Forall (fun a => balanced a /\ edge_ok U a) args.
Proof.
  assert (Sn : forall seg c, nest 0 (rev (c :: seg)) = match nest 0 (rev seg) with Some e => nest e [c] | None => None end).
  { intros. cbn [rev]. apply nest_app. }
  induction s as [|c s IH]; intros d seg args Hn; cbn [scan_args].
  - destruct d; [|discriminate]. intros H; injection H as <-. destruct seg as [|x seg]; [constructor|].
    constructor; [|constructor]. split; [now apply trim_balanced|apply trim_edges].
  - destruct (N.eqb_spec c 44) as [->|N1].
    + destruct d as [|d].
      * intros H. inv_bind H. injection H as <-. constructor.
        -- split; [now apply trim_balanced|apply trim_edges].
        -- eapply IH; [|exact E]. reflexivity.
      * apply IH. rewrite Sn, Hn. reflexivity.
    + apply N.eqb_neq in N1. destruct (N.eqb_spec c 40) as [->|N2].
      * apply IH. rewrite Sn, Hn. reflexivity.
      * apply N.eqb_neq in N2. destruct (N.eqb_spec c 41) as [->|N3].
        -- destruct d as [|d]; [discriminate|]. apply IH. rewrite Sn, Hn. reflexivity.
        -- apply N.eqb_neq in N3. apply IH. rewrite Sn, Hn. cbn [nest]. now rewrite N1, N2, N3.
Qed.

Lemma scan_length U s : forall d seg args, scan_args U d seg s = Ok args ->
  Forall (fun a => (length a <= length seg + length s)%nat) args.
Proof.
  induction s as [|c s IH]; intros d seg args; cbn [scan_args].
  - destruct d; [|discriminate]. intros H; injection H as <-. destruct seg as [|x seg]; [constructor|].
    constructor; [|constructor]. pose proof (trim_length U (rev (x :: seg))). rewrite rev_length in H. cbn [length] in *. lia.
  - assert (K : forall d' args, scan_args U d' (c :: seg) s = Ok args -> Forall (fun a => (length a <= length seg + length (c :: s))%nat) args).
    { intros d' args' H. apply IH in H. eapply Forall_impl; [|exact H]. cbn [length]. intros; lia. }
    destruct (c =? 44).
    + destruct d as [|d]; [|apply K]. intros H. inv_bind H. injection H as <-. constructor.
      * pose proof (trim_length U (rev seg)). rewrite rev_length in H. lia.
      * apply IH in E. eapply Forall_impl; [|exact E]. cbn [length]. intros; lia.
    + destruct (c =? 40); [apply K|]. destruct (c =? 41); [|apply K]. destruct d; [discriminate|apply K].
Qed.

Lemma ends_with_spec c s : ends_with c s = true -> exists p, s = p ++ [c].
Proof.
  unfold ends_with. pose proof (rev_head_last s) as R. destruct (rev s) as [|x r]; [discriminate|]. cbn.
  intros H. apply N.eqb_eq in H as ->. exact R.
Qed.
Lemma wrapped_spec c d s : negb (starts_with c s) || negb (ends_with d s) = false -> c <> d ->
  exists m, s = c :: m ++ [d].
Proof.
  intros H Hne. apply orb_false_iff in H as [H1 H2]. apply negb_false_iff in H1, H2.
  apply ends_with_spec in H2 as [p ->]. destruct p as [|x p]; cbn [app starts_with] in H1; apply N.eqb_eq in H1; subst.
  - congruence.
  - now exists p.
Qed.
Lemma parse_args_ok U s args : parse_args U s = Ok args ->
  exists body, s = 40 :: body ++ [41] /\ scan_args U 0 [] (trim U body) = Ok args.
Proof.
  unfold parse_args. destruct (negb _ || negb _) eqn:Ew; [discriminate|].
  apply wrapped_spec in Ew as [m ->]; [|discriminate].
  intros HH. exists m. split; [reflexivity|]. inv_bind HH. replace (strip_ends (40 :: m ++ [41])) with (Ok m) in E; [injection E as <-; exact HH|].
  destruct m as [|x m]; [reflexivity|]. cbn [app strip_ends]. f_equal. symmetry. apply (removelast_last (x :: m) 41).
Qed.

Lemma eat_split U s : forall first i f, eat_identifier U first s = (i, f) -> s = i ++ f.
Proof.
  induction s as [|c s IH]; intros first i f; cbn [eat_identifier]; [now intros [= <- <-]|].
  destruct (_ || _); [|now intros [= <- <-]].
  destruct (eat_identifier U false s) as [a b] eqn:E. intros [= <- <-]. cbn [app]. f_equal. eapply IH, E.
Qed.

Lemma parse_args_props U s args : parse_args U s = Ok args ->
  Forall (fun a => balanced a /\ edge_ok U a /\ (length a + 2 <= length s)%nat) args.
Proof.
  intros Hargs. apply parse_args_ok in Hargs as (body & -> & H).
  pose proof (scan_balanced U _ 0%nat [] _ eq_refl H) as A. pose proof (scan_length U _ _ _ _ H) as B.
  pose proof (trim_length U body) as TL. rewrite Forall_forall in *. intros x Hx.
  destruct (A x Hx) as [A1 A2]. specialize (B x Hx). repeat split; auto; try apply A2.
  cbn [length] in *. rewrite app_length. cbn [length]. lia.
Qed.

(* ---------------- what comes out is printable ---------------- *)

Lemma digits_val_digits s : forall a n, digits_val a s = Some n -> Forall (fun c => is_digit c = true) s.
Proof.
  induction s as [|c s IH]; intros a n; cbn [digits_val]; [constructor|].
  destruct (is_digit c) eqn:E; [|discriminate]. intros H. constructor; [exact E|eapply IH, H].
Qed.
Lemma parse_digits_flat s n : parse_digits s = Some n -> Forall (fun c => flat c = true) s.
Proof.
  unfold parse_digits. destruct s; [discriminate|]. intros H. apply digits_val_digits in H.
  eapply Forall_impl; [|exact H]. apply digit_flat.
Qed.
Lemma parse_int_ok b s z : parse_int b s = Some z ->
  (- 2 ^ (b - 1) <= z < 2 ^ (b - 1))%Z /\ Forall (fun c => flat c = true) s.
Proof.
  unfold parse_int. destruct (parse_digits _) as [n|] eqn:E; [|discriminate].
  destruct ((_ <=? _)%Z && _) eqn:R; [|discriminate]. intros [= <-]. split; [lia|].
  apply parse_digits_flat in E. destruct s as [|c s]; [constructor|]. cbn [starts_with tl] in E.
  destruct (N.eqb_spec c 43) as [->|]; [now constructor|].
  destruct (N.eqb_spec c 45) as [->|]; [now constructor|]. exact E.
Qed.
Lemma parse_usize_ok s n : parse_usize s = Some n -> n < 2 ^ 64.
Proof.
  unfold parse_usize. destruct (parse_digits _); [|discriminate]. destruct (N.ltb_spec n0 (2 ^ 64)); [|discriminate].
  now intros [= <-].
Qed.

Lemma nest_flat_tail d a b : Forall (fun c => flat c = true) b -> nest d (a ++ b) = nest d a.
Proof. intros H. rewrite nest_app. destruct (nest d a); [now apply nest_flat|reflexivity]. Qed.

Lemma parse_variant_ok U b s e : balanced s -> parse_enum_variant U b s = Ok e -> variant_ok U b e.
Proof.
  intros Hb. unfold parse_enum_variant. intros H. inv_bind H.
  destruct a as [v x]. destruct (split_once 61 s) as [[v' x']|] eqn:Es; [|discriminate]. injection E as -> ->.
  apply split_once_spec in Es as [-> Hv].
  destruct (negb _ || negb _) eqn:Eq; [discriminate|].
  inv_bind H. inv_bind H. injection H as <-.
  destruct (parse_int b (trim U x)) as [z|] eqn:Ez; [|discriminate]. injection E0 as <-.
  apply parse_int_ok in Ez as [Hr Hf]. apply orb_false_iff in Eq as [Q1 Q2]. apply negb_false_iff in Q1, Q2.
  apply strip_ends_spec in E as (q1 & q2 & Ev).
  rewrite Ev in Q1, Q2. cbn [starts_with] in Q1. change (q1 :: a ++ [q2]) with ((q1 :: a) ++ [q2]) in Q2.
  rewrite ends_with_snoc in Q2. apply N.eqb_eq in Q1, Q2. subst q1 q2.
  split; [|exact Hr]. cbn [fst]. split; [|split].
  - intros Hi. apply Hv. destruct (trim_infix U v) as (p & q & E & _).
    destruct (trim_infix U a) as (p' & q' & E' & _). rewrite E, Ev, E'.
    rewrite !in_app_iff. right; left. right. rewrite !in_app_iff. tauto.
  - apply trim_trim.
  - unfold balanced. rewrite nest_trim. unfold balanced in Hb.
    assert (Hx : nest 0 v = Some 0%nat).
    { rewrite <- (nest_flat_tail 0 v (61 :: trim U x)) by (constructor; [reflexivity|exact Hf]).
      rewrite <- Hb, !nest_app. destruct (nest 0 v) as [e0|]; [|reflexivity]. cbn [nest].
      change (61 =? 44) with false. change (61 =? 40) with false. change (61 =? 41) with false. cbn iota. apply nest_trim. }
    rewrite <- nest_trim with (U := U), Ev in Hx. cbn [nest] in Hx.
    change (39 =? 44) with false in Hx. change (39 =? 40) with false in Hx. change (39 =? 41) with false in Hx. cbn iota in Hx.
    rewrite nest_flat_tail in Hx by (repeat constructor). exact Hx.
Qed.

Lemma mapM_Forall {A B} (f : A -> res B) (P : A -> Prop) (Q : B -> Prop) l ys :
  (forall x y, P x -> f x = Ok y -> Q y) -> Forall P l -> mapM f l = Ok ys -> Forall Q ys.
Proof.
  intros H F; revert ys; induction F as [|x l Hx F IH]; intros ys; cbn [mapM].
  - intros [= <-]. constructor.
  - intros E. inv_bind E. inv_bind E. injection E as <-. constructor; [eapply H; eauto|now apply IH].
Qed.
Lemma rmap_ok {A B} (f : A -> B) r b : rmap f r = Ok b -> exists a, r = Ok a /\ b = f a.
Proof. destruct r; cbn; try discriminate. intros [= <-]. eauto. Qed.
Lemma one_arg_ok args a : one_arg args = Ok a -> args = [a].
Proof. destruct args as [|x [|]]; cbn; try discriminate. now intros [= <-]. Qed.
Lemma or_err_ok {A} (o : option A) a : or_err o = Ok a -> o = Some a.
Proof. destruct o; cbn; [now intros [= <-]|discriminate]. Qed.
Lemma scale_ok args n : scale args = Ok n -> n < 2 ^ 64.
Proof. unfold scale. intros H. inv_bind H. apply or_err_ok, parse_usize_ok in H. exact H. Qed.

Lemma lookup_plain_printable U k t : lookup k plain_table = Some t -> printable U t.
Proof.
  unfold plain_table. cbn [lookup].
  repeat (match goal with |- context [if ?b then _ else _] => destruct b end; [intros [= <-]; exact I|]).
  discriminate.
Qed.

Lemma parse_printable_go U D f : forall s t, parse_go U D f s = Ok t -> printable U t.
Proof.
  induction f as [|f IH]; intros s t; cbn [parse_go]; [discriminate|].
  destruct (eat_identifier U true s) as [ident following]. destruct ident as [|c ident]; [discriminate|].
  destruct (trim U following) as [|x fol] eqn:Ef.
  - intros H. apply or_err_ok, (lookup_plain_printable U) in H. exact H.
  - intros H. inv_bind H. apply parse_args_props in E.
    destruct (lookup (c :: ident) head_table) as [h|]; [|discriminate].
    destruct h; cbn [apply_head] in H;
      try (apply rmap_ok in H as (n & Hn & ->); apply scale_ok in Hn; exact Hn).
    + destruct a as [|a1 [|a2 [|]]]; try discriminate. inv_bind H. inv_bind H.
      apply or_err_ok, parse_usize_ok in E1.
      destruct (a <=? 9); [injection H as <-; exact E1|]. destruct (a <=? 18); [injection H as <-; exact E1|].
      destruct (a <=? 38); [injection H as <-; exact E1|]. destruct (a <=? 76); [injection H as <-; exact E1|discriminate].
    + inv_bind H. apply rmap_ok in H as (z & _ & ->). exact I.
    + destruct a as [|a1 [|a2 [|]]]; try discriminate.
      * inv_bind H. injection H as <-. apply or_err_ok, parse_usize_ok in E0. exact E0.
      * destruct (_ || _); [discriminate|]. inv_bind H. inv_bind H. injection H as <-.
        apply or_err_ok, parse_usize_ok in E0. exact E0.
    + apply rmap_ok in H as (l & Hl & ->). cbn [printable].
      eapply (mapM_Forall _ (fun a => balanced a /\ edge_ok U a /\ _)); [|exact E|exact Hl].
      intros y e (Hb & _) He. eapply parse_variant_ok; [|exact He]. now apply trim_balanced.
    + apply rmap_ok in H as (l & Hl & ->). cbn [printable].
      eapply (mapM_Forall _ (fun a => balanced a /\ edge_ok U a /\ _)); [|exact E|exact Hl].
      intros y e (Hb & _) He. eapply parse_variant_ok; [|exact He]. now apply trim_balanced.
    + inv_bind H. apply rmap_ok in H as (t' & Ht & ->). exact (IH _ _ Ht).
    + inv_bind H. apply rmap_ok in H as (t' & Ht & ->). exact (IH _ _ Ht).
    + apply rmap_ok in H as (l & Hl & ->). apply printable_tuple.
      eapply (mapM_Forall _ (fun _ => True)); [|now apply Forall_forall|exact Hl]. intros y e _ He. eapply IH, He.
    + inv_bind H. apply rmap_ok in H as (t' & Ht & ->). exact (IH _ _ Ht).
    + destruct a as [|a1 [|a2 [|]]]; try discriminate. inv_bind H. inv_bind H. injection H as <-.
      split; [exact (IH _ _ E0)|exact (IH _ _ E1)].
Qed.

(** Parsing anything and printing it gives a canonical name of the same type. *)
Theorem parse_stable U D s t : tzdb_ok D -> parse_ty U D s = Ok t -> parse_ty U D (show_ty D t) = Ok t.
Proof. intros HD H. apply parse_show; [exact HD|]. eapply parse_printable_go, H. Qed.

(* ---------------- termination ---------------- *)

Definition nofuel {A} (r : res A) : Prop := r <> Err EFuel.
Lemma nofuel_bind {A B} (r : res A) (f : A -> res B) :
  nofuel r -> (forall a, r = Ok a -> nofuel (f a)) -> nofuel (rbind r f).
Proof. unfold nofuel. destruct r; cbn; intros H K; [now apply K|congruence|congruence]. Qed.
Lemma nofuel_rmap {A B} (f : A -> B) r : nofuel r -> nofuel (rmap f r).
Proof. unfold nofuel. destruct r; cbn; congruence. Qed.
Lemma nofuel_or_err {A} (o : option A) : nofuel (or_err o).
Proof. destruct o; discriminate. Qed.
Lemma nofuel_strip s : nofuel (strip_ends s).
Proof. destruct s as [|? [|]]; discriminate. Qed.
Lemma nofuel_scan U s : forall d seg, nofuel (scan_args U d seg s).
Proof.
  induction s as [|c s IH]; intros d seg; cbn [scan_args].
  - destruct d; discriminate.
  - destruct (c =? 44); [destruct d; [apply nofuel_bind; [apply IH|discriminate]|apply IH]|].
    destruct (c =? 40); [apply IH|]. destruct (c =? 41); [destruct d; [discriminate|apply IH]|apply IH].
Qed.
Lemma nofuel_parse_args U s : nofuel (parse_args U s).
Proof.
  unfold parse_args. destruct (_ || _); [discriminate|]. apply nofuel_bind; [apply nofuel_strip|]. intros; apply nofuel_scan.
Qed.
Lemma nofuel_mapM {A B} (f : A -> res B) l : (forall x, In x l -> nofuel (f x)) -> nofuel (mapM f l).
Proof.
  induction l as [|x l IH]; intros H; [discriminate|]. cbn [mapM]. apply nofuel_bind; [apply H; now left|].
  intros y _. apply nofuel_bind; [apply IH; intros; apply H; now right|]. intros; discriminate.
Qed.
Lemma nofuel_variant U b s : nofuel (parse_enum_variant U b s).
Proof.
  unfold parse_enum_variant. apply nofuel_bind; [apply nofuel_or_err|]. intros [v x] _.
  destruct (_ || _); [discriminate|]. apply nofuel_bind; [apply nofuel_strip|]. intros ? _.
  apply nofuel_bind; [apply nofuel_or_err|]. discriminate.
Qed.
Lemma nofuel_tz D s : nofuel (parse_tz D s).
Proof. unfold parse_tz. destruct (_ || _); [discriminate|]. apply nofuel_bind; [apply nofuel_strip|]. intros; apply nofuel_or_err. Qed.
Lemma nofuel_scale l : nofuel (scale l).
Proof. unfold scale. apply nofuel_bind; [destruct l as [|? [|]]; discriminate|]. intros; apply nofuel_or_err. Qed.
Lemma nofuel_one l : nofuel (one_arg l).
Proof. destruct l as [|? [|]]; discriminate. Qed.

Lemma parse_go_terminates U D f : forall s, (length s < f)%nat -> nofuel (parse_go U D f s).
Proof.
  induction f as [|f IH]; intros s Hs; [lia|]. cbn [parse_go].
  destruct (eat_identifier U true s) as [ident following] eqn:Ei. apply eat_split in Ei.
  destruct ident as [|c ident]; [discriminate|].
  destruct (trim U following) as [|x fol] eqn:Ef; [apply nofuel_or_err|].
  apply nofuel_bind; [apply nofuel_parse_args|]. intros args Ha. apply parse_args_props in Ha.
  assert (L : forall a, In a args -> nofuel (parse_go U D f a)).
  { intros a Hi. apply IH. rewrite Forall_forall in Ha. destruct (Ha a Hi) as (_ & _ & La).
    rewrite <- Ef in La. pose proof (trim_length U following). rewrite Ei, app_length in Hs. lia. }
  assert (Lt : forall a, In a args -> nofuel (parse_go U D f (trim U a))).
  { intros a Hi. apply IH. rewrite Forall_forall in Ha. destruct (Ha a Hi) as (_ & _ & La).
    rewrite <- Ef in La. pose proof (trim_length U following). pose proof (trim_length U a).
    rewrite Ei, app_length in Hs. lia. }
  destruct (lookup (c :: ident) head_table) as [h|]; [|discriminate].
  assert (L1 : forall (g : ty -> ty), nofuel (rbind (one_arg args) (fun a => rmap g (parse_go U D f a)))).
  { intros g. apply nofuel_bind; [apply nofuel_one|]. intros a Ea. apply one_arg_ok in Ea as ->.
    apply nofuel_rmap, L. now left. }
  destruct h; cbn [apply_head]; try (apply nofuel_rmap, nofuel_scale); try apply L1.
  - destruct args as [|a1 [|a2 [|]]]; try discriminate.
    apply nofuel_bind; [apply nofuel_or_err|]. intros p _. apply nofuel_bind; [apply nofuel_or_err|]. intros q _.
    repeat (match goal with |- context [if ?b then _ else _] => destruct b end; [discriminate|]). discriminate.
  - apply nofuel_bind; [apply nofuel_one|]. intros; apply nofuel_rmap, nofuel_tz.
  - destruct args as [|a1 [|a2 [|]]]; try discriminate.
    + apply nofuel_bind; [apply nofuel_or_err|]. discriminate.
    + destruct (_ || _); [discriminate|]. apply nofuel_bind; [apply nofuel_or_err|]. intros ? _.
      apply nofuel_bind; [apply nofuel_tz|]. discriminate.
  - apply nofuel_rmap, nofuel_mapM. intros; apply nofuel_variant.
  - apply nofuel_rmap, nofuel_mapM. intros; apply nofuel_variant.
  - apply nofuel_rmap, nofuel_mapM. exact Lt.
  - destruct args as [|a1 [|a2 [|]]]; try discriminate.
    apply nofuel_bind; [apply L; now left|]. intros ? _. apply nofuel_bind; [apply L; right; now left|]. discriminate.
Qed.

Theorem parse_terminates U D s : parse_ty U D s <> Err EFuel.
Proof. apply parse_go_terminates. lia. Qed.

(* ---------------- panics ---------------- *)

(** Local conditions on a text under which parsing cannot panic.
    (1) parentheses are balanced and commas stand within them;
    (2) after a closing parenthesis comes (white space aside) the end, a comma or another
        closing parenthesis;
    (3) no quote stands alone between two delimiters. *)
Definition spaces (U : unicode) (w : text) : Prop := Forall (fun c => is_space U c = true) w.
Definition close_ok (U : unicode) (s : text) : Prop :=
  forall a w c b, s = a ++ 41 :: w ++ c :: b -> spaces U w -> is_space U c = false -> c = 44 \/ c = 41.
Definition opens (U : unicode) (a : text) : Prop :=
  exists p w, a = p ++ w /\ spaces U w /\ (p = [] \/ exists q c, p = q ++ [c] /\ (c = 40 \/ c = 44)).
Definition closes (U : unicode) (b : text) : Prop :=
  exists w p, b = w ++ p /\ spaces U w /\ (p = [] \/ exists c q, p = c :: q /\ (c = 41 \/ c = 44 \/ c = 61)).
Definition quote_ok (U : unicode) (s : text) : Prop :=
  forall a b, s = a ++ 39 :: b -> opens U a -> closes U b -> False.
Definition tidy (U : unicode) (s : text) : Prop := balanced s /\ close_ok U s /\ quote_ok U s.

(* an argument sits between delimiters *)
Definition left_ctx (U : unicode) (A : text) : Prop :=
  exists q c w, A = q ++ c :: w /\ spaces U w /\ (c = 40 \/ c = 44).
Definition right_ctx (U : unicode) (B : text) : Prop :=
  exists w c q, B = w ++ c :: q /\ spaces U w /\ (c = 41 \/ c = 44).

Lemma tidy_arg U s A x B : s = A ++ x ++ B -> left_ctx U A -> right_ctx U B ->
  close_ok U s -> quote_ok U s -> close_ok U x /\ quote_ok U x.
Proof.
  intros -> (q & c & w & EA & Hw & Hc) (w' & c' & q' & EB & Hw' & Hc') HC HQ. split.
  - intros a v d b -> Hv Hd. apply (HC (A ++ a) v d (b ++ B)); auto.
    rewrite <- !app_assoc. cbn [app]. rewrite <- !app_assoc. reflexivity.
  - intros a b -> (p & w1 & -> & Hw1 & Hp) (w2 & p2 & -> & Hw2 & Hp2).
    apply (HQ (A ++ p ++ w1) ((w2 ++ p2) ++ B)).
    + rewrite <- !app_assoc. cbn [app]. rewrite <- !app_assoc. reflexivity.
    + destruct Hp as [->|(q1 & c1 & -> & H1)].
      * exists (q ++ [c]), (w ++ w1). split; [|split].
        -- rewrite EA, <- !app_assoc. reflexivity.
        -- now apply Forall_app.
        -- right. exists q, c. auto.
      * exists (A ++ q1 ++ [c1]), w1. split; [|split]; auto.
        -- rewrite <- !app_assoc. reflexivity.
        -- right. exists (A ++ q1), c1. split; [now rewrite app_assoc|auto].
    + destruct Hp2 as [->|(c1 & q1 & -> & H1)].
      * exists (w2 ++ w'), (c' :: q'). split; [|split].
        -- rewrite EB, app_nil_r, <- !app_assoc. reflexivity.
        -- now apply Forall_app.
        -- right. exists c', q'. split; [reflexivity|]. tauto.
      * exists w2, ((c1 :: q1) ++ B). split; [|split]; auto.
        -- now rewrite <- app_assoc.
        -- right. exists c1, (q1 ++ B). auto.
Qed.

(** The first non-space character of a text that has one. *)
Lemma first_nonspace U s : (exists w c b, s = w ++ c :: b /\ spaces U w /\ is_space U c = false) \/ spaces U s.
Proof.
  destruct (trim_start_suffix U s) as [p [E F]]. pose proof (trim_start_head U s) as H.
  destruct (trim_start U s) as [|c b].
  - right. rewrite E, app_nil_r. exact F.
  - left. exists p, c, b. auto.
Qed.

Lemma nest_spaces_bad U d w c b : spaces U w -> c = 44 \/ c = 41 -> d = 0%nat -> nest d (w ++ c :: b) = None.
Proof.
  intros Hw Hc ->. rewrite nest_app, nest_flat by (eapply Forall_impl; [|exact Hw]; apply space_flat).
  destruct Hc as [->| ->]; reflexivity.
Qed.

Lemma scan_no_panic U s : forall d seg pre rest e, ~ spaces U rest ->
  nest (S d) (s ++ rest) = Some e -> close_ok U (pre ++ s ++ rest) ->
  scan_args U d seg s <> Panic.
Proof.
  induction s as [|c s IH]; intros d seg pre rest e Hr Hn Hc; cbn [scan_args].
  - destruct d; discriminate.
  - assert (Hc' : close_ok U ((pre ++ [c]) ++ s ++ rest)) by now rewrite <- app_assoc.
    cbn [app nest] in Hn. destruct (N.eqb_spec c 44) as [->|N1].
    + destruct d; [|eapply IH; eassumption].
      destruct (scan_args U 0 [] s) eqn:E; cbn; try discriminate. exfalso. eapply IH; eassumption.
    + destruct (N.eqb_spec c 40) as [->|N2]; [eapply IH; eassumption|].
      destruct (N.eqb_spec c 41) as [->|N3]; [|eapply IH; eassumption].
      destruct d; [|eapply IH; eassumption]. exfalso.
      destruct (first_nonspace U (s ++ rest)) as [(w & x & b & Ew & Hw & Hx)|Hs].
      * specialize (Hc pre w x b). cbn [app] in Hc. rewrite Ew in Hc. specialize (Hc eq_refl Hw Hx).
        rewrite Ew, (nest_spaces_bad U 0 w x b Hw Hc eq_refl) in Hn. discriminate.
      * apply Forall_app in Hs as [_ Hs]. auto.
Qed.

Lemma eat_flat U s : forall first i f, eat_identifier U first s = (i, f) -> Forall (fun c => flat c = true) i.
Proof.
  induction s as [|c s IH]; intros first i f; cbn [eat_identifier]; [intros [= <- <-]; constructor|].
  destruct (_ || _) eqn:E; [|intros [= <- <-]; constructor].
  destruct (eat_identifier U false s) as [a b] eqn:E'. intros [= <- <-]. constructor; [|eapply IH, E'].
  unfold is_alpha, is_num, is_digit in E. unfold flat. destruct (N.ltb_spec c 128); [|lia]. destruct first; lia.
Qed.

(** Each argument found sits in the scanned text between delimiters. *)
Lemma scan_ctx U s : forall d seg args pre, scan_args U d seg s = Ok args ->
  left_ctx U pre -> forall rest, right_ctx U rest ->
  forall a, In a args -> exists A B, pre ++ rev seg ++ s ++ rest = A ++ a ++ B /\ left_ctx U A /\ right_ctx U B.
Proof.
  assert (T : forall pre x rest, left_ctx U pre -> right_ctx U rest ->
     exists A B, pre ++ x ++ rest = A ++ trim U x ++ B /\ left_ctx U A /\ right_ctx U B).
  { intros pre x rest (q & c & w & E & Hw & Hc) (w' & c' & q' & E' & Hw' & Hc').
    destruct (trim_infix U x) as (p1 & p2 & Ex & F1 & F2). exists (pre ++ p1), (p2 ++ rest). split; [|split].
    - rewrite Ex at 1. now rewrite <- !app_assoc.
    - exists q, c, (w ++ p1). split; [rewrite E, <- app_assoc; reflexivity|]. split; [now apply Forall_app|exact Hc].
    - exists (p2 ++ w'), c', q'. split; [rewrite E', <- app_assoc; reflexivity|]. split; [now apply Forall_app|exact Hc']. }
  induction s as [|c s IH]; intros d seg args pre; cbn [scan_args].
  - destruct d; [|discriminate]. intros [= <-] HL rest HR a. destruct seg as [|x seg]; [intros []|].
    intros [<-|[]]. cbn [app]. now apply T.
  - assert (K : forall d' args, scan_args U d' (c :: seg) s = Ok args -> left_ctx U pre -> forall rest, right_ctx U rest ->
      forall a, In a args -> exists A B, pre ++ rev seg ++ (c :: s) ++ rest = A ++ a ++ B /\ left_ctx U A /\ right_ctx U B).
    { intros d' args' H HL rest HR a Ha. destruct (IH d' _ _ _ H HL rest HR a Ha) as (A & B & E & HA & HB).
      exists A, B. split; [|auto]. rewrite <- E. cbn [rev app]. rewrite <- !app_assoc. reflexivity. }
    destruct (N.eqb_spec c 44) as [->|].
    + destruct d; [|apply K]. intros H HL rest HR. inv_bind H. injection H as <-. intros x [<-|Hx].
      * cbn [app]. apply T; [exact HL|]. exists [], 44, (s ++ rest). split; [reflexivity|]. split; [constructor|now right].
      * destruct (IH _ _ _ (pre ++ rev seg ++ [44]) E) with (rest := rest) (a := x) as (A & B & E' & HA & HB); auto.
        -- exists (pre ++ rev seg), 44, []. split; [now rewrite <- app_assoc|]. split; [constructor|now right].
        -- exists A, B. split; [|auto]. rewrite <- E'. cbn [rev app]. rewrite <- !app_assoc. reflexivity.
    + destruct (c =? 40); [apply K|]. destruct (c =? 41); [|apply K]. destruct d; [discriminate|apply K].
Qed.

Lemma lone_quote_panic s : starts_with 39 s = true -> strip_ends s = Panic -> s = [39].
Proof. destruct s as [|a [|b t]]; cbn; try discriminate. intros H _. apply N.eqb_eq in H. now subst. Qed.

Lemma quote_ok_not_lone U a : quote_ok U a -> a <> [39].
Proof.
  intros H ->. apply (H [] []); [reflexivity| |].
  - exists [], []. repeat split; [constructor|now left].
  - exists [], []. repeat split; [constructor|now left].
Qed.

Lemma parse_tz_no_panic U D a : quote_ok U a -> parse_tz D a <> Panic.
Proof.
  intros H. unfold parse_tz. destruct (starts_with 39 a) eqn:E1; [|discriminate].
  destruct (ends_with 39 a); [|discriminate]. cbn [negb orb].
  destruct (strip_ends a) eqn:E; cbn [rbind]; [destruct (tz_parse D a0); discriminate|discriminate|].
  apply lone_quote_panic in E; [|exact E1]. now apply quote_ok_not_lone in H.
Qed.
Lemma parse_variant_no_panic U b a : quote_ok U a -> parse_enum_variant U b a <> Panic.
Proof.
  intros H. unfold parse_enum_variant. destruct (split_once 61 a) as [[v x]|] eqn:Es; [|discriminate]. cbn [or_err rbind].
  apply split_once_spec in Es as [-> _].
  destruct (starts_with 39 (trim U v)) eqn:E1; [|discriminate]. destruct (ends_with 39 (trim U v)); [|discriminate].
  cbn [negb orb]. destruct (strip_ends (trim U v)) eqn:E; cbn [rbind]; [|discriminate|].
  - destruct (parse_int b (trim U x)); discriminate.
  - exfalso. apply lone_quote_panic in E; [|exact E1]. destruct (trim_infix U v) as (p & q & Ev & Fp & Fq).
    rewrite E in Ev. apply (H p (q ++ 61 :: x)).
    + rewrite Ev, <- app_assoc. reflexivity.
    + exists [], p. repeat split; [exact Fp|now left].
    + exists q, (61 :: x). repeat split; [exact Fq|]. right. exists 61, x. auto.
Qed.

Lemma rbind_np {A B} (r : res A) (f : A -> res B) :
  r <> Panic -> (forall a, r = Ok a -> f a <> Panic) -> rbind r f <> Panic.
Proof. destruct r; cbn; intros H K; auto; congruence. Qed.
Lemma rmap_np {A B} (f : A -> B) r : r <> Panic -> rmap f r <> Panic.
Proof. destruct r; cbn; congruence. Qed.
Lemma mapM_np {A B} (f : A -> res B) l : (forall x, In x l -> f x <> Panic) -> mapM f l <> Panic.
Proof.
  induction l as [|x l IH]; intros H; [discriminate|]. cbn [mapM]. apply rbind_np; [apply H; now left|].
  intros y _. apply rbind_np; [apply IH; intros; apply H; now right|]. intros; discriminate.
Qed.
Lemma or_err_np {A} (o : option A) : or_err o <> Panic.
Proof. destruct o; discriminate. Qed.
Lemma one_arg_np l : one_arg l <> Panic.
Proof. destruct l as [|? [|]]; discriminate. Qed.
Lemma scale_np l : scale l <> Panic.
Proof. unfold scale. apply rbind_np; [apply one_arg_np|]. intros; apply or_err_np. Qed.

Lemma tidy_trim U s : tidy U s -> tidy U (trim U s).
Proof.
  intros (HB & HC & HQ). destruct (trim_infix U s) as (p & q & E & Fp & Fq).
  split; [now apply trim_balanced|]. split.
  - intros a w c b Et Hw Hc. apply (HC (p ++ a) w c (b ++ q)); auto.
    rewrite E, Et, <- !app_assoc. cbn [app]. rewrite <- !app_assoc. reflexivity.
  - intros a b Et (p1 & w1 & -> & Hw1 & Hp1) (w2 & p2 & -> & Hw2 & Hp2).
    apply (HQ (p ++ p1 ++ w1) ((w2 ++ p2) ++ q)).
    + rewrite E, Et, <- !app_assoc. cbn [app]. rewrite <- !app_assoc. reflexivity.
    + destruct Hp1 as [->|(q1 & c1 & -> & H1)].
      * exists [], (p ++ w1). repeat split; [now apply Forall_app|now left].
      * exists (p ++ q1 ++ [c1]), w1. split; [now rewrite <- !app_assoc|]. split; [exact Hw1|].
        right. exists (p ++ q1), c1. split; [now rewrite app_assoc|exact H1].
    + destruct Hp2 as [->|(c1 & q1 & -> & H1)].
      * exists (w2 ++ q), []. split; [now rewrite !app_nil_r|]. split; [now apply Forall_app|now left].
      * exists w2, (c1 :: q1 ++ q). split; [now rewrite <- app_assoc|]. split; [exact Hw2|].
        right. exists c1, (q1 ++ q). auto.
Qed.

Lemma parse_go_tidy U D f : forall s, tidy U s -> parse_go U D f s <> Panic.
Proof.
  induction f as [|f IH]; intros s Ht; [discriminate|]. cbn [parse_go].
  destruct (eat_identifier U true s) as [ident following] eqn:Ei. pose proof (eat_flat _ _ _ _ _ Ei) as Hflat. apply eat_split in Ei.
  destruct ident as [|c ident]; [discriminate|].
  destruct (trim U following) as [|x fol] eqn:Ef; [apply or_err_np|]. rewrite <- Ef. clear x fol Ef.
  destruct Ht as (HB & HC & HQ).
  destruct (parse_args U (trim U following)) as [args| |] eqn:Ea; cbn [rbind]; [|discriminate|].
  - (* arguments are tidy *)
    pose proof (parse_args_props U _ _ Ea) as Hp. apply parse_args_ok in Ea as (body & Eb & Hs).
    assert (Ht : forall a, In a args -> tidy U a).
    { intros a Hi. rewrite Forall_forall in Hp. destruct (Hp a Hi) as (Hb & _). split; [exact Hb|].
      destruct (trim_infix U following) as (p1 & p2 & E1 & F1 & F2). destruct (trim_infix U body) as (b1 & b2 & E2 & G1 & G2).
      destruct (scan_ctx U _ _ _ _ ((c :: ident) ++ p1 ++ 40 :: b1) Hs) with (rest := b2 ++ 41 :: p2) (a := a)
        as (A & B & E & HA & HB'); auto.
      - exists ((c :: ident) ++ p1), 40, b1. split; [now rewrite <- app_assoc|]. split; [exact G1|now left].
      - exists b2, 41, p2. split; [reflexivity|]. split; [exact G2|now left].
      - apply (tidy_arg U s A a B); auto. rewrite <- E. cbn [rev app]. rewrite Ei, E1, Eb. rewrite E2 at 1.
        norm_app. reflexivity. }
    destruct (lookup (c :: ident) head_table) as [h|]; [|discriminate].
    assert (L1 : forall (g : ty -> ty), rbind (one_arg args) (fun a => rmap g (parse_go U D f a)) <> Panic).
    { intros g. apply rbind_np; [apply one_arg_np|]. intros a Eo. apply one_arg_ok in Eo as ->.
      apply rmap_np, IH, Ht. now left. }
    assert (LE : forall b (g : list (text * Z) -> ty), rmap g (mapM (fun a => parse_enum_variant U b (trim U a)) args) <> Panic).
    { intros b g. apply rmap_np, mapM_np. intros a Hi. apply parse_variant_no_panic. apply (tidy_trim U a (Ht a Hi)). }
    destruct h; cbn [apply_head]; try (apply rmap_np, scale_np); try apply L1; try apply LE.
    + destruct args as [|a1 [|a2 [|]]]; try discriminate.
      apply rbind_np; [apply or_err_np|]. intros p _. apply rbind_np; [apply or_err_np|]. intros q _.
      repeat (match goal with |- context [if ?b then _ else _] => destruct b end; [discriminate|]). discriminate.
    + apply rbind_np; [apply one_arg_np|]. intros a Eo. apply one_arg_ok in Eo as ->.
      apply rmap_np, (parse_tz_no_panic U). apply (Ht a). now left.
    + destruct args as [|a1 [|a2 [|]]]; try discriminate.
      * apply rbind_np; [apply or_err_np|]. discriminate.
      * destruct (_ || _); [discriminate|]. apply rbind_np; [apply or_err_np|]. intros ? _.
        apply rbind_np; [|discriminate]. apply (parse_tz_no_panic U), (Ht a2). right; now left.
    + apply rmap_np, mapM_np. intros a Hi. apply IH, tidy_trim, Ht, Hi.
    + destruct args as [|a1 [|a2 [|]]]; try discriminate.
      apply rbind_np; [apply IH, Ht; now left|]. intros ? _. apply rbind_np; [apply IH, Ht; right; now left|]. discriminate.
  - (* the scanner cannot panic *)
    exfalso. revert Ea. unfold parse_args. destruct (negb _ || negb _) eqn:Ew; [discriminate|].
    apply wrapped_spec in Ew as [body Eb]; [|discriminate]. rewrite Eb.
    replace (strip_ends (40 :: body ++ [41])) with (@Ok text body).
    2:{ destruct body as [|y body]; [reflexivity|]. cbn [app strip_ends]. f_equal. symmetry. apply (removelast_last (y :: body) 41). }
    cbn [rbind]. destruct (trim_infix U following) as (p1 & p2 & E1 & F1 & F2).
    destruct (trim_infix U body) as (b1 & b2 & E2 & G1 & G2).
    assert (Es : s = ((c :: ident) ++ p1 ++ [40] ++ b1) ++ trim U body ++ b2 ++ 41 :: p2).
    { rewrite Ei, E1, Eb. rewrite E2 at 1. norm_app. reflexivity. }
    intros Hpanic. refine (scan_no_panic U (trim U body) 0 [] _ (b2 ++ 41 :: p2) 0 _ _ _ Hpanic).
    + intros Hs. apply Forall_app in Hs as [_ Hs]. inversion Hs as [|? ? H41 _]; subst. discriminate.
    + unfold balanced in HB. rewrite Es, nest_app in HB. rewrite nest_app, nest_flat in HB by exact Hflat.
      rewrite nest_app, (nest_flat p1) in HB by (eapply Forall_impl; [|exact F1]; apply space_flat).
      rewrite nest_app in HB. change (nest 0 [40]) with (Some 1%nat) in HB. cbn iota in HB.
      rewrite (nest_flat b1) in HB by (eapply Forall_impl; [|exact G1]; apply space_flat). exact HB.
    + rewrite <- Es. exact HC.
Qed.

Theorem tidy_never_panics U D s : tidy U s -> parse_ty U D s <> Panic.
Proof. apply parse_go_tidy. Qed.
