(** Specification and proofs of the rename rules. *)
From Coq Require Import String.
From Verif Require Import Base Types Text Rename.
Local Open Scope list_scope.
Local Open Scope N_scope.

(** The words of a field name: what is between the underscores. *)
Fixpoint words (s : text) : list text :=
  match s with
  | [] => [[]]
  | c :: r => if c =? 95 then [] :: words r
              else match words r with w :: ws => (c :: w) :: ws | [] => [[c]] end
  end.
Fixpoint join (sep : text) (ws : list text) : text :=
  match ws with [] => [] | [w] => w | w :: ws' => w ++ sep ++ join sep ws' end.
Definition capital (w : text) : text := match w with [] => [] | c :: r => upper c :: r end.
Definition decapital (w : text) : text := match w with [] => [] | c :: r => lower c :: r end.
Definition full (w : text) : bool := match w with [] => false | _ => true end.

Lemma words_cons s : exists w ws, words s = w :: ws.
Proof. induction s as [|c s IH]; cbn [words]; [eauto|]. destruct (c =? 95); [eauto|]. destruct IH as (w & ws & ->). eauto. Qed.
Lemma words_join s : join [95] (words s) = s.
Proof.
  induction s as [|c s IH]; [reflexivity|]. cbn [words]. destruct (N.eqb_spec c 95) as [->|N0].
  - destruct (words_cons s) as (w & ws & E). rewrite E in *. cbn [join]. rewrite <- IH. reflexivity.
  - destruct (words_cons s) as (w & ws & E). rewrite E in *. destruct ws; cbn [join] in *; rewrite <- IH; reflexivity.
Qed.
Lemma words_free s : Forall (fun w => ~ In 95 w) (words s).
Proof.
  induction s as [|c s IH]; cbn [words]; [repeat constructor; intros []|]. destruct (N.eqb_spec c 95) as [->|N0]; [constructor; [intros []|exact IH]|].
  destruct (words_cons s) as (w & ws & E). rewrite E in *. inversion IH as [|? ? A B]; subst. constructor; [|exact B]. intros [->|X]; [congruence|now apply A].
Qed.

Lemma pascal_words s : pascal_loop true s = concat (map capital (words s)) /\
  pascal_loop false s = match words s with w :: ws => w ++ concat (map capital ws) | [] => [] end.
Proof.
  induction s as [|c s [A B]]; [split; reflexivity|]. cbn [words pascal_loop]. destruct (N.eqb_spec c 95) as [->|N0].
  - split; exact A.
  - destruct (words_cons s) as (w & ws & E). rewrite E in *. split; cbn [map concat capital app]; now rewrite B.
Qed.

Lemma dashes_words s : dashes s = join [45] (words s).
Proof.
  unfold dashes. induction s as [|c s IH]; [reflexivity|]. cbn [words map]. destruct (N.eqb_spec c 95) as [->|N0]; rewrite IH.
  - destruct (words_cons s) as (w & ws & E). rewrite E. reflexivity.
  - destruct (words_cons s) as (w & ws & E). rewrite E. destruct ws; reflexivity.
Qed.
Lemma upper_us c : upper c = 95 <-> c = 95.
Proof. unfold upper. destruct ((97 <=? c) && (c <=? 122)) eqn:E; lia. Qed.
Lemma words_upper s : words (map upper s) = map (map upper) (words s).
Proof.
  induction s as [|c s IH]; [reflexivity|]. cbn [map words].
  assert (X : (upper c =? 95) = (c =? 95)) by (pose proof (upper_us c); destruct (N.eqb_spec (upper c) 95), (N.eqb_spec c 95); tauto).
  rewrite X. destruct (c =? 95); rewrite IH; [reflexivity|]. destruct (words_cons s) as (w & ws & E). rewrite E. reflexivity.
Qed.

Lemma concat_full ws : concat (map capital ws) = concat (map capital (filter full ws)).
Proof. induction ws as [|[|c w] ws IH]; cbn [filter full map concat capital app]; [reflexivity|exact IH|]. now rewrite IH. Qed.

Lemma lower_upper c : lower (upper c) = lower c.
Proof. unfold lower, upper. destruct ((97 <=? c) && (c <=? 122)) eqn:E; destruct ((65 <=? c) && (c <=? 90)) eqn:F; destruct ((65 <=? c - 32) && (c - 32 <=? 90)) eqn:G; lia. Qed.
Lemma upper_ascii c : (upper c <? 128) = (c <? 128).
Proof. unfold upper. destruct ((97 <=? c) && (c <=? 122)) eqn:E; lia. Qed.

Lemma camel s : apply_to_field RCamel s =
  match filter full (words s) with
  | (c :: r) :: ws => if c <? 128 then Ok (lower c :: r ++ concat (map capital ws)) else Panic
  | _ => Panic
  end.
Proof.
  cbn [apply_to_field]. rewrite (proj1 (pascal_words s)), concat_full.
  assert (F : Forall (fun w => full w = true) (filter full (words s))) by (apply Forall_forall; intros w Hw; now apply filter_In in Hw).
  destruct (filter full (words s)) as [|[|c r] ws]; [reflexivity|inversion F; discriminate|].
  cbn [map concat capital app]. now rewrite upper_ascii, lower_upper.
Qed.

(** Names without the characters a rule would merge keep apart. *)
Definition snake (s : text) : Prop := Forall (fun c => ~ (65 <= c <= 90) /\ c <> 45) s.
Lemma upper_inj s t : snake s -> snake t -> map upper s = map upper t -> s = t.
Proof.
  intros Hs. revert t. induction Hs as [|c s [Hc _] _ IH]; intros t Ht E; destruct Ht as [|d t [Hd _] Ht]; try discriminate; [reflexivity|].
  cbn [map] in E. injection E as E1 E2. f_equal; [|now apply IH]. unfold upper in E1.
  destruct ((97 <=? c) && (c <=? 122)) eqn:X; destruct ((97 <=? d) && (d <=? 122)) eqn:Y; lia.
Qed.
Lemma dashes_inj s t : Forall (fun c => c <> 45) s -> Forall (fun c => c <> 45) t -> dashes s = dashes t -> s = t.
Proof.
  unfold dashes. intros Hs. revert t. induction Hs as [|c s Hc _ IH]; intros t Ht E; destruct Ht as [|d t Hd Ht]; try discriminate; [reflexivity|].
  cbn [map] in E. injection E as E1 E2. f_equal; [|now apply IH].
  destruct (N.eqb_spec c 95), (N.eqb_spec d 95); congruence.
Qed.
Lemma upper_no_dash s : Forall (fun c => c <> 45) s -> Forall (fun c => c <> 45) (map upper s).
Proof. induction 1 as [|c s Hc _ IH]; cbn [map]; constructor; [|exact IH]. unfold upper. destruct ((97 <=? c) && (c <=? 122)) eqn:E; lia. Qed.
Lemma rules_injective r s t : r <> RPascal -> r <> RCamel -> snake s -> snake t -> apply_to_field r s = apply_to_field r t -> s = t.
Proof.
  intros R1 R2 Hs Ht E.
  assert (Ds : Forall (fun c => c <> 45) s) by (eapply Forall_impl; [|exact Hs]; cbv beta; tauto).
  assert (Dt : Forall (fun c => c <> 45) t) by (eapply Forall_impl; [|exact Ht]; cbv beta; tauto).
  destruct r; cbn [apply_to_field] in E; try congruence.
  - apply upper_inj; congruence.
  - apply upper_inj; congruence.
  - apply dashes_inj; congruence.
  - assert (X : dashes (map upper s) = dashes (map upper t)) by congruence. apply dashes_inj in X; [|now apply upper_no_dash|now apply upper_no_dash]. now apply upper_inj.
Qed.
Lemma camel_fails s : apply_to_field RCamel s = Panic <-> match filter (fun c => negb (c =? 95)) s with [] => True | c :: _ => 128 <= c end.
Proof.
  rewrite camel. induction s as [|c s IH]; [cbn; tauto|]. cbn [words filter]. destruct (N.eqb_spec c 95) as [->|N0]; cbn [negb]; [exact IH|].
  destruct (words_cons s) as (w & ws & E). rewrite E. cbn [filter full]. destruct (N.ltb_spec c 128); split; try discriminate; try lia; reflexivity.
Qed.
Lemma never_fails r s : r <> RCamel -> apply_to_field r s <> Panic /\ forall e, apply_to_field r s <> Err e.
Proof. destruct r; cbn [apply_to_field]; intros H; try congruence; split; discriminate. Qed.
