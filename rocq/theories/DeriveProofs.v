(** Reading a derived struct from its columns. *)
From Coq Require Import String Permutation.
From Verif Require Import Base Types Text RawRow Numeric Convert ConvertSpec Migrate MigrateProofs Derive DeriveSpec.
Local Open Scope list_scope.
Local Open Scope N_scope.

Section KindInd.
  Variable P : kind -> Prop.
  Hypothesis HP : forall r, P (KPlain r).
  Hypothesis HN : forall fs, Forall (fun f => P (snd f)) fs -> P (KNested fs).
  Hypothesis HF : forall fs, Forall (fun f => P (snd f)) fs -> P (KFlatten fs).
  Fixpoint kind_ind' (k : kind) : P k :=
    let all := fix all (fs : fields) : Forall (fun f => P (snd f)) fs :=
      match fs with [] => Forall_nil _ | f :: r => Forall_cons f (kind_ind' (snd f)) (all r) end in
    match k with KPlain r => HP r | KNested fs => HN fs (all fs) | KFlatten fs => HF fs (all fs) end.
End KindInd.

(** ** Positions *)
Lemma set_nth_length {A} (l : list A) j x : List.length (set_nth l j x) = List.length l.
Proof. revert j; induction l as [|a l IH]; intros [|j]; cbn [set_nth List.length]; auto. Qed.
Lemma set_nth_same {A} (l : list A) j x : (j < List.length l)%nat -> nth_error (set_nth l j x) j = Some x.
Proof. revert j; induction l as [|a l IH]; intros [|j] H; cbn [List.length] in H; try lia; cbn [set_nth nth_error]; [reflexivity|]. apply IH. lia. Qed.
Lemma set_nth_other {A} (l : list A) j x i : i <> j -> nth_error (set_nth l j x) i = nth_error l i.
Proof.
  revert j i; induction l as [|a l IH]; intros [|j] [|i] H; cbn [set_nth nth_error]; try reflexivity; try congruence.
  apply IH. congruence.
Qed.

Lemma find_name_range fs : forall j n k, find_name fs j n = Some k -> (j <= k < j + List.length fs)%nat /\ exists f, nth_error fs (k - j) = Some f /\ named f n = true.
Proof.
  induction fs as [|f fs IH]; intros j n k H; cbn [find_name] in H; [discriminate|]. destruct (named f n) eqn:E.
  - injection H as <-. cbn [List.length]. split; [lia|]. exists f. rewrite Nat.sub_diag. auto.
  - apply IH in H as (R & g & G & N0). cbn [List.length]. split; [lia|]. exists g. replace (k - j)%nat with (S (k - S j)) by lia. auto.
Qed.
Lemma find_index_range fs : forall j at_ idx k, find_index fs j at_ idx = Some k -> (j <= k < j + List.length fs)%nat.
Proof.
  induction fs as [|f fs IH]; intros j a idx k H; cbn [find_index] in H; [discriminate|]. cbn [List.length]. destruct (inactive f).
  - apply IH in H. lia.
  - destruct ((a <=? idx) && _)%nat; [injection H as <-; lia|]. apply IH in H. lia.
Qed.
Lemma dest_range fs idx n j b : dest fs idx n = Some (j, b) -> (j < List.length fs)%nat.
Proof.
  unfold dest. destruct (find_name fs 0 n) as [k|] eqn:E.
  - intros H. injection H as <- _. apply find_name_range in E as [E _]. lia.
  - destruct (existsb _ fs); [discriminate|]. destruct (find_index fs 0 0 idx) eqn:F; [|discriminate]. intros H. injection H as <- _. apply find_index_range in F. lia.
Qed.

(** ** The loop over the columns treats every field on its own *)
Fixpoint mine (fs : fields) (j : nat) (idx : nat) (cols : list column) : list (bool * column) :=
  match cols with
  | [] => []
  | c :: r => match dest fs idx (cname c) with
              | Some (j', b) => if (j' =? j)%nat then (b, c) :: mine fs j (S idx) r else mine fs j (S idx) r
              | None => mine fs j (S idx) r
              end
  end.
Fixpoint put_all (f : info * kind) (l : list (bool * column)) (a : acc) : res acc :=
  match l with [] => Ok a | (b, c) :: r => a' <- put_column f b a c ;; put_all f r a' end.

Definition settled (fs : fields) (idx : nat) (cols : list column) (accs accs' : list acc) : Prop :=
  List.length accs' = List.length fs /\
  forall j f a, nth_error fs j = Some f -> nth_error accs j = Some a -> exists a', nth_error accs' j = Some a' /\ put_all f (mine fs j idx cols) a = Ok a'.

Lemma nth_error_ext {A} (l m : list A) : (forall i, nth_error l i = nth_error m i) -> l = m.
Proof.
  revert m; induction l as [|a l IH]; intros [|b m] H; try reflexivity; try (specialize (H 0%nat); discriminate).
  f_equal; [specialize (H 0%nat); cbn [nth_error] in H; congruence|]. apply IH. intros i. exact (H (S i)).
Qed.

Lemma match_keys_iff fs cols : forall idx accs accs', List.length accs = List.length fs ->
  (match_keys fs idx cols accs = Ok accs' <-> settled fs idx cols accs accs').
Proof.
  induction cols as [|c cols IH]; intros idx accs accs' L; cbn [match_keys].
  - unfold settled. cbn [mine]. split.
    + intros E. injection E as <-. split; [exact L|]. intros j f a _ Ha. exists a. auto.
    + intros [L' H]. f_equal. apply nth_error_ext. intros i. destruct (nth_error accs i) as [a|] eqn:Ha.
      * destruct (nth_error fs i) as [f|] eqn:Hf.
        -- destruct (H i f a Hf Ha) as (a' & -> & E). cbn [put_all] in E. congruence.
        -- apply nth_error_None in Hf. assert (i < List.length accs)%nat by (apply nth_error_Some; congruence). lia.
      * symmetry. apply nth_error_None. apply nth_error_None in Ha. lia.
  - destruct (dest fs idx (cname c)) as [[j b]|] eqn:D.
    + pose proof (dest_range _ _ _ _ _ D) as R. destruct (nth_error fs j) as [f|] eqn:Hf; [|apply nth_error_None in Hf; lia].
      destruct (nth_error accs j) as [a|] eqn:Ha; [|apply nth_error_None in Ha; lia].
      assert (Own : forall acc1, put_all f (mine fs j idx (c :: cols)) a = Ok acc1 <-> exists a1, put_column f b a c = Ok a1 /\ put_all f (mine fs j (S idx) cols) a1 = Ok acc1).
      { intros acc1. cbn [mine]. rewrite D, Nat.eqb_refl. cbn [put_all]. destruct (put_column f b a c) as [a1|e|]; cbn [rbind].
        - split; [eauto|]. intros (a2 & E & H). congruence.
        - split; [discriminate|]. intros (a2 & E & _). discriminate.
        - split; [discriminate|]. intros (a2 & E & _). discriminate. }
      assert (Oth : forall j', j' <> j -> mine fs j' idx (c :: cols) = mine fs j' (S idx) cols).
      { intros j' NE. cbn [mine]. rewrite D. destruct (Nat.eqb_spec j j'); [congruence|reflexivity]. }
      destruct (put_column f b a c) as [a1|e|] eqn:P; cbn [rbind].
      * rewrite IH by now rewrite set_nth_length. unfold settled. split; intros [L' H]; (split; [exact L'|]); intros j' f' a' Hf' Ha'.
        -- destruct (Nat.eq_dec j' j) as [->|NE].
           ++ assert (f' = f) as -> by congruence. assert (a' = a) as -> by congruence.
              destruct (H j f a1 Hf) as (a2 & A & B); [apply set_nth_same; lia|]. exists a2. split; [exact A|]. apply Own. eauto.
           ++ destruct (H j' f' a' Hf') as (a2 & A & B); [now rewrite set_nth_other|]. exists a2. split; [exact A|]. now rewrite Oth.
        -- destruct (Nat.eq_dec j' j) as [->|NE].
           ++ assert (f' = f) as -> by congruence. rewrite set_nth_same in Ha' by lia. injection Ha' as <-.
              destruct (H j f a Hf Ha) as (a2 & A & B). exists a2. split; [exact A|]. apply Own in B as (a3 & E & B). congruence.
           ++ rewrite set_nth_other in Ha' by exact NE. destruct (H j' f' a' Hf' Ha') as (a2 & A & B). exists a2. split; [exact A|]. now rewrite <- Oth.
      * split; [discriminate|]. intros [_ H]. destruct (H j f a Hf Ha) as (a2 & _ & B). apply Own in B as (a3 & E & _). discriminate.
      * split; [discriminate|]. intros [_ H]. destruct (H j f a Hf Ha) as (a2 & _ & B). apply Own in B as (a3 & E & _). discriminate.
    + rewrite IH by exact L. unfold settled. cbn [mine]. rewrite D. tauto.
Qed.

(** ** Names tell fields apart *)
Lemma prefix_spec pat s : prefix pat s = true <-> exists r, s = pat ++ r.
Proof.
  revert s; induction pat as [|p pat IH]; intros s; cbn [prefix app]; [split; [eauto|reflexivity]|]. destruct s as [|c s].
  - split; [discriminate|]. intros [r H]. discriminate.
  - rewrite andb_true_iff, IH, N.eqb_eq. split.
    + intros [-> [r ->]]. eauto.
    + intros [r H]. injection H as -> ->. eauto.
Qed.
Lemma dotted_inj a b r s : ~ In 46 a -> ~ In 46 b -> dotted a ++ r = dotted b ++ s -> a = b /\ r = s.
Proof.
  unfold dotted. revert b; induction a as [|x a IH]; intros [|y b] Ha Hb E; cbn [app] in E.
  - injection E as ->. auto.
  - injection E as <- _. exfalso. apply Hb. now left.
  - injection E as -> _. exfalso. apply Ha. now left.
  - injection E as -> E. apply IH in E as [-> ->]; [auto| |]; intros H; [apply Ha|apply Hb]; now right.
Qed.
Lemma named_name f g n : ~ In 46 (i_name (fst f)) -> ~ In 46 (i_name (fst g)) -> named f n = true -> named g n = true -> i_name (fst f) = i_name (fst g).
Proof.
  intros Df Dg. unfold named. rewrite !andb_true_iff. intros [Af Hf] [Ag Hg].
  assert (Dot : forall a b r, ~ In 46 a -> a = dotted b ++ r -> False).
  { intros a b r Ha ->. apply Ha. unfold dotted. apply in_or_app. left. apply in_or_app. right. now left. }
  destruct (snd f), (snd g); try (apply text_eqb_eq in Hf); try (apply text_eqb_eq in Hg);
    try (apply prefix_spec in Hf as [r1 Hf]); try (apply prefix_spec in Hg as [r2 Hg]); try congruence;
    try (exfalso; subst n; eapply Dot; [|eassumption]; assumption);
    try (exfalso; subst n; eapply Dot; [|symmetry; eassumption]; assumption);
    try (rewrite Hf in Hg; apply dotted_inj in Hg as [-> _]; auto; fail).
  all: exfalso; rewrite Hf in Hg; eapply Dot; [|exact Hg]; assumption.
Qed.

Lemma active_in fs f : In f fs -> inactive f = false -> In (i_name (fst f)) (active_names fs).
Proof. intros H A. unfold active_names. apply in_map_iff. exists f. split; [reflexivity|]. apply filter_In. now rewrite A. Qed.
Lemma names_unique fs : NoDup (active_names fs) -> forall j j' f f', nth_error fs j = Some f -> nth_error fs j' = Some f' ->
  inactive f = false -> inactive f' = false -> i_name (fst f) = i_name (fst f') -> j = j'.
Proof.
  induction fs as [|g fs IH]; intros ND j j' f f' Hj Hj' A A' E; [destruct j; discriminate|].
  assert (In' : forall k h, nth_error fs k = Some h -> inactive h = false -> In (i_name (fst h)) (active_names fs)) by (intros k h Hk Ah; apply active_in; [eapply nth_error_In; eauto|exact Ah]).
  unfold active_names in ND. cbn [filter] in ND. destruct j as [|j], j' as [|j']; cbn [nth_error] in Hj, Hj'; [reflexivity| | |].
  - injection Hj as ->. rewrite A in ND. cbn [negb map] in ND. inversion ND as [|? ? X _]; subst. exfalso. apply X. rewrite E. now apply (In' j').
  - injection Hj' as ->. rewrite A' in ND. cbn [negb map] in ND. inversion ND as [|? ? X _]; subst. exfalso. apply X. rewrite <- E. now apply (In' j).
  - f_equal. eapply IH; eauto. destruct (negb (inactive g)); [cbn [map] in ND; now inversion ND|exact ND].
Qed.

Lemma named_active f n : named f n = true -> inactive f = false.
Proof. unfold named. rewrite andb_true_iff. intros [H _]. now apply negb_true_iff in H. Qed.
Lemma find_name_unique fs n : names_ok fs -> forall j f, nth_error fs j = Some f -> named f n = true -> find_name fs 0 n = Some j.
Proof.
  intros (ND & DF & _) j f Hj Hn.
  assert (Ex : exists k, find_name fs 0 n = Some k).
  { clear ND DF. revert j Hj. generalize 0%nat. induction fs as [|g fs IH]; intros s j Hj; [destruct j; discriminate|]. cbn [find_name].
    destruct (named g n) eqn:G; [eauto|]. destruct j as [|j]; cbn [nth_error] in Hj; [congruence|]. eapply IH; eauto. }
  destruct Ex as [k E]. rewrite E. apply find_name_range in E as (_ & g & Hg & Gn). rewrite Nat.sub_0_r in Hg. f_equal.
  pose proof (named_active _ _ Hn) as A. pose proof (named_active _ _ Gn) as A'.
  assert (D1 : ~ In 46 (i_name (fst f))) by (apply (proj1 (Forall_forall _ _) DF), active_in; [eapply nth_error_In; eauto|exact A]).
  assert (D2 : ~ In 46 (i_name (fst g))) by (apply (proj1 (Forall_forall _ _) DF), active_in; [eapply nth_error_In; eauto|exact A']).
  eapply names_unique; eauto. now apply (named_name g f n).
Qed.

Lemma mine_named fs : names_ok fs -> forall cols idx, (forall c, In c cols -> exists f, In f fs /\ named f (cname c) = true) ->
  forall j f, nth_error fs j = Some f -> mine fs j idx cols = map (pair true) (filter (fun c => named f (cname c)) cols).
Proof.
  intros OK cols. induction cols as [|c cols IH]; intros idx H j f Hj; [reflexivity|]. cbn [mine filter].
  destruct (H c (or_introl eq_refl)) as (g & Hg & Gn). apply In_nth_error in Hg as [k Hk].
  unfold dest. rewrite (find_name_unique fs (cname c) OK k g Hk Gn).
  rewrite IH with (f := f); [|intros c' Hc'; apply H; now right|exact Hj].
  destruct (Nat.eqb_spec k j) as [->|NE].
  - assert (g = f) as -> by congruence. now rewrite Gn.
  - destruct (named f (cname c)) eqn:Fn; [|reflexivity]. exfalso. apply NE.
    pose proof (find_name_unique fs (cname c) OK j f Hj Fn) as A. rewrite (find_name_unique fs (cname c) OK k g Hk Gn) in A. congruence.
Qed.
