(** Which errors reading a derived struct gives. *)
From Coq Require Import String Permutation.
From Verif Require Import Base Types Utf8 Text RawRow Numeric Convert ConvertSpec ConvertProofs ConvertSafe Migrate MigrateProofs Derive DeriveSpec DeriveProofs DeriveProofs2 DeriveProofs4.
Local Open Scope list_scope.
Local Open Scope N_scope.

Definition conv_err (e : err) : Prop := e = EDeser \/ e = EUtf8.
Lemma bind_err {A B} (r : res A) (f : A -> res B) e : (x <- r ;; f x) = Err e -> r = Err e \/ exists a, r = Ok a /\ f a = Err e.
Proof. destruct r; cbn [rbind]; intros H; [eauto|left; congruence|discriminate]. Qed.
Lemma mapM_err {A B} (f : A -> res B) l e : mapM f l = Err e -> exists x, In x l /\ f x = Err e.
Proof.
  induction l as [|a l IH]; cbn [mapM]; [discriminate|]. intros H. apply bind_err in H as [H|(b & _ & H)]; [exists a; split; [now left|exact H]|].
  apply bind_err in H as [H|(bs & _ & H)]; [|discriminate]. destruct (IH H) as (x & I & E). exists x. split; [now right|exact E].
Qed.
Ltac bindE H := apply bind_err in H as [H|(? & _ & H)]; [|discriminate].
Lemma bytes_from_sql_err t v e : bytes_from_sql t v = Err e -> e = EDeser.
Proof.
  unfold bytes_from_sql. assert (B : forall l, mapM byte_from_value l = Err e -> e = EDeser).
  { intros l H. apply mapM_err in H as (x & _ & H). destruct x; cbn [byte_from_value] in H; try (now injection H); try discriminate H;
      repeat (match type of H with context [match ?w with I8 => _ | _ => _ end] => destruct w end); try discriminate H;
      try (destruct (guess_type _) in H; try discriminate H); now injection H. }
  destruct t; try (intros H; injection H as <-; reflexivity); try (destruct v; discriminate).
  destruct t; try (intros H; injection H as <-; reflexivity); destruct w; try (intros H; injection H as <-; reflexivity); destruct v; try discriminate; apply B.
Qed.
Lemma dec_from_sql_err v e : dec_from_sql v = Err e -> e = EDeser.
Proof.
  assert (T : forall m s, dec_try m s = Err e -> e = EDeser) by (intros m s; unfold dec_try; destruct (_ && _); congruence).
  destruct v; cbn [dec_from_sql]; try congruence; try apply T. destruct w; try apply T. destruct (_ <=? _); [congruence|apply T].
Qed.
Lemma chrono_from_sql_err t v e : chrono_from_sql t v = Err e -> e = EDeser.
Proof.
  destruct t; cbn [chrono_from_sql]; try congruence; destruct v; try discriminate; unfold datetime64_to_chrono; cbv zeta;
    repeat match goal with |- context [if ?b then _ else _] => destruct b end; congruence.
Qed.
Lemma from_sql_err r : no_user r = true -> forall t v e, from_sql r t v = Err e -> conv_err e.
Proof.
  unfold conv_err. induction r as [l| | | | | | |r IH|n r IH|r IH|r IH|r IH|rs IH|rk rv IHk IHv|ua uf ug] using rty_nested_ind; intros NU t v e H; cbn [from_sql] in H; cbn [no_user] in NU.
  - destruct (leaf_type l t); [destruct (leaf_content l v); discriminate|]. left. congruence.
  - destruct t; try (left; congruence). destruct w; try (left; congruence). destruct v; try discriminate. destruct w; discriminate.
  - destruct t; try (left; congruence); destruct v; cbn [rstring_from] in H; try discriminate; destruct (utf8_decode _) in H; try discriminate; right; congruence.
  - bindE H. left. eapply bytes_from_sql_err; eauto.
  - discriminate.
  - bindE H. left. eapply dec_from_sql_err; eauto.
  - bindE H. left. eapply chrono_from_sql_err; eauto.
  - destruct t; try (left; congruence). cbv zeta in H. destruct v; try discriminate.
    + destruct (strip_low_cardinality t); try discriminate; destruct w; try discriminate; destruct (byte_type r); try discriminate; left; congruence.
    + bindE H. apply mapM_err in H as (x & _ & H). eauto.
  - destruct t; try (left; congruence). destruct v; try discriminate. destruct (_ =? _); [|left; congruence]. bindE H. apply mapM_err in H as (x & _ & H). eauto.
  - destruct t; try (left; congruence). destruct v; try discriminate. destruct (_ =? _); [|left; congruence]. bindE H. apply mapM_err in H as (x & _ & H). eauto.
  - cbv zeta in H. destruct v; try discriminate; bindE H; eauto.
  - eauto.
  - destruct t; try (left; congruence). destruct v; try discriminate. destruct (_ =? _); cbn [negb] in H; [|left; congruence]. destruct (_ =? _); cbn [negb] in H; [|left; congruence].
    bindE H. match type of H with (_ ?a ?b ?c = _) => revert b c H | _ => idtac end. induction IH as [|r rs Hr _ IHrs]; intros [|t ts] [|v vs] H; try discriminate.
    cbn [forallb] in NU. apply andb_prop in NU as [N1 N2].
    apply bind_err in H as [H|(x & _ & H)]; [eauto|]. bindE H. eauto.
  - destruct t; try (left; congruence). destruct v; try discriminate. bindE H. apply mapM_err in H as ([k w] & _ & H). cbn [fst snd] in H.
    apply andb_prop in NU as [N1 N2]. apply bind_err in H as [H|(x & _ & H)]; [eauto|]. bindE H. eauto.
  - discriminate.
Qed.
Lemma field_from_err n r t v e : field_from n r t v = Err e -> exists e', from_sql r t v = Err e' /\ e = blamed r n e'.
Proof.
  unfold field_from. destruct (by_attribute r) eqn:B.
  - intros H. exists e. split; [exact H|]. destruct r; try discriminate. destruct by_attr; [reflexivity|discriminate].
  - destruct (from_sql r t v) as [a|e'|]; cbn [with_column]; try discriminate. intros H. exists e'. split; [reflexivity|].
    destruct r; try (destruct e'; cbn [blamed] in *; congruence). destruct by_attr; [discriminate|]. destruct e'; cbn [blamed] in *; congruence.
Qed.

(** ** Structs of plain fields *)
Lemma columns_of_none fs j cols : (forall k c, nth_error cols k = Some c -> goes_to fs k (cname c) <> Some j) -> columns_of fs j cols = [].
Proof.
  intros H. unfold columns_of. rewrite filter_none; [reflexivity|]. intros [k c] I. cbn [fst snd].
  assert (X : nth_error cols k = Some c).
  { assert (G : forall s, In (k, c) (combine (seq s (List.length cols)) cols) -> (s <= k)%nat /\ nth_error cols (k - s) = Some c).
    { clear. induction cols as [|d cols IH]; intros s I; [destruct I|]. cbn [List.length seq combine] in I. destruct I as [E|I].
      - injection E as -> ->. rewrite Nat.sub_diag. split; [lia|reflexivity].
      - apply IH in I as [L E]. split; [lia|]. replace (k - s)%nat with (S (k - S s)) by lia. exact E. }
    destruct (G 0%nat I) as [_ E]. now rewrite Nat.sub_0_r in E. }
  specialize (H k c X). destruct (goes_to fs k (cname c)) as [j'|]; [|reflexivity]. apply Nat.eqb_neq. congruence.
Qed.
Lemma goes_active fs k n j : goes_to fs k n = Some j -> exists f, nth_error fs j = Some f /\ i_skip_de (fst f) = false.
Proof.
  intros H. assert (I : In j (read_positions fs)).
  { unfold goes_to in H. destruct (find _ _) as [j'|] eqn:F; [apply find_some in F as [F _]; congruence|]. eapply nth_error_In; eauto. }
  unfold read_positions in I. apply filter_In in I as [_ I]. destruct (nth_error fs j) as [f|]; [|discriminate]. exists f. split; [reflexivity|]. now apply negb_true_iff.
Qed.
Definition sofar (fs : fields) (cols : list column) (n : nat) (j : nat) (f : info * kind) (a : acc) : Prop :=
  match a with
  | ASkip => i_skip_de (fst f) = true
  | ACell None => forall k c, (k < n)%nat -> nth_error cols k = Some c -> goes_to fs k (cname c) <> Some j
  | ACell (Some _) => exists k c, (k < n)%nat /\ nth_error cols k = Some c /\ goes_to fs k (cname c) = Some j
  | ANest _ _ => False
  end.
Lemma set_nth_same {A} (l : list A) j x y : nth_error l j = Some y -> nth_error (set_nth l j x) j = Some x.
Proof. revert j. induction l as [|a l IH]; intros [|j] H; try discriminate; [reflexivity|]. cbn [set_nth nth_error]. now apply IH. Qed.
Lemma set_nth_other {A} (l : list A) j j' x : j <> j' -> nth_error (set_nth l j x) j' = nth_error l j'.
Proof. revert j j'. induction l as [|a l IH]; intros [|j] [|j'] H; try reflexivity; try congruence. cbn [set_nth nth_error]. apply IH. congruence. Qed.

Lemma match_keys_blame fs cols : all_plain fs -> forall pre rest accs, cols = pre ++ rest -> List.length accs = List.length fs ->
  (forall j f a, nth_error fs j = Some f -> nth_error accs j = Some a -> sofar fs cols (List.length pre) j f a) ->
  match match_keys fs (List.length pre) rest accs with
  | Err e => plain_blame fs cols e
  | Ok accs' => List.length accs' = List.length fs /\ (forall j f a, nth_error fs j = Some f -> nth_error accs' j = Some a -> sofar fs cols (List.length cols) j f a)
  | Panic => True
  end.
Proof.
  intros P pre rest. revert pre. induction rest as [|c rest IH]; intros pre accs E L Inv; cbn [match_keys].
  - split; [exact L|]. rewrite app_nil_r in E. subst pre. exact Inv.
  - assert (Hc : nth_error cols (List.length pre) = Some c) by (rewrite E, nth_error_app2, Nat.sub_diag by lia; reflexivity).
    assert (E' : cols = (pre ++ [c]) ++ rest) by (rewrite <- app_assoc; exact E).
    assert (Ln : List.length (pre ++ [c]) = S (List.length pre)) by (rewrite app_length; cbn [List.length]; lia).
    pose proof (dest_goes fs (List.length pre) (cname c) P) as DG.
    assert (Up : forall j f a, sofar fs cols (List.length pre) j f a -> goes_to fs (List.length pre) (cname c) <> Some j -> sofar fs cols (List.length (pre ++ [c])) j f a).
    { intros j f a S N. rewrite Ln. destruct a as [|[y|]|]; cbn [sofar] in *; auto.
      - destruct S as (k & d & H & R). exists k, d. split; [lia|exact R].
      - intros k d H Hd. destruct (Nat.eq_dec k (List.length pre)) as [->|NE]; [congruence|]. apply S; [lia|exact Hd]. }
    destruct (dest fs (List.length pre) (cname c)) as [[j b]|] eqn:D; cbn [option_map fst] in DG.
    + destruct (goes_active fs _ _ j (eq_sym DG)) as ([i kd] & Hf & SD). cbn [fst] in SD. rewrite Hf. destruct (nth_error accs j) as [a|] eqn:Ha; [|exact I].
      pose proof (proj1 (Forall_forall _ _) P _ (nth_error_In _ _ Hf)) as [r K]. cbn [snd] in K. subst kd.
      pose proof (Inv j _ a Hf Ha) as Sj. destruct c as [[n t] v] eqn:Ec. cbn [put_column fst snd]. destruct a as [|[y|]|]; cbn [sofar fst] in Sj.
      * congruence.
      * cbn [rbind]. destruct Sj as (k & d & Lt & Hd & G). apply (blame_duplicate fs cols j i r k (List.length pre) d c); subst c; auto.
      * destruct (field_from (i_name i) r (strip_low_cardinality t) v) as [y|e|] eqn:W; cbn [rbind]; [| |exact I].
        -- specialize (IH (pre ++ [c]) (set_nth accs j (ACell (Some y)))). subst c. rewrite Ln in IH. apply IH; [exact E'|now rewrite set_nth_length|].
           intros j' f' a' Hf' Ha'. destruct (Nat.eq_dec j j') as [->|NE].
           ++ rewrite (set_nth_same _ _ _ _ Ha) in Ha'. injection Ha' as <-. cbn [sofar]. exists (List.length pre), (n, t, v). split; [lia|auto].
           ++ rewrite set_nth_other in Ha' by exact NE. rewrite <- Ln. apply Up; [now apply Inv|congruence].
        -- destruct (field_from_err _ _ _ _ _ W) as (e' & F & ->).
           apply (blame_convert fs cols j i r (List.length pre) c e'); subst c; auto.
      * destruct Sj.
    + specialize (IH (pre ++ [c]) accs E' L). rewrite Ln in IH. apply IH. intros j f a Hf Ha. rewrite <- Ln. apply Up; [now apply Inv|congruence].
Qed.

Lemma deserialize_plain_blame fs cols e : all_plain fs -> deserialize fs cols = Err e -> plain_blame fs cols e.
Proof.
  intros P. unfold deserialize. rewrite kind_deserialize_eq by eauto. cbn [inner]. unfold gather. rewrite (size_known_plain fs P), (pull_flatten_plain fs cols P). cbn [rbind fst snd].
  pose proof (match_keys_blame fs cols P [] cols (map acc0 fs) eq_refl (map_length _ _)) as M. cbn [List.length] in M.
  assert (I0 : forall j f a, nth_error fs j = Some f -> nth_error (map acc0 fs) j = Some a -> sofar fs cols 0 j f a).
  { intros j f a Hf Ha. rewrite nth_error_map, Hf in Ha. cbn [option_map] in Ha. injection Ha as <-. destruct (plain_inactive fs f P (nth_error_In _ _ Hf)) as [A [r K]]. unfold acc0. rewrite A, K.
    destruct (i_skip_de (fst f)) eqn:SD; cbn [sofar]; [exact SD|]. intros k c Lt. lia. }
  specialize (M I0). clear I0. destruct (match_keys fs 0 cols (map acc0 fs)) as [accs|e'|]; cbn [rbind fst snd]; [|congruence|discriminate].
  destruct M as [L Inv]. assert (G : forall pre gs as_, fs = pre ++ gs -> List.length as_ = List.length gs ->
     (forall j f a, nth_error gs j = Some f -> nth_error as_ j = Some a -> sofar fs cols (List.length cols) (List.length pre + j) f a) ->
     exists vals, rectify gs as_ = Ok vals /\ List.length vals = List.length gs /\ forall e, extract gs vals = Err e -> plain_blame fs cols e).
  { intros pre gs. revert pre. induction gs as [|[i k] gs IH]; intros pre [|a as_] E La H; try discriminate; [exists []; split; [reflexivity|split; [reflexivity|discriminate]]|]. cbn [rectify].
    destruct (IH (pre ++ [(i, k)]) as_) as (vals & Er & Lv & Hx); [rewrite <- app_assoc; exact E|cbn [List.length] in La; lia| |].
    { intros j f a' Hf Ha'. rewrite app_length, <- Nat.add_assoc. cbn [List.length]. apply (H (S j)); auto. }
    rewrite Er. pose proof (H 0%nat (i, k) a eq_refl eq_refl) as S0. rewrite Nat.add_0_r in S0.
    assert (Hi : nth_error fs (List.length pre) = Some (i, k)) by (rewrite E, nth_error_app2, Nat.sub_diag by lia; reflexivity).
    destruct (plain_inactive fs (i, k) P (nth_error_In _ _ Hi)) as [A [r K]]. cbn [fst snd] in A, K. subst k.
    destruct a as [|o|]; [| |destruct S0]; cbn [rect1 rbind]; eexists; (split; [reflexivity|]); (split; [cbn [List.length]; lia|]); intros e0 X; cbn [extract] in X; rewrite A in X.
    - cbn [sofar fst] in S0. rewrite S0 in X. cbn [rbind] in X. bindE X. now apply Hx.
    - destruct (i_skip_de i) eqn:SD; cbn [rbind] in X; [bindE X; now apply Hx|].
      destruct o as [y|]; cbn [option_map rbind] in X; [bindE X; now apply Hx|]. cbn [fst] in X. destruct (i_default i) as [d|] eqn:Df; cbn [rbind] in X; [bindE X; now apply Hx|].
      injection X as <-. apply (blame_missing fs cols (List.length pre) i r Hi Df). right. apply columns_of_none. intros k c Hk. apply S0; [|exact Hk]. apply nth_error_Some. congruence. }
  destruct (G [] fs accs eq_refl L) as (vals & Er & Lv & Hx); [exact Inv|]. rewrite Er. cbn [rbind]. intros H. apply bind_err in H as [H|(ys & _ & H)]; [now apply Hx|]. clear - P H.
  assert (B : forall gs ys, incl gs fs -> build gs ys [] = Err e -> plain_blame fs cols e).
  { clear H. induction gs as [|[i k] gs IH]; intros [|y zs] I H; try discriminate. cbn [build] in H.
    assert (Hin : In (i, k) fs) by (apply I; now left). pose proof (proj1 (Forall_forall _ _) P _ Hin) as [r K]. cbn [snd] in K. subst k.
    assert (I' : incl gs fs) by (intros z Hz; apply I; now right).
    destruct (i_skip_de i) eqn:SD; [|bindE H; exact (IH zs I' H)]. destruct (i_default i) eqn:Df; [bindE H; exact (IH zs I' H)|]. injection H as <-.
    apply In_nth_error in Hin as [j Hj]. apply (blame_missing fs cols j i r Hj Df). now left. }
  apply (B fs ys); [apply incl_refl|exact H].
Qed.

(** ** Any struct *)
Definition culprit (names : list text) (cols : list text) (e : err) : Prop :=
  match e with
  | EMissingField n | EDuplicateField n | EDeserColumn n => In n names
  | EUnexpectedTypeWithColumn n => exists c above, In c cols /\ c = above ++ n
  | EDeser | EUtf8 | EFlattenedMissing => True
  | _ => False
  end.
Definition suffixes (inner outer : list text) : Prop := forall n, In n inner -> exists c above, In c outer /\ c = above ++ n.
Lemma culprit_up names names' cols cols' e : incl names names' -> suffixes cols cols' -> culprit names cols e -> culprit names' cols' e.
Proof.
  intros I S. destruct e as [| | | | | |n|n|n| | |n| | | | | |]; cbn [culprit]; try apply I; auto. intros (c & a & H & E). destruct (S _ H) as (d & b & Hd & F). exists d, (b ++ a). split; [exact Hd|]. now rewrite <- app_assoc, <- E.
Qed.
Lemma suffixes_refl l : suffixes l l. Proof. intros n H. exists n, []. auto. Qed.
Lemma suffixes_incl l l' : incl l l' -> suffixes l l'. Proof. intros I n H. exists n, []. auto. Qed.
Lemma suffixes_trans a b c : suffixes a b -> suffixes b c -> suffixes a c.
Proof. intros X Y n H. destruct (X n H) as (d & p & Hd & E). destruct (Y d Hd) as (d' & p' & Hd' & E'). exists d', (p' ++ p). split; [exact Hd'|]. now rewrite <- app_assoc, <- E. Qed.

Definition acc_from (cols : list text) (a : acc) : Prop := match a with ANest nc _ => suffixes (map (fun c => fst (fst c)) nc) cols | _ => True end.
Lemma set_nth_forall {A} (Q : A -> Prop) l j x : Forall Q l -> Q x -> Forall Q (set_nth l j x).
Proof. intros F Hx. revert j. induction F as [|a l Ha F IH]; intros [|j]; cbn [set_nth]; [constructor|constructor|constructor; auto|constructor; [exact Ha|apply IH]]. Qed.
Lemma match_keys_culprit fs all cols : built_in fs = true -> incl (map cname cols) all -> forall idx accs, Forall (acc_from all) accs ->
  match match_keys fs idx cols accs with
  | Err e => culprit (declared fs) all e
  | Ok accs' => Forall (acc_from all) accs'
  | Panic => True
  end.
Proof.
  intros B. induction cols as [|c cols IH]; intros I idx accs F; cbn [match_keys]; [exact F|]. cbn [map] in I.
  assert (I' : incl (map cname cols) all) by (intros x Hx; apply I; now right). assert (Ic : In (cname c) all) by (apply I; now left).
  destruct (dest fs idx (cname c)) as [[j b]|]; [|now apply IH].
  destruct (nth_error fs j) as [[i k]|] eqn:Hf; [|exact Logic.I]. destruct (nth_error accs j) as [a|] eqn:Ha; [|exact Logic.I].
  assert (Di : In (i_name i) (declared fs)) by (apply in_flat_map; exists (i, k); split; [eapply nth_error_In; eauto|now left]).
  pose proof (proj1 (Forall_forall _ _) F a (nth_error_In _ _ Ha)) as Fa.
  assert (Pc : match put_column (i, k) b a c with Err e => culprit (declared fs) all e | Ok a' => acc_from all a' | Panic => True end).
  { destruct c as [[n t] v]. cbn [cname fst] in Ic. cbn [put_column snd fst]. destruct k as [r|nf|nf]; destruct a as [|o|nc len]; try exact Fa; try exact Logic.I.
    - destruct o as [y|]; [exact Di|]. destruct (field_from _ _ _ _) as [y|e|] eqn:W; cbn [rbind]; [exact Logic.I| |exact Logic.I].
      pose proof (proj1 (forallb_forall _ _) B _ (nth_error_In _ _ Hf)) as NU. cbn [snd kind_built_in] in NU.
      destruct (field_from_err _ _ _ _ _ W) as (e' & Fr & ->). destruct (from_sql_err _ NU _ _ _ Fr) as [-> | ->]; destruct r; try discriminate NU; cbn [blamed]; (exact Di || exact Logic.I).
    - assert (U : culprit (declared fs) all (EUnexpectedTypeWithColumn n)) by (exists n, []; auto).
      destruct v; try exact U. destruct (match nc with [] => true | _ => _ end); [|exact Logic.I]. destruct t; try exact U. cbn [acc_from]. rewrite map_app. intros m Hm. apply in_app_iff in Hm as [Hm|Hm]; [exact (Fa m Hm)|].
      cbn [map fst In] in Hm. destruct Hm as [Hm|[]]. destruct b; subst m; [|exists n, []; auto]. exists n, (firstn (List.length (dotted (i_name i))) n). split; [exact Ic|]. symmetry. apply firstn_skipn. }
  destruct (put_column (i, k) b a c) as [a'|e|]; cbn [rbind]; [|exact Pc|exact Logic.I]. apply IH; [exact I'|]. now apply set_nth_forall.
Qed.
Lemma swap_remove_perm {A} (l : list A) j x l' : swap_remove l j = Some (x, l') -> incl (x :: l') l.
Proof.
  unfold swap_remove. destruct (nth_error l j) as [y|] eqn:E; [|discriminate]. apply nth_error_In in E.
  assert (RL : incl (removelast l) l).
  { clear. induction l as [|a l IH]; [apply incl_refl|]. destruct l as [|b l]; [intros z []|]. cbn [removelast]. intros z [->|Hz]; [now left|right; now apply IH]. }
  destruct (_ =? _)%nat.
  - intros H. injection H as <- <-. intros z [<-|Hz]; auto.
  - destruct (rev l) as [|last r] eqn:R; [discriminate|]. intros H. injection H as <- <-. intros z [<-|Hz]; [exact E|].
    assert (Hl : In last l) by (apply in_rev; rewrite R; now left). clear - RL Hl Hz.
    assert (G : forall (m : list A) j, In z (set_nth m j last) -> z = last \/ In z m).
    { induction m as [|a m IH]; intros [|j'] H; cbn [set_nth] in H; [destruct H|destruct H|destruct H as [H|H]; [left; congruence|right; now right]|].
      destruct H as [H|H]; [right; left; exact H|]. apply IH in H as [H|H]; [now left|right; now right]. }
    apply G in Hz as [->|Hz]; auto.
Qed.
Lemma fmap_insert_names n tv m : incl (map fst (fmap_insert n tv m)) (n :: map fst m).
Proof.
  induction m as [|[k x] m IH]; cbn [fmap_insert map fst]; [apply incl_refl|]. destruct (text_eqb k n) eqn:E; cbn [map fst]; intros z [H|H].
  - right. now left.
  - right. now right.
  - right. now left.
  - destruct (IH z H) as [H'|H']; [now left|right; now right].
Qed.
Lemma pull_names_culprit all ns : forall cols m, incl (map cname cols) all -> incl (map fst m) all ->
  match pull_names ns cols m with
  | Err e => e = EFlattenedMissing
  | Ok (cols', m') => incl (map cname cols') all /\ incl (map fst m') all
  | Panic => True
  end.
Proof.
  induction ns as [|n ns IH]; intros cols m I M; cbn [pull_names]; [auto|]. destruct (find_col n cols) as [j|]; [|reflexivity].
  destruct (swap_remove cols j) as [[[[c t] v] cols']|] eqn:S; [|exact Logic.I]. apply swap_remove_perm in S.
  apply IH; intros z Hz.
  - apply I. apply in_map_iff in Hz as (x & <- & Hx). apply in_map. apply S. now right.
  - apply fmap_insert_names in Hz as [<-|Hz]; [|auto]. apply I. change c with (cname (c, t, v)). apply in_map. apply S. now left.
Qed.
Lemma pull_flatten_culprit all fs : forall cols m, incl (map cname cols) all -> incl (map fst m) all ->
  match pull_flatten fs cols m with
  | Err e => e = EFlattenedMissing
  | Ok (cols', m') => incl (map cname cols') all /\ incl (map fst m') all
  | Panic => True
  end.
Proof.
  induction fs as [|[i k] fs IH]; intros cols m I M; cbn [pull_flatten]; [auto|]. destruct k as [r|nf|nf]; try (now apply IH).
  pose proof (pull_names_culprit all (column_names nf) cols m I M) as Q. destruct (pull_names _ cols m) as [[cols' m']|e|]; cbn [rbind fst snd]; [|exact Q|exact Logic.I]. apply IH; apply Q.
Qed.
Lemma fmap_remove_names n m c tv m' : fmap_remove n m = Some ((c, tv), m') -> incl (c :: map fst m') (map fst m).
Proof.
  revert c tv m'. induction m as [|[k x] m IH]; intros c tv m' H; [discriminate|]. cbn [fmap_remove] in H. destruct (text_eqb k n).
  - injection H as <- <- <-. apply incl_refl.
  - destruct (fmap_remove n m) as [[[c1 tv1] r']|] eqn:E; [|discriminate]. injection H as <- <- <-. specialize (IH _ _ _ eq_refl). cbn [map fst]. intros z [H|[H|H]].
    + right. apply IH. now left.
    + now left.
    + right. apply IH. now right.
Qed.
Lemma take_names_culprit all ns : forall m, incl (map fst m) all ->
  match take_names ns m with Err e => False | Ok (cols', m') => incl (map cname cols') all /\ incl (map fst m') all | Panic => True end.
Proof.
  induction ns as [|n ns IH]; intros m M; cbn [take_names]; [split; [intros z []|exact M]|]. destruct (fmap_remove n m) as [[[c [t v]] m']|] eqn:E; [|exact Logic.I].
  apply fmap_remove_names in E. specialize (IH m'). destruct (take_names ns m') as [[cols' m'']|e|]; cbn [rbind fst snd map cname].
  - destruct IH as [A B]; [intros z Hz; apply M, E; now right|]. split; [|exact B]. intros z [<-|Hz]; [apply M, E; now left|auto].
  - apply IH. intros z Hz. apply M, E. now right.
  - exact Logic.I.
Qed.
Definition kind_culprit (k : kind) : Prop := forall cols e, kind_deserialize k cols = Err e -> culprit (kind_declared k) (map cname cols) e.
Lemma rectify_culprit fs all : forall gs accs e, incl gs fs -> Forall (fun f => kind_culprit (snd f)) gs -> Forall (acc_from all) accs -> rectify gs accs = Err e -> culprit (declared fs) all e.
Proof.
  induction gs as [|[i k] gs IH]; intros [|a accs] e I K F H; cbn [rectify] in H; try discriminate. pose proof (Forall_inv K) as K1. cbn [snd] in K1. pose proof (Forall_inv F) as Fa.
  assert (Dk : incl (kind_declared k) (declared fs)).
  { intros z Hz. apply in_flat_map. exists (i, k). split; [apply I; now left|now right]. }
  apply bind_err in H as [H|(o & _ & H)].
  - destruct a as [|o|nc len]; try discriminate. cbn [rect1] in H. destruct nc as [|c nc].
    + destruct (kind_deserialize k []) as [?|e'|] eqn:E; try discriminate. injection H as ->. apply K1 in E. revert E. apply culprit_up; [exact Dk|]. intros z [].
    + bindE H. apply mapM_err in H as (x & _ & H). apply bind_err in H as [H|(row & R & H)].
      * unfold nested_row in H. apply mapM_err in H as (d & _ & H). destruct (nth_error (snd d) x); discriminate.
      * apply K1 in H. revert H. apply culprit_up; [exact Dk|]. cbn [acc_from] in Fa. apply (suffixes_trans _ (map (fun c => fst (fst c)) (c :: nc))); [|exact Fa]. apply suffixes_incl.
        assert (G : forall l row, nested_row l x = Ok row -> map cname row = map (fun c => fst (fst c)) l).
        { clear. unfold nested_row. induction l as [|d l IH]; intros row H; cbn [mapM] in H; [injection H as <-; reflexivity|]. destruct (nth_error (snd d) x) as [v|]; cbn [rbind] in H; [|discriminate].
          destruct (mapM _ l) as [row'|e|] eqn:E; cbn [rbind] in H; [|discriminate|discriminate]. injection H as <-. cbn [map]. rewrite (IH row' eq_refl). reflexivity. }
        rewrite (G _ _ R). apply incl_refl.
  - bindE H. apply (IH accs e); [intros z Hz; apply I; now right|exact (Forall_inv_tail K)|exact (Forall_inv_tail F)|exact H].
Qed.
Lemma extract_culprit fs all : forall gs vals e, incl gs fs -> extract gs vals = Err e -> culprit (declared fs) all e.
Proof.
  induction gs as [|[i k] gs IH]; intros [|o vals] e I H; cbn [extract] in H; try discriminate.
  assert (I' : incl gs fs) by (intros z Hz; apply I; now right). apply bind_err in H as [H|(x & _ & H)]; [|bindE H; exact (IH vals e I' H)].
  destruct (inactive _); [discriminate|]. destruct o; [discriminate|]. cbn [fst] in H. destruct (i_default i); [discriminate|]. injection H as <-.
  apply in_flat_map. exists (i, k). split; [apply I; now left|now left].
Qed.
Lemma build_culprit fs all : forall gs xs m e, incl gs fs -> Forall (fun f => kind_culprit (snd f)) gs -> incl (map fst m) all -> build gs xs m = Err e -> culprit (declared fs) all e.
Proof.
  induction gs as [|[i k] gs IH]; intros [|x xs] m e I K M H; cbn [build] in H; try discriminate.
  assert (I' : incl gs fs) by (intros z Hz; apply I; now right). pose proof (Forall_inv K) as K1. cbn [snd] in K1. pose proof (Forall_inv_tail K) as K'.
  destruct (i_skip_de i).
  - destruct (i_default i); [bindE H; exact (IH xs m e I' K' M H)|]. injection H as <-. apply in_flat_map. exists (i, k). split; [apply I; now left|now left].
  - destruct k as [r|nf|nf]; [bindE H; exact (IH xs m e I' K' M H)|bindE H; exact (IH xs m e I' K' M H)|].
    pose proof (take_names_culprit all (column_names nf) m M) as T. destruct (take_names _ m) as [[cols' m']|e'|]; cbn [rbind fst snd] in H; [|destruct T|discriminate]. destruct T as [T1 T2].
    apply bind_err in H as [H|(sub & _ & H)]; [|bindE H; exact (IH xs m' e I' K' T2 H)].
    apply K1 in H. revert H. apply culprit_up; [|now apply suffixes_incl]. intros z Hz. apply in_flat_map. exists (i, KFlatten nf). split; [apply I; now left|now right].
Qed.
Lemma all_culprit k : kind_built_in k = true -> kind_culprit k.
Proof.
  assert (G : forall fs, built_in fs = true -> Forall (fun f => kind_culprit (snd f)) fs -> forall cols e,
     (am <- gather fs cols ;; vals <- rectify fs (fst am) ;; xs <- extract fs vals ;; build fs xs (snd am)) = Err e -> culprit (declared fs) (map cname cols) e).
  { intros fs BI K cols e H. unfold gather in H. destruct (forallb size_known fs); [|discriminate].
    pose proof (pull_flatten_culprit (map cname cols) fs cols [] (incl_refl _) ltac:(intros z [])) as P. destruct (pull_flatten fs cols []) as [[cols' m]|e'|]; cbn [rbind fst snd] in H; [|injection H as <-; subst e'; exact Logic.I|discriminate].
    destruct P as [P1 P2]. pose proof (match_keys_culprit fs (map cname cols) cols' BI P1 0 (map acc0 fs)) as M.
    assert (F0 : Forall (acc_from (map cname cols)) (map acc0 fs)).
    { apply Forall_forall. intros a Ha. apply in_map_iff in Ha as (f & <- & _). unfold acc0. destruct (inactive f); [exact Logic.I|]. destruct (snd f); [exact Logic.I| |]; intros z []. }
    specialize (M F0). destruct (match_keys fs 0 cols' (map acc0 fs)) as [accs|e'|]; cbn [rbind fst snd] in H; [|injection H as <-; exact M|discriminate].
    apply bind_err in H as [H|(vals & _ & H)]; [exact (rectify_culprit fs _ fs accs e (incl_refl _) K M H)|]. apply bind_err in H as [H|(xs & _ & H)]; [exact (extract_culprit fs _ fs vals e (incl_refl _) H)|].
    exact (build_culprit fs _ fs xs m e (incl_refl _) K P2 H). }
  assert (L : forall fs, forallb (fun f => kind_built_in (snd f)) fs = true -> Forall (fun f : info * kind => kind_built_in (snd f) = true -> kind_culprit (snd f)) fs -> Forall (fun f => kind_culprit (snd f)) fs).
  { intros fs B F. apply Forall_forall. intros f I. apply (proj1 (Forall_forall _ _) F f I). exact (proj1 (forallb_forall _ _) B f I). }
  induction k as [r|fs IH|fs IH] using kind_ind'; intros BI cols e H; [discriminate| |]; rewrite kind_deserialize_eq in H by eauto; cbn [inner] in H; cbn [kind_built_in] in BI;
    exact (G fs BI (L fs BI IH) cols e H).
Qed.
Lemma deserialize_culprit fs cols e : built_in fs = true -> deserialize fs cols = Err e -> names_culprit fs cols e.
Proof.
  intros BI H. apply (all_culprit (KNested fs) BI) in H. cbn [kind_declared] in H. destruct e; cbn [culprit names_culprit] in *; auto.
  destruct H as (c & a & Hc & E). apply in_map_iff in Hc as (d & <- & Hd). exists d, a. auto.
Qed.
