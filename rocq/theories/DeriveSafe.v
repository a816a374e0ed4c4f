(** Reading a derived struct never panics, if it is declared with care. *)
From Coq Require Import String Permutation.
From Verif Require Import Base Types Text RawRow Numeric Convert ConvertSpec ConvertSafe Migrate MigrateProofs Derive DeriveSpec DeriveProofs DeriveProofs2.
Local Open Scope list_scope.
Local Open Scope N_scope.

Notation good := (fun c : text * ty * value => typed (snd (fst c)) (snd c) = true).
Notation good_entry := (fun e : text * (ty * value) => typed (fst (snd e)) (snd (snd e)) = true).

(** ** The flattened columns *)
Lemma find_col_in n cols j : find_col n cols = Some j -> exists c, nth_error cols j = Some c /\ cname c = n.
Proof.
  revert j; induction cols as [|c cols IH]; intros j H; cbn [find_col] in H; [discriminate|]. destruct (text_eqb (cname c) n) eqn:E.
  - injection H as <-. apply text_eqb_eq in E. exists c. auto.
  - destruct (find_col n cols) as [k|]; [|discriminate]. injection H as <-. exact (IH k eq_refl).
Qed.
Lemma insert_safe n tv m : typed (fst tv) (snd tv) = true -> Forall good_entry m ->
  Forall good_entry (fmap_insert n tv m) /\ (forall x, x = n \/ In x (map fst m) -> In x (map fst (fmap_insert n tv m))).
Proof.
  intros T. induction m as [|[k y] m IH]; intros F; cbn [fmap_insert].
  - split; [repeat constructor; exact T|]. cbn [map fst In]. intros x [->|[]]. now left.
  - pose proof (Forall_inv F) as F1. destruct (IH (Forall_inv_tail F)) as [G K]. destruct (text_eqb k n) eqn:E.
    + apply text_eqb_eq in E as ->. split; [constructor; [exact T|exact (Forall_inv_tail F)]|]. cbn [map fst In]. intros x [->|H]; auto.
    + split; [constructor; assumption|]. cbn [map fst In]. intros x [->|[->|H]]; auto.
Qed.
Lemma pull_names_safe ns : forall cols m, Forall good cols -> Forall good_entry m ->
  match pull_names ns cols m with
  | Panic => False | Err _ => True
  | Ok cm => Forall good (fst cm) /\ Forall good_entry (snd cm) /\ forall n, In n ns \/ In n (map fst m) -> In n (map fst (snd cm))
  end.
Proof.
  induction ns as [|n ns IH]; intros cols m C M; cbn [pull_names].
  - split; [exact C|]. split; [exact M|]. intros x [[]|H]; exact H.
  - destruct (find_col n cols) as [j|] eqn:F; [|exact I]. apply find_col_in in F as (c & Nj & Cn). destruct (swap_remove_ok cols j c Nj) as (cols' & -> & P).
    destruct c as [[cn t] v]. cbn [cname fst] in Cn. subst cn. pose proof (Permutation_Forall P C) as C'.
    destruct (insert_safe n (t, v) m) as [M' K]; [exact (Forall_inv C')|exact M|]. specialize (IH cols' _ (Forall_inv_tail C') M').
    destruct (pull_names ns cols' (fmap_insert n (t, v) m)) as [cm|e|]; [|exact I|exact IH]. destruct IH as (G1 & G2 & G3). split; [exact G1|]. split; [exact G2|].
    intros x [[<-|H]|H]; apply G3; auto.
Qed.
Lemma pull_flatten_safe fs : forall cols m, Forall good cols -> Forall good_entry m ->
  match pull_flatten fs cols m with
  | Panic => False | Err _ => True
  | Ok cm => Forall good (fst cm) /\ Forall good_entry (snd cm) /\ forall n, In n (flattened_names fs) \/ In n (map fst m) -> In n (map fst (snd cm))
  end.
Proof.
  induction fs as [|[i k] fs IH]; intros cols m C M; cbn [pull_flatten].
  - split; [exact C|]. split; [exact M|]. intros x [[]|H]; exact H.
  - unfold flattened_names. cbn [flat_map snd]. fold (flattened_names fs). destruct k as [r|nf|ff]; [apply (IH cols m C M)|apply (IH cols m C M)|].
    pose proof (pull_names_safe (column_names ff) cols m C M) as P. destruct (pull_names (column_names ff) cols m) as [cm|e|]; cbn [rbind]; [|exact I|destruct P].
    destruct P as (P1 & P2 & P3). specialize (IH _ _ P1 P2). destruct (pull_flatten fs (fst cm) (snd cm)) as [cm'|e|]; [|exact I|exact IH]. destruct IH as (G1 & G2 & G3).
    split; [exact G1|]. split; [exact G2|]. intros x [H|H]; [apply in_app_or in H as [H|H]|]; apply G3; auto.
Qed.
Lemma remove_safe n m : Forall good_entry m -> In n (map fst m) -> exists tv m', fmap_remove n m = Some ((n, tv), m') /\ typed (fst tv) (snd tv) = true /\ Forall good_entry m' /\
  forall x, x <> n -> In x (map fst m) -> In x (map fst m').
Proof.
  induction m as [|[k y] m IH]; intros F H; [destruct H|]. pose proof (Forall_inv F) as F1. pose proof (Forall_inv_tail F) as F2. cbn [fmap_remove map fst In] in *. destruct (text_eqb k n) eqn:E.
  - apply text_eqb_eq in E as ->. exists y, m. split; [reflexivity|]. split; [exact F1|]. split; [exact F2|]. intros x N [<-|X]; [congruence|exact X].
  - apply text_eqb_neq in E. destruct H as [H|H]; [congruence|]. destruct (IH F2 H) as (tv & m' & -> & T & G & K). exists tv, ((k, y) :: m'). split; [reflexivity|]. split; [exact T|].
    split; [constructor; assumption|]. intros x N [<-|X]; [now left|right; now apply K].
Qed.
Lemma take_names_safe ns : forall m, NoDup ns -> (forall n, In n ns -> In n (map fst m)) -> Forall good_entry m ->
  exists cs m', take_names ns m = Ok (cs, m') /\ Forall good cs /\ Forall good_entry m' /\ forall n, ~ In n ns -> In n (map fst m) -> In n (map fst m').
Proof.
  induction ns as [|n ns IH]; intros m ND H M; cbn [take_names].
  - exists [], m. split; [reflexivity|]. split; [constructor|]. split; [exact M|]. auto.
  - inversion ND as [|? ? X Y]; subst. destruct (remove_safe n m M (H n (or_introl eq_refl))) as ([t v] & m1 & -> & T & M1 & K).
    destruct (IH m1 Y) as (cs & m' & E & C & M' & K'); [|exact M1|].
    { intros x Hx. apply K; [intros ->; contradiction|]. apply H. now right. }
    rewrite E. cbn [rbind fst snd]. exists ((n, t, v) :: cs), m'. split; [reflexivity|]. split; [constructor; [exact T|exact C]|]. split; [exact M'|].
    intros x Nx Hx. apply K'; [intros Z; apply Nx; now right|]. apply K; [intros ->; apply Nx; now left|exact Hx].
Qed.

(** ** The loop over the columns *)
Definition fits (f : info * kind) (a : acc) : Prop :=
  match a with
  | ASkip => True
  | ACell _ => inactive f = false
  | ANest cols len => inactive f = false /\ (exists nf, snd f = KNested nf) /\
      Forall (fun c => List.length (snd c) = len /\ Forall (fun v => typed (snd (fst c)) v = true) (snd c)) cols
  end.
Definition leaves_ok (fs : fields) : Prop := forall i r, In (i, KPlain r) fs -> i_skip_de i = false -> calm r.
Lemma set_nth_forall2 (fs : fields) accs j f a : Forall2 fits fs accs -> nth_error fs j = Some f -> fits f a -> Forall2 fits fs (set_nth accs j a).
Proof.
  intros F. revert j. induction F as [|g b fs accs H F IH]; intros [|j] E X; cbn [set_nth nth_error] in *; try discriminate; constructor; auto. injection E as ->. exact X.
Qed.
Lemma put_column_safe f b a c : (forall r, snd f = KPlain r -> inactive f = false -> calm r) -> fits f a -> good c ->
  match put_column f b a c with Panic => False | Err _ => True | Ok a' => fits f a' end.
Proof.
  intros NC F T. destruct c as [[n t] v]. cbn [fst snd] in T. unfold put_column. destruct (snd f) as [r|nf|ff] eqn:K; [| |exact F].
  - destruct a as [|o|cols len]; [exact F| |exact F]. destruct o as [y|]; [exact I|]. cbn [fits] in F.
    rewrite <- typed_strip in T. pose proof (safe r (NC r eq_refl F) _ v T) as NP.
    destruct (field_from (i_name (fst f)) r (strip_low_cardinality t) v) as [y|e|] eqn:FF; cbn [rbind]; [exact F|exact I|apply field_from_panic in FF; contradiction].
  - destruct a as [|o|cols len]; [exact F|exact F|]. destruct v; try exact I. rename l into vs.
    destruct (match cols with [] => true | _ => (len =? List.length vs)%nat end) eqn:L; [|exact I]. destruct t; try exact I.
    destruct F as (A & Nf & F). split; [exact A|]. split; [exact Nf|]. cbn [typed] in T.
    apply Forall_app. split.
    + destruct cols as [|d cols]; [constructor|]. apply Nat.eqb_eq in L. subst len. exact F.
    + repeat constructor. cbn [fst snd]. apply Forall_forall. intros w Hw. rewrite typed_strip. now apply (proj1 (forallb_forall _ _) T).
Qed.
Lemma match_keys_safe fs : leaves_ok fs -> forall cols, Forall good cols -> forall idx accs, Forall2 fits fs accs ->
  match match_keys fs idx cols accs with Panic => False | Err _ => True | Ok accs' => Forall2 fits fs accs' end.
Proof.
  intros NC cols C. induction C as [|c cols Tc _ IH]; intros idx accs F; cbn [match_keys]; [exact F|].
  destruct (dest fs idx (cname c)) as [[j b]|] eqn:D; [|now apply IH]. apply dest_range in D. assert (L : List.length fs = List.length accs) by (clear - F; induction F; cbn [List.length]; congruence).
  destruct (nth_error fs j) as [f|] eqn:Hf; [|apply nth_error_None in Hf; lia]. destruct (nth_error accs j) as [a|] eqn:Ha; [|apply nth_error_None in Ha; lia].
  assert (Fa : fits f a).
  { clear - F Hf Ha. revert j Hf Ha. induction F as [|g x fs accs H F IH]; intros [|j] Hf Ha; cbn [nth_error] in *; try discriminate; [congruence|]. now apply (IH j). }
  pose proof (put_column_safe f b a c) as P. assert (NF : forall r, snd f = KPlain r -> inactive f = false -> calm r).
  { intros r K A. apply (NC (fst f) r); [rewrite <- K, <- surjective_pairing; eapply nth_error_In; eauto|]. unfold inactive in A. now apply orb_false_iff in A. }
  specialize (P NF Fa Tc). destruct (put_column f b a c) as [a'|e|]; cbn [rbind]; [|exact I|exact P]. apply IH. now apply (set_nth_forall2 fs accs j f).
Qed.
Lemma acc0_fits fs : Forall2 fits fs (map acc0 fs).
Proof.
  induction fs as [|[i k] fs IH]; [constructor|]. cbn [map]. constructor; [|exact IH]. unfold acc0. destruct (inactive (i, k)) eqn:A; [exact I|]. cbn [snd].
  destruct k as [r|nf|ff]; [exact A| |]; cbn [fits].
  - split; [exact A|]. split; [exists nf; reflexivity|constructor].
  - unfold inactive in A. cbn [fst snd is_flatten] in A. rewrite orb_true_r in A. discriminate.
Qed.

(** ** The recursive part *)
Definition unpanicked (fs : fields) : Prop := forall cols, Forall good cols -> kind_deserialize (KNested fs) cols <> Panic.
Definition hollow (fs : fields) : Prop := forall xs, kind_deserialize (KNested fs) [] <> Ok xs.

Lemma mapM_safe {A B} (g : A -> res B) l : (forall x, In x l -> g x <> Panic) -> mapM g l <> Panic.
Proof.
  induction l as [|x l IH]; intros H; cbn [mapM]; [discriminate|]. pose proof (H x (or_introl eq_refl)) as H1. destruct (g x); cbn [rbind]; [|discriminate|congruence].
  assert (N : mapM g l <> Panic) by (apply IH; intros y Hy; apply H; now right). destruct (mapM g l); cbn [rbind]; congruence.
Qed.
Lemma nested_row_safe cols len i : (i < len)%nat -> Forall (fun c => List.length (snd c) = len /\ Forall (fun v => typed (snd (fst c)) v = true) (snd c)) cols ->
  exists r, nested_row cols i = Ok r /\ Forall good r.
Proof.
  intros L F. unfold nested_row. induction F as [|c cols [Lc Tc] F (r & E & G)]; [exists []; split; [reflexivity|constructor]|]. cbn [mapM].
  destruct (nth_error (snd c) i) as [v|] eqn:N; [|apply nth_error_None in N; lia]. cbn [rbind]. rewrite E. cbn [rbind]. eexists. split; [reflexivity|]. constructor; [|exact G].
  cbn [fst snd]. apply (proj1 (Forall_forall _ _) Tc). eapply nth_error_In; eauto.
Qed.
Definition nested_ok (f : info * kind) : Prop := forall nf, snd f = KNested nf -> inactive f = false -> unpanicked nf /\ hollow nf.
Lemma rectify_safe fs accs : Forall2 fits fs accs -> Forall nested_ok fs ->
  rectify fs accs <> Panic /\ forall vals, rectify fs accs = Ok vals -> List.length vals = List.length fs.
Proof.
  induction 1 as [|[i k] a fs accs F _ IH]; intros N; [cbn [rectify]; split; [discriminate|]; intros vals E; injection E as <-; reflexivity|].
  destruct (IH (Forall_inv_tail N)) as [P Q]. pose proof (Forall_inv N) as N1. cbn [rectify].
  assert (R : rect1 k a <> Panic).
  { destruct a as [|o|cols len]; cbn [rect1]; try discriminate. destruct F as (A & (nf & K) & F). cbn [snd] in K. subst k. destruct (N1 nf eq_refl A) as [U H].
    destruct cols as [|c cols].
    - pose proof (U [] ltac:(constructor)) as U0. destruct (kind_deserialize (KNested nf) []) as [xs|e|] eqn:E; [exfalso; now apply (H xs)|discriminate|congruence].
    - match goal with |- rbind ?m _ <> _ => assert (M : m <> Panic); [|destruct m; cbn [rbind]; congruence] end.
      apply mapM_safe. intros j Hj. apply in_seq in Hj. destruct (nested_row_safe (c :: cols) len j) as (r & -> & G); [lia|exact F|]. cbn [rbind]. now apply U. }
  destruct (rect1 k a) as [o|e|]; cbn [rbind]; [|split; discriminate|congruence]. destruct (rectify fs accs) as [os|e|]; cbn [rbind]; [|split; discriminate|congruence].
  split; [discriminate|]. intros vals E. injection E as <-. cbn [List.length]. f_equal. now apply Q.
Qed.
Lemma extract_safe fs : forall vals, List.length vals = List.length fs -> extract fs vals <> Panic /\ forall ys, extract fs vals = Ok ys -> List.length ys = List.length fs.
Proof.
  induction fs as [|f fs IH]; intros [|o vals] Lv; try discriminate; [split; [discriminate|]; intros ys E; cbn [extract] in E; injection E as <-; reflexivity|]. cbn [extract].
  destruct (IH vals) as [N Q]; [cbn [List.length] in Lv; lia|]. destruct (if inactive f then _ else _) as [x|e|] eqn:EE; cbn [rbind].
  - destruct (extract fs vals) as [ys|e|]; cbn [rbind]; [|split; [discriminate|discriminate]|congruence]. split; [discriminate|]. intros zs Z. injection Z as <-. cbn [List.length]. f_equal. now apply Q.
  - split; discriminate.
  - destruct (inactive f); [discriminate|]. destruct o; [discriminate|]. destruct (i_default (fst f)); discriminate.
Qed.
Lemma flatten_same fs cols : kind_deserialize (KFlatten fs) cols = kind_deserialize (KNested fs) cols.
Proof. reflexivity. Qed.
Lemma build_safe fs : (forall i ff, In (i, KFlatten ff) fs -> i_skip_de i = false -> unpanicked ff) -> forall xs m, List.length xs = List.length fs ->
  NoDup (flattened_names fs) -> (forall n, In n (flattened_names fs) -> In n (map fst m)) -> Forall good_entry m -> build fs xs m <> Panic.
Proof.
  induction fs as [|[i k] fs IH]; intros U [|x xs] m L ND K M; try discriminate. cbn [build]. assert (L' : List.length xs = List.length fs) by (cbn [List.length] in L; lia).
  unfold flattened_names in ND, K. cbn [flat_map snd] in ND, K. fold (flattened_names fs) in ND, K.
  assert (U' : forall j ff, In (j, KFlatten ff) fs -> i_skip_de j = false -> unpanicked ff) by (intros j ff H; apply (U j ff); now right). specialize (IH U').
  assert (Rest : forall m', (forall n, In n (flattened_names fs) -> In n (map fst m')) -> Forall good_entry m' -> build fs xs m' <> Panic).
  { intros m' K' M'. apply IH; auto. destruct k; [exact ND|exact ND|]. now apply nodup_app in ND. }
  assert (Rm : build fs xs m <> Panic). { apply Rest; [|exact M]. intros n H. apply K. apply in_or_app. now right. }
  destruct (i_skip_de i) eqn:SD; [destruct (i_default i); [|discriminate]; destruct (build fs xs m); cbn [rbind]; congruence|].
  destruct k as [r|nf|ff]; [destruct (build fs xs m); cbn [rbind]; congruence|destruct (build fs xs m); cbn [rbind]; congruence|].
  destruct (take_names_safe (column_names ff) m) as (cs & m' & E & C & M' & K'); [now apply nodup_app in ND|intros n H; apply K, in_or_app; now left|exact M|].
  rewrite E. cbn [rbind fst snd]. rewrite flatten_same. pose proof (U i ff (or_introl eq_refl) SD cs C) as Us. destruct (kind_deserialize (KNested ff) cs) as [sub|e|]; cbn [rbind]; [|discriminate|congruence].
  assert (R : build fs xs m' <> Panic).
  { apply Rest; [|exact M']. intros n H. apply K'; [|apply K, in_or_app; now right]. intros H'. clear - ND H H'. induction (column_names ff) as [|y l IHl]; [destruct H'|]. cbn [app] in ND. inversion ND as [|? ? X Y]; subst.
    destruct H' as [->|H']; [apply X, in_or_app; now right|now apply IHl]. }
  destruct (build fs xs m'); cbn [rbind]; congruence.
Qed.

(** ** A row without columns *)
Lemma pull_flatten_nothing fs m cm : pull_flatten fs [] m = Ok cm -> fst cm = [] /\ flattened_names fs = [].
Proof.
  revert m; induction fs as [|[i k] fs IH]; intros m E; cbn [pull_flatten] in E; [injection E as <-; auto|]. unfold flattened_names. cbn [flat_map snd]. fold (flattened_names fs).
  destruct k as [r|nf|ff]; [exact (IH m E)|exact (IH m E)|]. destruct (column_names ff) as [|n ns]; cbn [pull_names find_col rbind fst snd] in E; [exact (IH m E)|discriminate].
Qed.
Lemma hollow_rectify fs vals : rectify fs (map acc0 fs) = Ok vals -> (forall i nf, In (i, KNested nf) fs -> i_skip_de i = true) /\
  (forall ys, extract fs vals = Ok ys -> forall i r, In (i, KPlain r) fs -> i_skip_de i = false -> i_default i <> None).
Proof.
  revert vals; induction fs as [|[i k] fs IH]; intros vals E; [split; [intros ? ? []|intros ? _ ? ? []]|]. cbn [map rectify] in E.
  destruct (rect1 k (acc0 (i, k))) as [o|e|] eqn:R; cbn [rbind] in E; try discriminate. destruct (rectify fs (map acc0 fs)) as [os|e|]; cbn [rbind] in E; try discriminate. injection E as <-.
  destruct (IH os eq_refl) as [N P]. split.
  - intros j nf [H|H]; [|now apply (N j nf)]. injection H as -> ->. unfold acc0, inactive in R. cbn [fst snd is_flatten] in R. destruct (i_skip_de j); [reflexivity|]. cbn [orb rect1] in R.
    destruct (kind_deserialize (KNested nf) []); discriminate.
  - intros ys X j r H SD. cbn [extract] in X. match type of X with rbind ?m _ = _ => destruct m as [x|e|] eqn:Q; cbn [rbind] in X; try discriminate end.
    destruct (extract fs os) as [xs|e|] eqn:Y; cbn [rbind] in X; try discriminate. destruct H as [H|H]; [|now apply (P xs eq_refl j r)]. injection H as -> ->.
    unfold acc0, inactive in R. unfold inactive in Q. cbn [fst snd is_flatten orb] in R, Q. rewrite SD in R, Q. cbn [orb rect1 option_map] in R. injection R as <-. destruct (i_default j); [discriminate|discriminate].
Qed.
Lemma demands_hollow fs : demands fs -> hollow fs.
Proof.
  intros (i & k & H & SD & D) xs E. rewrite kind_deserialize_eq in E by eauto. cbn [inner] in E. unfold gather in E. destruct (forallb size_known fs); [|discriminate].
  destruct (pull_flatten fs [] []) as [cm|e|] eqn:P; cbn [rbind] in E; try discriminate. apply pull_flatten_nothing in P as [C0 FN]. rewrite C0 in E. cbn [match_keys rbind fst snd] in E.
  destruct (rectify fs (map acc0 fs)) as [vals|e|] eqn:R; cbn [rbind] in E; try discriminate. destruct (hollow_rectify fs vals R) as [N Q].
  destruct (extract fs vals) as [ys|e|] eqn:X; cbn [rbind] in E; try discriminate. destruct k as [r|nf|ff].
  - exact (Q ys eq_refl i r H SD D).
  - rewrite (N i nf H) in SD. discriminate.
  - apply D. destruct (column_names ff) as [|n ns] eqn:CN; [reflexivity|]. exfalso. assert (Z : In n (flattened_names fs)).
    { unfold flattened_names. apply in_flat_map. exists (i, KFlatten ff). split; [exact H|]. cbn [snd]. rewrite CN. now left. }
    rewrite FN in Z. destruct Z.
Qed.

Lemma steady_safe fs : steady fs -> unpanicked fs.
Proof.
  induction 1 as [fs Leaf Dem _ IHn _ IHf ND]. intros cols C. rewrite kind_deserialize_eq by eauto. cbn [inner]. unfold gather.
  assert (SK : forallb size_known fs = true).
  { apply forallb_forall. intros [i k] H. unfold size_known. destruct (inactive (i, k)) eqn:A; [reflexivity|]. cbn [orb snd]. unfold inactive in A. cbn [fst snd] in A. apply orb_false_iff in A as [A _].
    destruct k as [r|nf|ff]; try reflexivity. destruct (Dem i nf H A) as [_ Z]. destruct (column_count nf); [reflexivity|congruence]. }
  rewrite SK. pose proof (pull_flatten_safe fs cols [] C (Forall_nil _)) as P. destruct (pull_flatten fs cols []) as [[cols' m]|e|]; cbn [rbind fst snd] in *; [|discriminate|destruct P].
  destruct P as (C' & M & K). pose proof (match_keys_safe fs Leaf cols' C' 0 (map acc0 fs) (acc0_fits fs)) as MK. destruct (match_keys fs 0 cols' (map acc0 fs)) as [accs|e|]; cbn [rbind fst snd]; [|discriminate|destruct MK].
  destruct (rectify_safe fs accs MK) as [R1 R2].
  { apply Forall_forall. intros [i k] H nf Kf A. cbn [snd] in Kf. subst k. unfold inactive in A. cbn [fst snd] in A. apply orb_false_iff in A as [A _]. split; [exact (IHn i nf H A)|]. apply demands_hollow. now apply (Dem i nf). }
  destruct (rectify fs accs) as [vals|e|]; cbn [rbind]; [|discriminate|congruence]. specialize (R2 vals eq_refl). destruct (extract_safe fs vals R2) as [X1 X2].
  destruct (extract fs vals) as [ys|e|]; cbn [rbind]; [|discriminate|congruence]. apply build_safe; [exact IHf|now apply X2|exact ND| |exact M].
  intros n H. apply K. now left.
Qed.
Lemma deserialize_steady fs cols : steady fs -> Forall good cols -> deserialize fs cols <> Panic.
Proof. intros S. exact (steady_safe fs S cols). Qed.
