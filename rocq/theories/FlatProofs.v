(** Structs with flattened fields: exactly which rows are read, and as what. *)
From Coq Require Import String Permutation.
From Verif Require Import Base Types Text RawRow Numeric Convert ConvertSpec ConvertSafe Migrate MigrateProofs Derive DeriveSpec DeriveProofs DeriveProofs2 DeriveProofs3 DeriveProofs4 NestedSpec NestedProofs FlatSpec.
Local Open Scope list_scope.
Local Open Scope N_scope.

(** ** Taking the columns out *)
Lemma pull_names_app a b : forall cols m, pull_names (a ++ b) cols m = (cm <- pull_names a cols m ;; pull_names b (fst cm) (snd cm)).
Proof.
  induction a as [|n a IH]; intros cols m; [reflexivity|]. cbn [app pull_names]. destruct (find_col n cols) as [j|]; [|reflexivity].
  destruct (swap_remove cols j) as [[[[c t] v] cols']|]; [apply IH|reflexivity].
Qed.
Lemma pull_flatten_names fs : forall cols m, pull_flatten fs cols m = pull_names (flattened_names fs) cols m.
Proof.
  induction fs as [|[i k] fs IH]; intros cols m; [reflexivity|]. unfold flattened_names. cbn [pull_flatten flat_map snd]. fold (flattened_names fs). destruct k as [r|nf|ff]; [apply IH..|].
  rewrite pull_names_app. destruct (pull_names (column_names ff) cols m) as [cm| |]; cbn [rbind]; [apply IH|reflexivity..].
Qed.
Lemma find_col_in n cols j : find_col n cols = Some j -> In n (map cname cols).
Proof.
  revert j. induction cols as [|c cols IH]; intros j H; [discriminate|]. cbn [find_col] in H. destruct (text_eqb (cname c) n) eqn:E; [apply text_eqb_eq in E; now left|].
  destruct (find_col n cols) as [i|]; [|discriminate]. right. now apply (IH i).
Qed.
Lemma pull_names_incl ns : forall cols m r, pull_names ns cols m = Ok r -> incl ns (map cname cols).
Proof.
  induction ns as [|n ns IH]; intros cols m r H x Hx; [destruct Hx|]. cbn [pull_names] in H. destruct (find_col n cols) as [j|] eqn:F; [|discriminate].
  destruct Hx as [<-|Hx]; [eapply find_col_in; eauto|]. destruct (swap_remove cols j) as [[c cols']|] eqn:SR; [|discriminate]. destruct c as [[c t] v].
  assert (P : Permutation cols ((c, t, v) :: cols')).
  { unfold swap_remove in SR. destruct (nth_error cols j) as [y|] eqn:Y; [|discriminate]. destruct (swap_remove_ok cols j y Y) as (l' & SR' & P). unfold swap_remove in SR'. rewrite Y in SR'. rewrite SR' in SR. injection SR as -> ->. exact P. }
  apply (IH _ _ _ H) in Hx. apply (Permutation_in x (Permutation_sym (Permutation_map cname P))). now right.
Qed.
Definition wants (ns : list text) (c : column) : bool := existsb (text_eqb (cname c)) ns.
Lemma wants_spec ns c : wants ns c = true <-> In (cname c) ns.
Proof.
  unfold wants. rewrite existsb_exists. split; [intros (n & H & E); apply text_eqb_eq in E; now subst|intros H; exists (cname c); split; [exact H|apply text_eqb_refl]].
Qed.
Lemma split_wanted ns cols : Permutation cols (filter (wants ns) cols ++ filter (fun c => negb (wants ns c)) cols).
Proof.
  induction cols as [|c cols IH]; [constructor|]. cbn [filter]. destruct (wants ns c); cbn [negb app]; [now constructor|]. rewrite IH at 1. apply Permutation_middle.
Qed.
Lemma nodup_map_filter (p : column -> bool) cols : NoDup (map cname cols) -> NoDup (map cname (filter p cols)).
Proof.
  induction cols as [|c cols IH]; intros H; [constructor|]. cbn [map] in H. inversion H as [|? ? H1 H2]; subst. cbn [filter]. destruct (p c); [|now apply IH]. cbn [map]. constructor; [|now apply IH].
  intros X. apply H1. apply in_map_iff in X as (d & E & D). apply filter_In in D as [D _]. rewrite <- E. now apply in_map.
Qed.
Lemma pull_all ns cols : NoDup (map cname cols) -> NoDup ns -> incl ns (map cname cols) ->
  exists cols' A, pull_names ns cols [] = Ok (cols', map entry A) /\ map cname A = ns /\ incl A cols /\ Permutation cols' (filter (fun c => negb (wants ns c)) cols).
Proof.
  intros NC NN I. destruct (pull_names_ok ns cols [] (filter (wants ns) cols) (filter (fun c => negb (wants ns c)) cols)) as (cols' & A & E & PA & NA & PB).
  - apply split_wanted.
  - apply NoDup_Permutation; [now apply nodup_map_filter|exact NN|]. intros n. split.
    + intros H. apply in_map_iff in H as (c & <- & H). apply filter_In in H as [_ H]. now apply wants_spec.
    + intros H. pose proof (I n H) as X. apply in_map_iff in X as (c & <- & X). apply in_map. apply filter_In. split; [exact X|]. now apply wants_spec.
  - cbn [map]. now rewrite app_nil_r.
  - exists cols', A. cbn [app] in E. split; [exact E|]. split; [exact NA|]. split; [|exact PB]. intros c H. apply (Permutation_in c PA) in H. apply filter_In in H. tauto.
Qed.
Lemma names_determine (cols : list column) : NoDup (map cname cols) -> forall a b, incl a cols -> incl b cols -> map cname a = map cname b -> a = b.
Proof.
  intros N. induction a as [|x a IH]; intros [|y b] Ia Ib E; try discriminate; [reflexivity|]. cbn [map] in E. injection E as E1 E2. f_equal.
  - apply (same_name cols x y N); [apply Ia; now left|apply Ib; now left|exact E1].
  - apply IH; [intros z Z; apply Ia; now right|intros z Z; apply Ib; now right|exact E2].
Qed.

(** ** The columns that are left *)
Lemma parted_find n cols : match parted n cols with
  | Some (b, a) => exists c, cols = b ++ c :: a /\ find_col n cols = Some (List.length b)
  | None => find_col n cols = None
  end.
Proof.
  induction cols as [|c cols IH]; [reflexivity|]. cbn [parted find_col]. destruct (text_eqb (cname c) n); [exists c; split; reflexivity|].
  destruct (parted n cols) as [[b a]|]; cbn [option_map fst snd].
  - destruct IH as (d & -> & ->). exists d. split; reflexivity.
  - now rewrite IH.
Qed.
Lemma set_nth_app {A} (b : list A) c a y : set_nth (b ++ c :: a) (List.length b) y = b ++ y :: a.
Proof. induction b as [|x b IH]; [reflexivity|]. cbn [app List.length set_nth]. now rewrite IH. Qed.
Lemma swap_remove_without n cols j c cols' : find_col n cols = Some j -> swap_remove cols j = Some (c, cols') -> cols' = without cols n.
Proof.
  intros F SR. unfold without. pose proof (parted_find n cols) as P. destruct (parted n cols) as [[b a]|]; [|congruence]. destruct P as (d & -> & F'). assert (j = List.length b) as -> by congruence. clear F F'.
  unfold swap_remove in SR. rewrite nth_error_app2, Nat.sub_diag in SR by lia. cbn [nth_error] in SR. rewrite app_length in SR. cbn [List.length] in SR.
  destruct (list_eq_dec (fun x y : unit => match x, y with tt, tt => left eq_refl end) (map (fun _ => tt) a) []) as [E|NE].
  - apply map_eq_nil in E. subst a. rewrite Nat.add_1_r, Nat.eqb_refl in SR. injection SR as _ <-. cbn [rev]. now rewrite removelast_last, app_nil_r.
  - assert (NA : a <> []) by (intros ->; now apply NE). destruct (exists_last NA) as (a0 & y & ->). rewrite app_length in SR. cbn [List.length] in SR.
    destruct (Nat.eqb_spec (S (List.length b)) (List.length b + S (List.length a0 + 1))) as [X|_]; [lia|].
    rewrite !rev_app_distr in *. cbn [rev app] in *. rewrite rev_app_distr in SR. cbn [rev app] in SR. injection SR as _ <-. rewrite removelast_last.
    replace (b ++ d :: a0 ++ [y]) with ((b ++ d :: a0) ++ [y]) by (rewrite <- app_assoc; reflexivity). rewrite removelast_last, set_nth_app. reflexivity.
Qed.
Lemma pull_names_left ns : forall cols m cols' m', pull_names ns cols m = Ok (cols', m') -> cols' = fold_left without ns cols.
Proof.
  induction ns as [|n ns IH]; intros cols m cols' m' H; cbn [pull_names fold_left] in *; [now injection H as ->|]. destruct (find_col n cols) as [j|] eqn:F; [|discriminate].
  destruct (swap_remove cols j) as [[[[c t] v] cols1]|] eqn:SR; [|discriminate]. apply (swap_remove_without n cols j _ cols1 F) in SR. subst cols1. now apply (IH _ _ _ _ H).
Qed.

(** ** A struct with flattened fields *)
Definition level (fs : fields) : Prop := forall i k, In (i, k) fs -> if is_flatten k then i_skip_de i = false else flat_free k = true.
Lemma level_tail f fs : level (f :: fs) -> level fs.
Proof. intros L i k H. apply (L i k). now right. Qed.
(** What is made of the variables and of the columns taken out. *)
Fixpoint assembled (fs : fields) (ys : list sval) (A : list column) (xs : list sval) : Prop :=
  match fs, ys, xs with
  | [], [], [] => True
  | (i, k) :: fs', y :: ys', x :: xs' =>
      match k with
      | KFlatten inner => exists zs, x = SSub zs /\ kind_deserialize k (firstn (List.length (column_names inner)) A) = Ok zs /\
                                     assembled fs' ys' (skipn (List.length (column_names inner)) A) xs'
      | _ => bld1 (i, k) y x /\ assembled fs' ys' A xs'
      end
  | _, _, _ => False
  end.
Lemma assemble fs : level fs -> forall ys A xs, List.length ys = List.length fs -> map cname A = flattened_names fs ->
  (build fs ys (map entry A) = Ok xs <-> assembled fs ys A xs).
Proof.
  induction fs as [|[i k] fs IH]; intros LV [|y ys] A xs L NA; try discriminate.
  - cbn [build assembled]. split; [intros E; injection E as <-; exact I|]. destruct xs; [reflexivity|intros []].
  - cbn [List.length] in L. specialize (IH (level_tail _ _ LV) ys). pose proof (LV i k (or_introl eq_refl)) as LK.
    assert (Tail : forall B z x xs', map cname B = flattened_names fs -> ((rbind (build fs ys (map entry B)) (fun zs => Ok (z :: zs)) = Ok (x :: xs')) <-> (x = z /\ assembled fs ys B xs'))).
    { intros B z x xs' NB. rewrite <- (IH B xs') by (first [lia|exact NB]). destruct (build fs ys (map entry B)) as [zs|e|]; cbn [rbind]; [|split; [discriminate|intros [_ E]; discriminate]..].
      split; [intros E; injection E as -> ->; auto|intros [-> E]; injection E as ->; reflexivity]. }
    assert (None_ : forall B z, rbind (build fs ys (map entry B)) (fun zs => Ok (z :: zs)) <> Ok []) by (intros B z; destruct (build fs ys (map entry B)); discriminate).
    destruct (is_flatten k) eqn:FK.
    + destruct k as [r|nf|inner]; try discriminate. unfold flattened_names in NA. cbn [flat_map snd] in NA. fold (flattened_names fs) in NA. cbn [build assembled]. rewrite LK.
      assert (N1 : map cname (firstn (List.length (column_names inner)) A) = column_names inner).
      { rewrite <- firstn_map, NA, firstn_app, firstn_all, Nat.sub_diag. cbn [firstn]. apply app_nil_r. }
      assert (N2 : map cname (skipn (List.length (column_names inner)) A) = flattened_names fs).
      { rewrite <- skipn_map, NA, skipn_app, skipn_all, Nat.sub_diag. reflexivity. }
      assert (TK : take_names (column_names inner) (map entry A) = Ok (firstn (List.length (column_names inner)) A, map entry (skipn (List.length (column_names inner)) A))).
      { rewrite <- (firstn_skipn (List.length (column_names inner)) A) at 1. rewrite map_app. rewrite <- N1 at 1. apply take_names_ok. }
      rewrite TK. cbn [rbind fst snd]. destruct (kind_deserialize (KFlatten inner) _) as [zs|e|]; cbn [rbind].
      * destruct xs as [|x xs]; [split; [intros E; now apply None_ in E|intros []]|]. rewrite (Tail _ (SSub zs) x xs N2). split; [intros [-> H]; exists zs; auto|intros (zs' & -> & E & H); injection E as <-; auto].
      * split; [discriminate|]. destruct xs; [intros []|intros (zs & _ & E & _); discriminate].
      * split; [discriminate|]. destruct xs; [intros []|intros (zs & _ & E & _); discriminate].
    + assert (NA' : map cname A = flattened_names fs) by (unfold flattened_names in NA; cbn [flat_map snd] in NA; destruct k; [exact NA|exact NA|discriminate]).
      assert (Q : build ((i, k) :: fs) (y :: ys) (map entry A) = if i_skip_de i then match i_default i with Some d => rbind (build fs ys (map entry A)) (fun zs => Ok (d :: zs)) | None => Err (EMissingField (i_name i)) end
                    else rbind (build fs ys (map entry A)) (fun zs => Ok (y :: zs))).
      { cbn [build]. destruct (i_skip_de i); [reflexivity|]. destruct k; [reflexivity|reflexivity|discriminate]. }
      assert (Q' : forall x xs', assembled ((i, k) :: fs) (y :: ys) A (x :: xs') <-> bld1 (i, k) y x /\ assembled fs ys A xs') by (intros x xs'; cbn [assembled]; destruct k; [reflexivity|reflexivity|discriminate]).
      rewrite Q. clear Q. destruct xs as [|x xs].
      { split; [|intros []]. intros E. exfalso. destruct (i_skip_de i); [destruct (i_default i); [|discriminate]|]; now apply None_ in E. }
      rewrite Q'. unfold bld1. cbn [fst]. destruct (i_skip_de i).
      * destruct (i_default i) as [d|]; [|split; [discriminate|intros [E _]; discriminate]]. rewrite (Tail A d x xs NA'). split; [intros [-> H]; auto|intros [E H]; injection E as ->; auto].
      * apply (Tail A y x xs NA').
Qed.
Lemma nth_all {A B} (l : list A) (m : list B) j a : List.length m = List.length l -> nth_error l j = Some a -> exists b, nth_error m j = Some b.
Proof. intros L H. destruct (nth_error m j) as [b|] eqn:E; [eauto|]. apply nth_error_None in E. assert (j < List.length l)%nat by (apply nth_error_Some; congruence). lia. Qed.
Lemma assembled_fields cols fs : NoDup (map cname cols) -> level fs -> forall ys A xs, List.length ys = List.length fs -> map cname A = flattened_names fs -> incl A cols ->
  (assembled fs ys A xs <-> List.length xs = List.length fs /\
    (forall j f x y, nth_error fs j = Some f -> is_flatten (snd f) = false -> nth_error xs j = Some x -> nth_error ys j = Some y -> bld1 f y x) /\
    (forall j i inner x, nth_error fs j = Some (i, KFlatten inner) -> nth_error xs j = Some x ->
       exists cs zs, x = SSub zs /\ map cname cs = column_names inner /\ incl cs cols /\ kind_deserialize (KFlatten inner) cs = Ok zs)).
Proof.
  intros ND. induction fs as [|[i k] fs IH]; intros LV [|y ys] A xs L NA IA; try discriminate.
  - cbn [assembled]. destruct xs as [|x xs].
    + split; [intros _|auto]. split; [reflexivity|]. split; intros [|j]; discriminate.
    + split; [intros []|intros [E _]; discriminate].
  - cbn [List.length] in L. specialize (IH (level_tail _ _ LV) ys). destruct xs as [|x xs]; [split; [intros []|intros [E _]; discriminate]|].
    destruct (is_flatten k) eqn:FK.
    + destruct k as [r|nf|inner]; try discriminate. cbn [assembled]. unfold flattened_names in NA. cbn [flat_map snd] in NA. fold (flattened_names fs) in NA.
      assert (N1 : map cname (firstn (List.length (column_names inner)) A) = column_names inner).
      { rewrite <- firstn_map, NA, firstn_app, firstn_all, Nat.sub_diag. cbn [firstn]. apply app_nil_r. }
      assert (N2 : map cname (skipn (List.length (column_names inner)) A) = flattened_names fs).
      { rewrite <- skipn_map, NA, skipn_app, skipn_all, Nat.sub_diag. reflexivity. }
      set (A1 := firstn (List.length (column_names inner)) A) in *. set (A2 := skipn (List.length (column_names inner)) A) in *.
      assert (I1 : incl A1 cols). { intros c Hc. apply IA. rewrite <- (firstn_skipn (List.length (column_names inner)) A). apply in_or_app. now left. }
      assert (I2 : incl A2 cols). { intros c Hc. apply IA. rewrite <- (firstn_skipn (List.length (column_names inner)) A). apply in_or_app. now right. }
      clearbody A1 A2. specialize (IH A2 xs ltac:(lia) N2 I2). cbn [List.length]. split.
      * intros (zs & -> & KD & H). apply IH in H as (Lx & P & F). split; [lia|]. split; intros [|j]; cbn [nth_error].
        -- intros f x y' E1 E2. injection E1 as <-. discriminate.
        -- apply (P j).
        -- intros i' inner' x' E1 E2. injection E1 as <- <-. injection E2 as <-. exists A1, zs. auto.
        -- apply (F j).
      * intros (Lx & P & F). destruct (F 0%nat i inner x eq_refl eq_refl) as (cs & zs & -> & Nc & Ic & KD).
        assert (cs = A1) as -> by (apply (names_determine cols ND); [exact Ic|exact I1|congruence]).
        exists zs. split; [reflexivity|]. split; [exact KD|]. apply IH. split; [lia|]. split; intros j; [exact (P (S j))|exact (F (S j))].
    + assert (NA' : map cname A = flattened_names fs) by (unfold flattened_names in NA; cbn [flat_map snd] in NA; destruct k; [exact NA|exact NA|discriminate]).
      assert (Q' : assembled ((i, k) :: fs) (y :: ys) A (x :: xs) <-> bld1 (i, k) y x /\ assembled fs ys A xs) by (cbn [assembled]; destruct k; [reflexivity|reflexivity|discriminate]).
      rewrite Q'. clear Q'. specialize (IH A xs ltac:(lia) NA' IA). rewrite IH. cbn [List.length]. split.
      * intros (C & Lx & P & F). split; [lia|]. split; intros [|j]; cbn [nth_error].
        -- intros f x' y' E1 _ E2 E3. injection E1 as <-. injection E2 as <-. injection E3 as <-. exact C.
        -- apply (P j).
        -- intros i' inner x' E1. injection E1 as <- ->. discriminate.
        -- apply (F j).
      * intros (Lx & P & F). split; [exact (P 0%nat (i, k) x y eq_refl FK eq_refl eq_refl)|]. split; [lia|]. split; intros j; [exact (P (S j))|exact (F (S j))].
Qed.
Lemma rest_flat cols fs accs A xs : NoDup (map cname cols) -> level fs -> List.length accs = List.length fs -> map cname A = flattened_names fs -> incl A cols ->
  (forall j i k a, nth_error fs j = Some (i, k) -> is_flatten k = true -> nth_error accs j = Some a -> a = ASkip) ->
  ((vals <- rectify fs accs ;; ys <- extract fs vals ;; build fs ys (map entry A)) = Ok xs <-> List.length xs = List.length fs /\
    (forall j f x a, nth_error fs j = Some f -> is_flatten (snd f) = false -> nth_error xs j = Some x -> nth_error accs j = Some a -> cellx f a x) /\
    (forall j i inner x, nth_error fs j = Some (i, KFlatten inner) -> nth_error xs j = Some x ->
       exists cs zs, x = SSub zs /\ map cname cs = column_names inner /\ incl cs cols /\ kind_deserialize (KFlatten inner) cs = Ok zs)).
Proof.
  intros ND LV La NA IA SK. split.
  - intros E. destruct (rectify fs accs) as [vals|e|] eqn:R; cbn [rbind] in E; try discriminate. destruct (extract fs vals) as [ys|e|] eqn:X; cbn [rbind] in E; try discriminate.
    apply rectify_iff in R; [|exact La]. pose proof (all3_length _ _ _ _ R) as [_ Lv]. apply extract_iff in X; [|exact Lv]. pose proof (all3_length _ _ _ _ X) as [_ Ly].
    apply (assemble fs LV ys A xs Ly NA) in E. apply (assembled_fields cols fs ND LV ys A xs Ly NA IA) in E as (Lx & P & F). split; [exact Lx|]. split; [|exact F].
    intros j f x a Hf FK Hx Ha. destruct (all3_nth _ _ _ _ R j f Hf) as (a' & o & Ha' & Ho & P1). destruct (all3_nth _ _ _ _ X j f Hf) as (o' & y & Ho' & Hy & P2).
    exists o, y. assert (a' = a) as -> by congruence. assert (o' = o) as -> by congruence. split; [exact P1|]. split; [exact P2|]. now apply (P j f x y).
  - intros (Lx & P & F).
    assert (Ch : exists oys : list (option sval * sval), List.length oys = List.length fs /\ forall j f x oy, nth_error fs j = Some f -> nth_error xs j = Some x -> nth_error oys j = Some oy ->
       forall a, nth_error accs j = Some a -> rect1 (snd f) a = Ok (fst oy) /\ ext1 f (fst oy) (snd oy) /\ (is_flatten (snd f) = false -> bld1 f (snd oy) x)).
    { apply (choose (fun j f x oy => forall a, nth_error accs j = Some a -> rect1 (snd f) a = Ok (fst oy) /\ ext1 f (fst oy) (snd oy) /\ (is_flatten (snd f) = false -> bld1 f (snd oy) x)) fs xs (map (fun _ => []) fs) Lx (map_length _ _)).
      intros j f x _ Hf Hx _. destruct (nth_all fs accs j f La Hf) as [a Ha]. destruct (is_flatten (snd f)) eqn:FK.
      - exists (None, SSub []). intros a' Ha'. destruct f as [i k]. cbn [snd fst] in *. rewrite (SK j i k a' Hf FK Ha'). split; [reflexivity|]. split; [|discriminate]. unfold ext1, inactive. cbn [fst snd]. now rewrite FK, orb_true_r.
      - destruct (P j f x a Hf FK Hx Ha) as (o & y & P1 & P2 & P3). exists (o, y). intros a' Ha'. assert (a' = a) as -> by congruence. auto. }
    destruct Ch as (oys & Lo & Ho).
    assert (R : rectify fs accs = Ok (map fst oys)).
    { apply rectify_iff; [exact La|]. apply all3_of_nth; [exact La|now rewrite map_length|]. intros j f a o Hf Ha E. rewrite nth_error_map in E. destruct (nth_error oys j) as [oy|] eqn:Eo; [|discriminate]. injection E as <-.
      destruct (nth_all fs xs j f Lx Hf) as [x Hx]. now apply (Ho j f x oy Hf Hx Eo a Ha). }
    assert (X : extract fs (map fst oys) = Ok (map snd oys)).
    { apply extract_iff; [now rewrite map_length|]. apply all3_of_nth; [now rewrite map_length|now rewrite map_length|]. intros j f o y Hf E1 E2. rewrite nth_error_map in E1, E2. destruct (nth_error oys j) as [oy|] eqn:Eo; [|discriminate]. injection E1 as <-. injection E2 as <-.
      destruct (nth_all fs xs j f Lx Hf) as [x Hx]. destruct (nth_all fs accs j f La Hf) as [a Ha]. now apply (Ho j f x oy Hf Hx Eo a Ha). }
    rewrite R. cbn [rbind]. rewrite X. cbn [rbind]. assert (Ly : List.length (map snd oys) = List.length fs) by now rewrite map_length.
    apply (assemble fs LV _ A xs Ly NA). apply (assembled_fields cols fs ND LV _ A xs Ly NA IA). split; [exact Lx|]. split; [|exact F].
    intros j f x y Hf FK Hx E2. rewrite nth_error_map in E2. destruct (nth_error oys j) as [oy|] eqn:Eo; [|discriminate]. injection E2 as <-. destruct (nth_all fs accs j f La Hf) as [a Ha]. now apply (Ho j f x oy Hf Hx Eo a Ha).
Qed.

Lemma level_flatten fs : level fs -> flat_free (KNested fs) = false -> existsb (fun f => is_flatten (snd f)) fs = true.
Proof.
  intros LV H. cbn [flat_free] in H. induction fs as [|[i k] fs IH]; [discriminate|]. cbn [forallb existsb snd] in *. pose proof (LV i k (or_introl eq_refl)) as LK. destruct (is_flatten k); [reflexivity|].
  rewrite LK in H. cbn [andb orb] in *. apply IH; [exact (level_tail _ _ LV)|exact H].
Qed.
Lemma find_name_first fs n : find_name fs 0 n =
  find (fun j => match nth_error fs j with Some (i, KFlatten _) => false | Some f => meant f n | None => false end) (seq 0 (List.length fs)).
Proof.
  assert (G : forall gs pre, fs = pre ++ gs -> find_name gs (List.length pre) n =
    find (fun j => match nth_error fs j with Some (i, KFlatten _) => false | Some f => meant f n | None => false end) (seq (List.length pre) (List.length gs))).
  { induction gs as [|g gs IH]; intros pre E; [reflexivity|]. cbn [find_name List.length seq find].
    assert (Hg : nth_error fs (List.length pre) = Some g) by (rewrite E, nth_error_app2, Nat.sub_diag by lia; reflexivity). rewrite Hg. destruct g as [i k].
    assert (N : named (i, k) n = match k with KFlatten _ => false | _ => meant (i, k) n end).
    { unfold named, meant, inactive, dotted. cbn [fst snd]. destruct k; cbn [is_flatten]; [now rewrite orb_false_r..|now rewrite orb_true_r]. }
    rewrite N. specialize (IH (pre ++ [(i, k)])). rewrite app_length in IH. cbn [List.length] in IH. rewrite Nat.add_1_r in IH. specialize (IH ltac:(rewrite <- app_assoc; exact E)).
    destruct k as [r|nf|nf]; [destruct (meant (i, KPlain r) n); [reflexivity|exact IH]|destruct (meant (i, KNested nf) n); [reflexivity|exact IH]|exact IH]. }
  exact (G fs [] eq_refl).
Qed.
Lemma mine_by_name fs j cols : existsb (fun f => is_flatten (snd f)) fs = true -> mine fs j 0 (left_over fs cols) = map (pair true) (by_name fs j cols).
Proof.
  intros FL. unfold by_name. generalize (left_over fs cols). intros l. assert (G : forall s, mine fs j s l = map (pair true) (filter (fun c => match find (fun j => match nth_error fs j with Some (i, KFlatten _) => false | Some f => meant f (cname c) | None => false end) (seq 0 (List.length fs)) with Some j' => (j' =? j)%nat | None => false end) l)); [|apply G]. induction l as [|c l IH]; intros s; [reflexivity|]. cbn [mine filter]. unfold dest. rewrite FL, <- (find_name_first fs (cname c)).
  destruct (find_name fs 0 (cname c)) as [j'|]; [|apply IH]. destruct (j' =? j)%nat; cbn [map]; [f_equal|]; apply IH.
Qed.
Lemma by_name_named fs j cols f : nth_error fs j = Some f -> (exists nf, snd f = KNested nf) -> Forall (well_named (i_name (fst f))) (map (pair true) (by_name fs j cols)).
Proof.
  intros Hf [nf K]. apply Forall_forall. intros [b c] H _. cbn [snd]. apply in_map_iff in H as (c' & E & H). injection E as <- <-. unfold by_name in H. apply filter_In in H as [_ H].
  destruct (find _ _) as [j'|] eqn:F; [|discriminate]. apply Nat.eqb_eq in H. subst j'. apply find_some in F as [_ F]. rewrite Hf in F. destruct f as [i k]. cbn [snd fst] in *. subst k. unfold meant in F. cbn [snd fst] in F. apply andb_true_iff in F as [_ F]. exact F.
Qed.
Lemma put_skip f L : put_all f L ASkip = Ok ASkip.
Proof. induction L as [|[b [[n t] v]] L IH]; [reflexivity|]. cbn [put_all]. unfold put_column. destruct (snd f); exact IH. Qed.
Lemma level_size fs : level fs -> forallb size_known fs = true.
Proof.
  intros LV. apply forallb_forall. intros [i k] H. unfold size_known, inactive. cbn [fst snd]. pose proof (LV i k H) as LK. destruct k as [r|nf|inner]; cbn [is_flatten] in *; [apply orb_true_r| |now rewrite orb_true_r].
  destruct (flat_count _ LK) as [n E]. change (column_count nf) with (kind_count (KNested nf)). rewrite E. apply orb_true_r.
Qed.
Lemma level_iff fs cols xs : level fs -> existsb (fun f => is_flatten (snd f)) fs = true -> NoDup (flattened_names fs) -> NoDup (map cname cols) ->
  (kind_deserialize (KNested fs) cols = Ok xs <->
   incl (flattened_names fs) (map cname cols) /\ List.length xs = List.length fs /\
    (forall j f x, nth_error fs j = Some f -> is_flatten (snd f) = false -> nth_error xs j = Some x -> field_is (map (pair true) (by_name fs j cols)) f x) /\
    (forall j i inner x, nth_error fs j = Some (i, KFlatten inner) -> nth_error xs j = Some x ->
       exists cs ys, x = SSub ys /\ map cname cs = column_names inner /\ incl cs cols /\ kind_deserialize (KFlatten inner) cs = Ok ys)).
Proof.
  intros LV FL NF ND. rewrite kind_deserialize_eq by eauto. cbn [inner]. unfold gather. rewrite (level_size fs LV), pull_flatten_names.
  assert (L0 : List.length (map acc0 fs) = List.length fs) by apply map_length.
  assert (Main : incl (flattened_names fs) (map cname cols) -> exists A, pull_names (flattened_names fs) cols [] = Ok (left_over fs cols, map entry A) /\
     ((accs <- match_keys fs 0 (left_over fs cols) (map acc0 fs) ;; vals <- rectify fs accs ;; ys <- extract fs vals ;; build fs ys (map entry A)) = Ok xs <->
      List.length xs = List.length fs /\
    (forall j f x, nth_error fs j = Some f -> is_flatten (snd f) = false -> nth_error xs j = Some x -> field_is (map (pair true) (by_name fs j cols)) f x) /\
    (forall j i inner x, nth_error fs j = Some (i, KFlatten inner) -> nth_error xs j = Some x ->
       exists cs ys, x = SSub ys /\ map cname cs = column_names inner /\ incl cs cols /\ kind_deserialize (KFlatten inner) cs = Ok ys))).
  { intros I. destruct (pull_all _ cols ND NF I) as (cols' & A & E & NA & IA & _). pose proof (pull_names_left _ _ _ _ _ E) as LO. fold (left_over fs cols) in LO. subst cols'. exists A. split; [exact E|]. clear E.
    assert (Acc : forall accs, match_keys fs 0 (left_over fs cols) (map acc0 fs) = Ok accs <-> List.length accs = List.length fs /\ forall j f a, nth_error fs j = Some f -> nth_error accs j = Some a -> put_all f (map (pair true) (by_name fs j cols)) (acc0 f) = Ok a).
    { intros accs. rewrite (match_keys_iff fs (left_over fs cols) 0 _ accs L0). unfold DeriveProofs.settled. split; intros [La H]; (split; [exact La|]); intros j f a Hf Ha.
      - rewrite <- (mine_by_name fs j cols FL). destruct (H j f (acc0 f) Hf) as (a' & Ha' & Q); [now rewrite nth_error_map, Hf|]. congruence.
      - rewrite (mine_by_name fs j cols FL). rewrite nth_error_map, Hf in Ha. cbn [option_map] in Ha. injection Ha as <-. destruct (nth_all fs accs j f La Hf) as [a Ha]. exists a. split; [exact Ha|]. now apply H. }
    assert (Flat0 : forall i k L, is_flatten k = true -> put_all (i, k) L (acc0 (i, k)) = Ok ASkip).
    { intros i k L FK. unfold acc0, inactive. cbn [fst snd]. rewrite FK, orb_true_r. apply put_skip. }
    assert (Rest : forall accs, match_keys fs 0 (left_over fs cols) (map acc0 fs) = Ok accs -> _) by (intros accs M; apply Acc in M as [La M]; refine (rest_flat cols fs accs A xs ND LV La NA IA _); intros j i k a Hf FK Ha; pose proof (M j _ a Hf Ha) as Pa; rewrite (Flat0 i k _ FK) in Pa; now injection Pa as <-).
    assert (FI : forall j f x, nth_error fs j = Some f -> is_flatten (snd f) = false -> ((exists a, put_all f (map (pair true) (by_name fs j cols)) (acc0 f) = Ok a /\ cellx f a x) <-> field_is (map (pair true) (by_name fs j cols)) f x)).
    { intros j f x Hf FK. apply field_is_iff; [|apply exact_all|now apply by_name_named]. destruct f as [i k]. pose proof (LV i k (nth_error_In _ _ Hf)) as LK. cbn [snd] in *. now rewrite FK in LK. }
    split.
    - intros Q. assert (X : exists accs, match_keys fs 0 (left_over fs cols) (map acc0 fs) = Ok accs). { destruct (match_keys fs 0 (left_over fs cols) (map acc0 fs)); [eauto|discriminate Q..]. }
      destruct X as [accs M]. rewrite M in Q. cbn [rbind] in Q. apply (Rest accs M) in Q as (Lx & Pl & Fl). apply Acc in M as [La M]. split; [exact Lx|]. split; [|exact Fl].
      intros j f x Hf FK Hx. destruct (nth_all fs accs j _ La Hf) as [a Ha]. apply (FI j f x Hf FK). exists a. split; [now apply M|]. now apply (Pl j f x a).
    - intros (Lx & Pl & Fl).
      assert (Ch : exists accs, List.length accs = List.length fs /\ forall j f x a, nth_error fs j = Some f -> nth_error xs j = Some x -> nth_error accs j = Some a ->
         put_all f (map (pair true) (by_name fs j cols)) (acc0 f) = Ok a /\ (is_flatten (snd f) = false -> cellx f a x)).
      { apply (choose (fun j f x a => put_all f (map (pair true) (by_name fs j cols)) (acc0 f) = Ok a /\ (is_flatten (snd f) = false -> cellx f a x)) fs xs (map (fun _ => []) fs) Lx (map_length _ _)). intros j f x _ Hf Hx _.
        destruct (is_flatten (snd f)) eqn:FK.
        - exists ASkip. split; [destruct f as [i k]; now apply Flat0|discriminate].
        - pose proof (Pl j f x Hf FK Hx) as Q. apply (FI j f x Hf FK) in Q as (a & Pa & C). exists a. auto. }
      destruct Ch as (accs & La & Ha).
      assert (M : match_keys fs 0 (left_over fs cols) (map acc0 fs) = Ok accs).
      { apply Acc. split; [exact La|]. intros j f a Hf H0. destruct (nth_all fs xs j f Lx Hf) as [x Hx]. now apply (Ha j f x a). }
      rewrite M. cbn [rbind]. apply (Rest accs M). split; [exact Lx|]. split; [|exact Fl]. intros j f x a Hf FK Hx H0. now apply (Ha j f x a). }
  split.
  - intros Q. destruct (pull_names (flattened_names fs) cols []) as [cm|e|] eqn:PN; try (cbn [rbind] in Q; discriminate). pose proof (pull_names_incl _ _ _ _ PN) as I. split; [exact I|].
    destruct (Main I) as (A & E & MI). injection E as ->. cbn [rbind fst snd] in Q. apply MI. rewrite <- Q. destruct (match_keys fs 0 (left_over fs cols) (map acc0 fs)); reflexivity.
  - intros [I H]. destruct (Main I) as (A & E & MI). rewrite E. cbn [rbind fst snd]. apply MI in H. rewrite <- H. destruct (match_keys fs 0 (left_over fs cols) (map acc0 fs)); reflexivity.
Qed.
Lemma field_is_plain cs i r x : field_is (map (pair true) cs) (i, KPlain r) x <-> plain_field cs (i, KPlain r) x.
Proof. unfold field_is, plain_field. cbn [fst snd]. destruct (i_skip_de i); [reflexivity|]. destruct cs as [|[[n t] v] [|d cs]]; reflexivity. Qed.
Lemma field_is_nested cs i inner x : field_is (map (pair true) cs) (i, KNested inner) x <-> nested_field cs (i, KNested inner) inner x.
Proof. reflexivity. Qed.
Lemma group_nodup fs i nf : NoDup (flattened_names fs) -> In (i, KFlatten nf) fs -> NoDup (column_names nf).
Proof.
  unfold flattened_names. induction fs as [|[i' k] fs IH]; intros N H; [destruct H|]. cbn [flat_map snd] in N. destruct H as [E|H].
  - injection E as -> ->. revert N. generalize (column_names nf). induction l as [|n l IHl]; intros N; [constructor|]. cbn [app] in N. inversion N as [|? ? N1 N2]; subst. constructor; [|now apply IHl].
    intros X. apply N1. apply in_or_app. now left.
  - apply IH; [|exact H]. destruct k as [r|nf'|nf']; [exact N..|]. revert N. generalize (column_names nf'). induction l as [|n l IHl]; intros N; [exact N|]. cbn [app] in N. inversion N; subst. now apply IHl.
Qed.
Definition flat_exact (k : kind) : Prop :=
  match k with
  | KPlain _ => True
  | KNested fs | KFlatten fs => layered fs -> forall cols xs, NoDup (map cname cols) -> (kind_deserialize k cols = Ok xs <-> reads_flat fs cols xs)
  end.
Lemma same_deserialize fs cols : kind_deserialize (KFlatten fs) cols = kind_deserialize (KNested fs) cols.
Proof. reflexivity. Qed.
Lemma flat_all k : flat_exact k.
Proof.
  assert (G : forall fs, Forall (fun f => flat_exact (snd f)) fs -> layered fs -> forall cols xs, NoDup (map cname cols) -> (kind_deserialize (KNested fs) cols = Ok xs <-> reads_flat fs cols xs)).
  { intros fs IH LY cols xs ND. destruct (flat_free (KNested fs)) eqn:FF.
    - rewrite (exact_all (KNested fs) FF cols xs). split; [intros H; now apply reads_leaf|]. intros H. inversion H as [? ? ? _ H1|? ? ? FF' _ _ _ _ _]; subst; [exact H1|congruence].
    - inversion LY as [? FF'|? SN SS SL NF]; subst; [congruence|].
      assert (LV : level fs). { intros i k0 H. destruct k0 as [r|nf|nf]; cbn [is_flatten]; [reflexivity|now apply (SN i)|now apply (SS i nf)]. }
      pose proof (level_flatten fs LV FF) as FL. rewrite (level_iff fs cols xs LV FL NF ND).
      assert (Sub : forall j i nf, nth_error fs j = Some (i, KFlatten nf) -> forall cs ys, map cname cs = column_names nf -> (kind_deserialize (KFlatten nf) cs = Ok ys <-> reads_flat nf cs ys)).
      { intros j i nf Hf cs ys Nc. pose proof (nth_error_In _ _ Hf) as Hin. pose proof (proj1 (Forall_forall _ _) IH _ Hin) as Q. cbn [snd flat_exact] in Q. apply Q; [now apply (SL i)|]. rewrite Nc. now apply (group_nodup fs i). }
      split.
      + intros (I & Lx & Pl & Fl). apply reads_layer; [exact FF|exact I|exact Lx| | |].
        * intros j i r x Hf Hx. apply field_is_plain. exact (Pl j _ x Hf eq_refl Hx).
        * intros j i nf x Hf Hx. apply field_is_nested. exact (Pl j _ x Hf eq_refl Hx).
        * intros j i nf x Hf Hx. destruct (Fl j i nf x Hf Hx) as (cs & ys & E & Nc & Ic & KD). exists cs, ys. split; [exact E|]. split; [exact Nc|]. split; [exact Ic|]. now apply (Sub j i nf Hf).
      + intros H. inversion H as [? ? ? FF' _|? ? ? _ I Lx Pl Ne Fl]; subst; [congruence|]. split; [exact I|]. split; [exact Lx|]. split.
        * intros j [i k0] x Hf FK Hx. destruct k0 as [r|nf|nf]; [apply field_is_plain; exact (Pl j i r x Hf Hx)|apply field_is_nested; exact (Ne j i nf x Hf Hx)|discriminate].
        * intros j i nf x Hf Hx. destruct (Fl j i nf x Hf Hx) as (cs & ys & E & Nc & Ic & R). exists cs, ys. split; [exact E|]. split; [exact Nc|]. split; [exact Ic|]. now apply (Sub j i nf Hf). }
  induction k as [r|fs IH|fs IH] using kind_ind'; [exact I| |]; intros LY cols xs ND; [|rewrite same_deserialize]; now apply G.
Qed.
Lemma flattened_exact fs cols xs : layered fs -> NoDup (map cname cols) -> (deserialize fs cols = Ok xs <-> reads_flat fs cols xs).
Proof. intros LY ND. exact (flat_all (KNested fs) LY cols xs ND). Qed.
