(** Structs of plain fields: exactly which rows are read, and as what. *)
From Coq Require Import String Permutation.
From Verif Require Import Base Types Text RawRow Numeric Convert ConvertSpec ConvertSafe Migrate MigrateProofs Derive DeriveSpec DeriveProofs DeriveProofs2.
Local Open Scope list_scope.
Local Open Scope N_scope.

Fixpoint pos (fs : fields) (s : nat) : list nat :=
  match fs with [] => [] | f :: r => if inactive f then pos r (S s) else s :: pos r (S s) end.
Lemma pos_range fs : forall s j, In j (pos fs s) -> (s <= j)%nat.
Proof.
  induction fs as [|f fs IH]; intros s j H; cbn [pos] in H; [destruct H|]. destruct (inactive f).
  - apply IH in H. lia.
  - destruct H as [<-|H]; [lia|]. apply IH in H. lia.
Qed.
Lemma plain_inactive fs f : all_plain fs -> In f fs -> inactive f = i_skip_de (fst f) /\ exists r, snd f = KPlain r.
Proof.
  intros P H. destruct (proj1 (Forall_forall _ _) P f H) as [r E]. split; [|eauto]. unfold inactive. rewrite E. cbn [is_flatten]. apply orb_false_r.
Qed.
Lemma find_ext {A} (p q : A -> bool) l : (forall x, In x l -> p x = q x) -> find p l = find q l.
Proof. induction l as [|x l IH]; intros H; [reflexivity|]. cbn [find]. rewrite (H x (or_introl eq_refl)). destruct (q x); [reflexivity|]. apply IH. intros y Hy. apply H. now right. Qed.
Lemma filter_ext_in' {A} (p q : A -> bool) l : (forall x, In x l -> p x = q x) -> filter p l = filter q l.
Proof. induction l as [|x l IH]; intros H; [reflexivity|]. cbn [filter]. rewrite (H x (or_introl eq_refl)). rewrite IH; [reflexivity|]. intros y Hy. apply H. now right. Qed.

Lemma read_positions_pos fs : all_plain fs -> read_positions fs = pos fs 0.
Proof.
  intros P. unfold read_positions.
  assert (G : forall gs pre, fs = pre ++ gs -> filter (fun j => match nth_error fs j with Some f => negb (i_skip_de (fst f)) | None => false end) (seq (List.length pre) (List.length gs)) = pos gs (List.length pre)).
  { induction gs as [|g gs IH]; intros pre E; [reflexivity|]. cbn [List.length seq filter pos].
    assert (Hg : nth_error fs (List.length pre) = Some g) by (rewrite E, nth_error_app2, Nat.sub_diag by lia; reflexivity). rewrite Hg.
    destruct (plain_inactive fs g P) as [A _]; [eapply nth_error_In; eauto|]. rewrite A. specialize (IH (pre ++ [g])). rewrite app_length in IH. cbn [List.length] in IH. rewrite Nat.add_1_r in IH.
    rewrite IH by (rewrite <- app_assoc; exact E). destruct (i_skip_de (fst g)); reflexivity. }
  exact (G fs [] eq_refl).
Qed.
Lemma find_name_pos fs n : all_plain fs ->
  find_name fs 0 n = find (fun j => match nth_error fs j with Some f => text_eqb n (i_name (fst f)) | None => false end) (pos fs 0).
Proof.
  intros P.
  assert (G : forall gs pre, fs = pre ++ gs -> find_name gs (List.length pre) n = find (fun j => match nth_error fs j with Some f => text_eqb n (i_name (fst f)) | None => false end) (pos gs (List.length pre))).
  { induction gs as [|g gs IH]; intros pre E; [reflexivity|]. cbn [find_name pos].
    assert (Hg : nth_error fs (List.length pre) = Some g) by (rewrite E, nth_error_app2, Nat.sub_diag by lia; reflexivity).
    destruct (plain_inactive fs g P) as [_ [r K]]; [eapply nth_error_In; eauto|]. specialize (IH (pre ++ [g])). rewrite app_length in IH. cbn [List.length] in IH. rewrite Nat.add_1_r in IH.
    specialize (IH ltac:(rewrite <- app_assoc; exact E)). unfold named. rewrite K. destruct (inactive g); cbn [negb andb]; [exact IH|]. cbn [find]. rewrite Hg. destruct (text_eqb n _); [reflexivity|exact IH]. }
  exact (G fs [] eq_refl).
Qed.
Lemma find_index_pos fs : all_plain fs -> forall s a idx, (a <= idx)%nat -> find_index fs s a idx = nth_error (pos fs s) (idx - a).
Proof.
  induction fs as [|f fs IH]; intros P s a idx H; cbn [find_index pos]; [now destruct (idx - a)%nat|].
  pose proof (Forall_inv P) as [r K]. specialize (IH (Forall_inv_tail P)). destruct (inactive f); [now apply IH|]. rewrite K.
  destruct (Nat.leb_spec a idx) as [_|]; [|lia]. cbn [andb]. destruct (Nat.ltb_spec idx (a + 1)) as [L|L].
  - replace (idx - a)%nat with 0%nat by lia. reflexivity.
  - replace (idx - a)%nat with (S (idx - (a + 1)))%nat by lia. cbn [nth_error]. apply IH. lia.
Qed.
Lemma plain_no_flatten fs : all_plain fs -> existsb (fun f => is_flatten (snd f)) fs = false.
Proof. intros P. induction P as [|f fs [r K] _ IH]; [reflexivity|]. cbn [existsb]. now rewrite K, IH. Qed.
Lemma dest_goes fs idx n : all_plain fs -> option_map fst (dest fs idx n) = goes_to fs idx n.
Proof.
  intros P. unfold dest, goes_to. rewrite (read_positions_pos fs P), <- (find_name_pos fs n P). destruct (find_name fs 0 n) as [j|]; [reflexivity|].
  rewrite (plain_no_flatten fs P), (find_index_pos fs P) by lia. rewrite Nat.sub_0_r. destruct (nth_error (pos fs 0) idx); reflexivity.
Qed.
Lemma mine_columns fs j cols : all_plain fs -> map snd (mine fs j 0 cols) = columns_of fs j cols.
Proof.
  intros P. unfold columns_of. generalize 0%nat. induction cols as [|c cols IH]; intros s; [reflexivity|]. cbn [mine List.length seq combine filter fst snd].
  rewrite <- (dest_goes fs s (cname c) P). destruct (dest fs s (cname c)) as [[j' b]|]; cbn [option_map fst]; [|apply IH]. destruct (j' =? j)%nat; cbn [map snd]; [f_equal|]; apply IH.
Qed.

(** ** One field *)
Lemma put_all_filled f r y L a : snd f = KPlain r -> L <> [] -> put_all f L (ACell (Some y)) <> Ok a.
Proof. intros K N. destruct L as [|[b [[n t] v]] L]; [congruence|]. cbn [put_all]. unfold put_column. rewrite K. cbn [rbind]. discriminate. Qed.
Lemma put_all_plain f r L a : snd f = KPlain r ->
  (put_all f L (ACell None) = Ok a <-> (L = [] /\ a = ACell None) \/ exists b n t v y, L = [(b, (n, t, v))] /\ from_sql r (strip_low_cardinality t) v = Ok y /\ a = ACell (Some y)).
Proof.
  intros K. destruct L as [|[b [[n t] v]] L].
  - cbn [put_all]. split; [intros E; injection E as <-; now left|]. intros [[_ ->]|(b & n & t & v & y & E & _)]; [reflexivity|discriminate].
  - cbn [put_all]. unfold put_column. rewrite K. split.
    + intros E. right. destruct (field_from (i_name (fst f)) r (strip_low_cardinality t) v) as [y|e|] eqn:F; [|discriminate|discriminate]. apply field_from_inv in F. cbn [rbind] in E. destruct L as [|x L].
      * cbn [put_all] in E. injection E as <-. exists b, n, t, v, y. auto.
      * exfalso. revert E. apply (put_all_filled f r); [exact K|discriminate].
    + intros [[E _]|(b' & n' & t' & v' & y & E & F & ->)]; [discriminate|]. injection E as -> -> -> -> ->. rewrite (field_from_ok _ _ _ _ _ F). reflexivity.
Qed.

Definition read_as (fs : fields) (cols : list column) (xs : list sval) : Prop :=
  List.length xs = List.length fs /\ forall j f x, nth_error fs j = Some f -> nth_error xs j = Some x -> plain_field (columns_of fs j cols) f x.

(** ** All of them *)
Definition cell (f : info * kind) (a : acc) (x : sval) : Prop :=
  if i_skip_de (fst f) then i_default (fst f) = Some x
  else match a with ACell (Some y) => x = SPlain y | ACell None => i_default (fst f) = Some x | _ => False end.
Lemma rest_plain fs : all_plain fs -> forall accs xs, List.length accs = List.length fs -> Forall (fun fa => snd fa = ASkip <-> i_skip_de (fst (fst fa)) = true) (combine fs accs) ->
  Forall (fun a => match a with ANest _ _ => False | _ => True end) accs ->
  ((vals <- rectify fs accs ;; ys <- extract fs vals ;; build fs ys []) = Ok xs <-> all3 cell fs accs xs).
Proof.
  assert (R : forall fs accs, List.length accs = List.length fs -> Forall (fun a => match a with ANest _ _ => False | _ => True end) accs ->
     rectify fs accs = Ok (map (fun a => match a with ACell o => option_map SPlain o | _ => None end) accs)).
  { clear. induction fs as [|[i k] fs IH]; intros [|a accs] L F; try discriminate; [reflexivity|]. cbn [rectify map]. pose proof (Forall_inv F) as F1. cbv beta in F1.
    rewrite (IH accs); [|cbn [List.length] in L; lia|exact (Forall_inv_tail F)]. destruct a; [reflexivity|reflexivity|destruct F1]. }
  intros P accs xs L SK F. rewrite R by assumption. cbn [rbind]. clear R. revert accs xs L SK F. induction fs as [|[i k] fs IH]; intros [|a accs] xs L SK F; try discriminate.
  - cbn [map extract rbind build]. split; [intros E; injection E as <-; exact I|]. destruct xs; [reflexivity|intros []].
  - pose proof (Forall_inv P) as [r K]. cbn [snd] in K. subst k. cbn [combine] in SK. pose proof (Forall_inv SK) as S1. cbv beta in S1. cbn [fst snd] in S1. pose proof (Forall_inv F) as F1. cbv beta in F1.
    cbn [List.length] in L. specialize (IH (Forall_inv_tail P) accs). cbn [map extract]. unfold inactive. cbn [fst snd is_flatten]. rewrite orb_false_r.
    set (vals := map _ accs) in *.
    destruct xs as [|x xs].
    { split; [|intros []]. intros E. exfalso. revert E. destruct (if i_skip_de i then _ else _) as [y|e|]; cbn [rbind]; try discriminate. destruct (extract fs vals) as [ys|e|]; cbn [rbind build]; try discriminate.
      destruct (i_skip_de i); [destruct (i_default i)|]; try discriminate; destruct (build fs ys []); discriminate. }
    specialize (IH xs ltac:(lia) (Forall_inv_tail SK) (Forall_inv_tail F)). cbn [all3]. unfold cell at 1. cbn [fst snd].
    assert (Tail : forall z, (rbind (extract fs vals) (fun xs0 => rbind (build fs xs0 []) (fun ys => Ok (z :: ys))) = Ok (x :: xs)) <-> (z = x /\ all3 cell fs accs xs)).
    { intros z. rewrite <- IH. destruct (extract fs vals) as [ys|e|]; cbn [rbind]; [|split; [discriminate|intros [_ E]; discriminate]..].
      destruct (build fs ys []) as [zs|e|]; cbn [rbind]; [|split; [discriminate|intros [_ E]; discriminate]..]. split.
      - intros E. injection E as -> ->. auto.
      - intros [-> E]. injection E as ->. reflexivity. }
    destruct (i_skip_de i) eqn:SD.
    + destruct (i_default i) as [d|] eqn:D.
      * cbn [rbind].
        assert (Q : (rbind (rbind (extract fs vals) (fun xs0 => Ok (SSub [] :: xs0))) (fun ys => build ((i, KPlain r) :: fs) ys [])) = rbind (extract fs vals) (fun xs0 => rbind (build fs xs0 []) (fun ys => Ok (d :: ys)))).
        { destruct (extract fs vals); cbn [rbind build]; try reflexivity. now rewrite SD, D. }
        rewrite Q. rewrite (Tail d). split; [intros [-> H]; split; [reflexivity|exact H]|intros [E H]; injection E as ->; auto].
      * split; [|intros [E _]; discriminate]. cbn [rbind]. destruct (extract fs vals); cbn [rbind build]; try discriminate. rewrite SD, D. discriminate.
    + assert (Q : forall z, (rbind (rbind (extract fs vals) (fun xs0 => Ok (z :: xs0))) (fun ys => build ((i, KPlain r) :: fs) ys [])) = rbind (extract fs vals) (fun xs0 => rbind (build fs xs0 []) (fun ys => Ok (z :: ys)))).
      { intros z. destruct (extract fs vals); cbn [rbind build]; try reflexivity. now rewrite SD. }
      destruct a as [|[y|]|]; [destruct S1 as [S1 _]; specialize (S1 eq_refl); discriminate| | |destruct F1].
      * cbn [option_map rbind]. rewrite Q, Tail. split; intros [E H]; split; auto.
      * cbn [option_map]. destruct (i_default i) as [d|].
        -- cbn [rbind]. rewrite Q, Tail. split; [intros [-> H]; auto|intros [E H]; injection E as ->; auto].
        -- cbn [rbind]. split; [discriminate|intros [E _]; discriminate].
Qed.

Lemma pull_flatten_plain fs cols : all_plain fs -> pull_flatten fs cols [] = Ok (cols, []).
Proof. intros P. induction P as [|[i k] fs [r K] _ IH]; [reflexivity|]. cbn [snd] in K. subst k. exact IH. Qed.
Lemma size_known_plain fs : all_plain fs -> forallb size_known fs = true.
Proof. intros P. apply forallb_forall. intros f H. destruct (plain_inactive fs f P H) as [_ [r K]]. unfold size_known. rewrite K. apply orb_true_r. Qed.

Lemma deserialize_plain fs cols xs : all_plain fs -> (deserialize fs cols = Ok xs <-> read_as fs cols xs).
Proof.
  intros P. unfold deserialize. rewrite kind_deserialize_eq by eauto. cbn [inner]. unfold gather. rewrite (size_known_plain fs P), (pull_flatten_plain fs cols P). cbn [rbind fst snd].
  assert (Acc0 : forall j f, nth_error fs j = Some f -> acc0 f = if i_skip_de (fst f) then ASkip else ACell None).
  { intros j f Hj. destruct (plain_inactive fs f P) as [A [r K]]; [eapply nth_error_In; eauto|]. unfold acc0. now rewrite A, K. }
  assert (Each : forall j f a, nth_error fs j = Some f -> (put_all f (mine fs j 0 cols) (acc0 f) = Ok a <->
     if i_skip_de (fst f) then a = ASkip else exists r, snd f = KPlain r /\ ((mine fs j 0 cols = [] /\ a = ACell None) \/ exists b n t v y, mine fs j 0 cols = [(b, (n, t, v))] /\ from_sql r (strip_low_cardinality t) v = Ok y /\ a = ACell (Some y)))).
  { intros j f a Hj. destruct (plain_inactive fs f P) as [A [r K]]; [eapply nth_error_In; eauto|]. rewrite (Acc0 j f Hj). destruct (i_skip_de (fst f)) eqn:SD.
    - assert (Skip : forall L, put_all f L ASkip = Ok ASkip).
      { induction L as [|[b [[n t] v]] L IHL]; [reflexivity|]. cbn [put_all]. unfold put_column. rewrite K. exact IHL. }
      rewrite Skip. split; congruence.
    - rewrite (put_all_plain f r _ a K). split; [eauto|]. intros (r' & K' & H). assert (r' = r) as -> by congruence. exact H. }
  assert (L0 : List.length (map acc0 fs) = List.length fs) by apply map_length.
  assert (Shape : forall accs, settled fs 0 cols (map acc0 fs) accs -> List.length accs = List.length fs /\ forall j f a, nth_error fs j = Some f -> nth_error accs j = Some a -> put_all f (mine fs j 0 cols) (acc0 f) = Ok a).
  { intros accs [L H]. split; [exact L|]. intros j f a Hf Ha. destruct (H j f (acc0 f) Hf) as (a' & Ha' & E); [now rewrite nth_error_map, Hf|]. congruence. }
  assert (Rest : forall accs, settled fs 0 cols (map acc0 fs) accs -> ((vals <- rectify fs accs ;; ys <- extract fs vals ;; build fs ys []) = Ok xs <-> all3 cell fs accs xs)).
  { intros accs St. destruct (Shape accs St) as [L H]. apply rest_plain; [exact P|exact L| |].
    - apply Forall_forall. intros [f a] Hin. apply In_nth_error in Hin as [j Hj]. cbn [fst snd].
      assert (X : nth_error fs j = Some f /\ nth_error accs j = Some a).
      { clear - Hj. revert accs j Hj. induction fs as [|g gs IH]; intros [|b accs] [|j] Hj; cbn [combine nth_error] in *; try discriminate; [injection Hj as -> ->; auto|now apply IH]. }
      destruct X as [Hf Ha]. pose proof (H j f a Hf Ha) as E. apply (Each j f a Hf) in E. destruct (i_skip_de (fst f)); [subst; split; reflexivity|].
      destruct E as (r & _ & [[_ ->]|(b & n & t & v & y & _ & _ & ->)]); split; discriminate.
    - apply Forall_forall. intros a Ha. apply In_nth_error in Ha as [j Ha]. destruct (nth_error fs j) as [f|] eqn:Hf; [|apply nth_error_None in Hf; assert (j < List.length accs)%nat by (apply nth_error_Some; congruence); lia].
      pose proof (H j f a Hf Ha) as E. apply (Each j f a Hf) in E. destruct (i_skip_de (fst f)); [now subst|]. destruct E as (r & _ & [[_ ->]|(b & n & t & v & y & _ & _ & ->)]); exact I. }
  split.
  - intros E. destruct (match_keys fs 0 cols (map acc0 fs)) as [accs|e|] eqn:M; cbn [rbind fst snd] in E; try discriminate. apply (match_keys_iff fs cols 0 _ accs L0) in M.
    apply (Rest accs M) in E. destruct (Shape accs M) as [L H]. destruct (all3_length _ _ _ _ E) as [La Lx]. split; [exact Lx|]. intros j f x Hf Hx.
    destruct (all3_nth _ _ _ _ E j f Hf) as (a & x' & Ha & Hx' & C). assert (x' = x) as -> by congruence. pose proof (H j f a Hf Ha) as Pa. apply (Each j f a Hf) in Pa. unfold cell in C. unfold plain_field.
    rewrite <- (mine_columns fs j cols P). destruct (i_skip_de (fst f)); [exact C|]. destruct Pa as (r & K & [[Mi ->]|(b & n & t & v & y & Mi & Fr & ->)]); rewrite K, Mi; cbn [map snd]; [exact C|]. subst x. eauto.
  - intros [Lx H].
    assert (Ch : exists accs, List.length accs = List.length fs /\ forall j f x a, nth_error fs j = Some f -> nth_error xs j = Some x -> nth_error accs j = Some a -> put_all f (mine fs j 0 cols) (acc0 f) = Ok a /\ cell f a x).
    { apply (choose (fun j f x a => put_all f (mine fs j 0 cols) (acc0 f) = Ok a /\ cell f a x) fs xs (map (fun _ => []) fs) Lx (map_length _ _)). intros j f x _ Hf Hx _. pose proof (H j f x Hf Hx) as Q. unfold plain_field in Q. rewrite <- (mine_columns fs j cols P) in Q.
      destruct (plain_inactive fs f P) as [A [r K]]; [eapply nth_error_In; eauto|]. unfold cell. destruct (i_skip_de (fst f)) eqn:SD.
      - exists ASkip. split; [|exact Q]. apply (Each j f ASkip Hf). now rewrite SD.
      - rewrite K in Q. destruct (mine fs j 0 cols) as [|[b [[n t] v]] [|d M]] eqn:Mi; cbn [map snd] in Q.
        + exists (ACell None). split; [|exact Q]. rewrite <- Mi. apply (Each j f _ Hf). rewrite SD. exists r. split; [exact K|]. left. auto.
        + destruct Q as (y & Fr & ->). exists (ACell (Some y)). split; [|reflexivity]. rewrite <- Mi. apply (Each j f _ Hf). rewrite SD. exists r. split; [exact K|]. right. exists b, n, t, v, y. auto.
        + destruct Q. }
    destruct Ch as (accs & La & Ha). assert (St : settled fs 0 cols (map acc0 fs) accs).
    { split; [exact La|]. intros j f a Hf E0. rewrite nth_error_map, Hf in E0. cbn [option_map] in E0. injection E0 as <-.
      destruct (nth_error xs j) as [x|] eqn:Hx; [|apply nth_error_None in Hx; assert (j < List.length fs)%nat by (apply nth_error_Some; congruence); lia].
      destruct (nth_error accs j) as [a0|] eqn:H0; [|apply nth_error_None in H0; assert (j < List.length fs)%nat by (apply nth_error_Some; congruence); lia].
      exists a0. split; [reflexivity|]. now apply (Ha j f x a0). }
    pose proof (proj2 (match_keys_iff fs cols 0 _ accs L0) St) as M. rewrite M. cbn [rbind fst snd]. apply (Rest accs St). apply all3_of_nth; [exact La|exact Lx|]. intros j f a x Hf Ha' Hx. now apply (Ha j f x a).
Qed.

(** ** No panic *)
Lemma deserialize_plain_no_panic fs cols : all_plain fs -> Forall (fun f => forall r, snd f = KPlain r -> calm r) fs -> Forall (fun c => typed (snd (fst c)) (snd c) = true) cols ->
  deserialize fs cols <> Panic.
Proof.
  intros P NC T. unfold deserialize. rewrite kind_deserialize_eq by eauto. cbn [inner]. unfold gather. rewrite (size_known_plain fs P), (pull_flatten_plain fs cols P). cbn [rbind fst snd].
  assert (M : forall idx accs, List.length accs = List.length fs -> Forall (fun a => match a with ANest _ _ => False | _ => True end) accs ->
     match match_keys fs idx cols accs with Panic => False | Err _ => True | Ok accs' => List.length accs' = List.length fs /\ Forall (fun a => match a with ANest _ _ => False | _ => True end) accs' end).
  { clear - P NC T. induction T as [|c cols Tc _ IH]; intros idx accs L F; cbn [match_keys]; [auto|]. destruct (dest fs idx (cname c)) as [[j b]|] eqn:D; [|now apply IH].
    apply dest_range in D. destruct (nth_error fs j) as [f|] eqn:Hf; [|apply nth_error_None in Hf; lia]. destruct (nth_error accs j) as [a|] eqn:Ha; [|apply nth_error_None in Ha; lia].
    assert (Fin : In f fs) by (eapply nth_error_In; eauto). destruct (plain_inactive fs f P Fin) as [_ [r K]]. pose proof (proj1 (Forall_forall _ _) NC f Fin r K) as N. cbv beta in N.
    assert (Fa : match a with ANest _ _ => False | _ => True end) by (apply (proj1 (Forall_forall _ _) F); eapply nth_error_In; eauto).
    assert (SetF : forall a', (match a' with ANest _ _ => False | _ => True end) -> Forall (fun a => match a with ANest _ _ => False | _ => True end) (set_nth accs j a')).
    { intros a' Ha'. clear - F Ha'. revert j. induction F as [|x l Hx _ IHF]; intros [|j]; cbn [set_nth]; constructor; auto. apply Forall_forall. intros y Hy. destruct (In_nth_error _ _ Hy) as [m Hm].
      clear - Hy IHF. specialize (IHF (List.length l)). assert (E : forall A (l : list A) a, set_nth l (List.length l) a = l) by (clear; induction l as [|z l IH]; intros a; cbn [List.length set_nth]; [reflexivity|]; now rewrite IH).
      rewrite E in IHF. exact (proj1 (Forall_forall _ _) IHF y Hy). }
    destruct c as [[n t] v]. cbn [put_column]. rewrite K. destruct a as [|o|]; [| |destruct Fa]; cbn [rbind].
    - apply IH; [now rewrite set_nth_length|]. now apply SetF.
    - destruct o as [y|]; cbn [rbind]; [exact I|]. cbn [fst snd] in Tc. rewrite <- typed_strip in Tc. pose proof (safe r N (strip_low_cardinality t) v Tc) as NP.
      destruct (field_from (i_name (fst f)) r (strip_low_cardinality t) v) as [y|e|] eqn:FF; [|exact I|apply field_from_panic in FF; now exfalso]. cbn [rbind]. apply IH; [now rewrite set_nth_length|]. now apply SetF. }
  assert (M0 := M 0%nat (map acc0 fs) (map_length _ _)).
  assert (F0 : Forall (fun a => match a with ANest _ _ => False | _ => True end) (map acc0 fs)).
  { apply Forall_forall. intros a Ha. apply in_map_iff in Ha as (f & <- & Hf). destruct (plain_inactive fs f P Hf) as [A [r K]]. unfold acc0. rewrite K. destruct (inactive f); exact I. }
  specialize (M0 F0). destruct (match_keys fs 0 cols (map acc0 fs)) as [accs|e|]; cbn [rbind fst snd]; [|discriminate|destruct M0]. destruct M0 as [L F]. clear - L F P.
  assert (R : forall fs accs, List.length accs = List.length fs -> Forall (fun a => match a with ANest _ _ => False | _ => True end) accs ->
     exists vals, rectify fs accs = Ok vals /\ List.length vals = List.length fs).
  { clear. induction fs as [|[i k] fs IH]; intros [|a accs] L F; try discriminate; [exists []; auto|]. cbn [rectify]. pose proof (Forall_inv F) as F1. cbv beta in F1.
    destruct (IH accs) as (vals & E & Lv); [cbn [List.length] in L; lia|exact (Forall_inv_tail F)|]. rewrite E. destruct a; [| |destruct F1]; cbn [rect1 rbind]; eexists; (split; [reflexivity|cbn [List.length]; lia]). }
  destruct (R fs accs L F) as (vals & E & Lv). rewrite E. cbn [rbind]. clear - P Lv.
  assert (X : extract fs vals <> Panic /\ forall ys, extract fs vals = Ok ys -> List.length ys = List.length fs).
  { clear P. revert vals Lv. induction fs as [|f fs IH]; intros [|o vals] Lv; try discriminate; [split; [discriminate|]; intros ys E; cbn [extract] in E; injection E as <-; reflexivity|]. cbn [extract].
    destruct (IH vals) as [N Q]; [cbn [List.length] in Lv; lia|]. destruct (if inactive f then _ else _) as [x|e|] eqn:EE; cbn [rbind].
    - destruct (extract fs vals) as [ys|e|]; cbn [rbind]; [|split; [discriminate|discriminate]|congruence]. split; [discriminate|]. intros zs Z. injection Z as <-. cbn [List.length]. f_equal. now apply Q.
    - split; discriminate.
    - destruct (inactive f); [discriminate|]. destruct o; [discriminate|]. destruct (i_default (fst f)); discriminate. }
  destruct X as [N Q]. destruct (extract fs vals) as [ys|e|]; cbn [rbind]; [|discriminate|congruence]. specialize (Q ys eq_refl). clear - P Q.
  revert ys Q. induction P as [|[i k] fs [r K] _ IH]; intros [|y ys] Q; try discriminate. cbn [snd] in K. subst k. cbn [build]. specialize (IH ys ltac:(cbn [List.length] in Q; lia)).
  destruct (i_skip_de i); [destruct (i_default i); [|discriminate]|]; destruct (build fs ys []); cbn [rbind]; congruence.
Qed.
