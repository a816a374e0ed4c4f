(** Reading a derived struct from its columns: assembling the parts. *)
From Coq Require Import String Permutation.
From Verif Require Import Base Types Text RawRow Numeric Convert ConvertSpec Migrate MigrateProofs Derive DeriveSpec DeriveProofs.
Local Open Scope list_scope.
Local Open Scope N_scope.

(** ** Taking the flattened columns out *)
Definition entry (c : column) : text * (ty * value) := (cname c, (snd (fst c), snd c)).

Lemma swap_remove_ok {A} (l : list A) j x : nth_error l j = Some x -> exists l', swap_remove l j = Some (x, l') /\ Permutation l (x :: l').
Proof.
  intros H. unfold swap_remove. rewrite H. assert (Ne : l <> []) by (intros ->; destruct j; discriminate).
  destruct (exists_last Ne) as (l0 & y & ->). rewrite removelast_last, rev_app_distr, app_length. cbn [List.length rev app].
  destruct (Nat.eqb_spec (S j) (List.length l0 + 1)) as [E|NE].
  - rewrite nth_error_app2 in H by lia. replace (j - List.length l0)%nat with 0%nat in H by lia. injection H as ->. eexists. split; [reflexivity|]. apply Permutation_sym, Permutation_cons_append.
  - assert (J : (j < List.length l0)%nat).
    { assert (j < List.length (l0 ++ [y]))%nat by (apply nth_error_Some; congruence). rewrite app_length in H0. cbn [List.length] in H0. lia. }
    rewrite nth_error_app1 in H by exact J. eexists. split; [reflexivity|]. clear NE Ne.
    revert l0 H J. induction j as [|j IH]; intros [|a l0] H J; cbn [List.length] in J; try lia; cbn [nth_error set_nth app] in *.
    + injection H as ->. constructor. apply Permutation_sym, Permutation_cons_append.
    + rewrite (IH l0 H) by lia. apply perm_swap.
Qed.
Lemma find_col_ok n cols : In n (map cname cols) -> exists j c, find_col n cols = Some j /\ nth_error cols j = Some c /\ cname c = n.
Proof.
  induction cols as [|c cols IH]; intros H; [destruct H|]. cbn [find_col]. destruct (text_eqb (cname c) n) eqn:E.
  - apply text_eqb_eq in E. exists 0%nat, c. auto.
  - cbn [map In] in H. destruct H as [H|H]; [apply text_eqb_neq in E; congruence|]. destruct (IH H) as (j & d & A & B & C). exists (S j), d. rewrite A. auto.
Qed.
Lemma fmap_insert_new n tv m : ~ In n (map fst m) -> fmap_insert n tv m = m ++ [(n, tv)].
Proof.
  induction m as [|[k x] m IH]; intros H; [reflexivity|]. cbn [fmap_insert map fst app] in *. destruct (text_eqb k n) eqn:E.
  - apply text_eqb_eq in E. exfalso. apply H. now left.
  - f_equal. apply IH. intros X. apply H. now right.
Qed.
Lemma same_name (cols : list column) a b : NoDup (map cname cols) -> In a cols -> In b cols -> cname a = cname b -> a = b.
Proof.
  induction cols as [|c cols IH]; intros ND Ha Hb E; [destruct Ha|]. cbn [map] in ND. inversion ND as [|? ? X Y]; subst. destruct Ha as [->|Ha], Hb as [->|Hb]; [reflexivity| | |now apply IH].
  - exfalso. apply X. rewrite E. now apply in_map.
  - exfalso. apply X. rewrite <- E. now apply in_map.
Qed.

Lemma pull_names_ok ns : forall cols m A B, Permutation cols (A ++ B) -> Permutation (map cname A) ns -> NoDup (map cname cols ++ map fst m) ->
  exists cols' A', pull_names ns cols m = Ok (cols', m ++ map entry A') /\ Permutation A' A /\ map cname A' = ns /\ Permutation cols' B.
Proof.
  induction ns as [|n ns IH]; intros cols m A B PC PN ND.
  - apply Permutation_sym, Permutation_nil in PN. apply map_eq_nil in PN. subst A. exists cols, []. cbn [pull_names map]. rewrite app_nil_r. repeat split; [constructor|exact PC].
  - assert (NDc : NoDup (map cname cols)) by (clear - ND; induction (map cname cols) as [|x l IHl]; cbn [app] in ND; [constructor|]; inversion ND as [|? ? X Y]; subst; constructor; [intros H; apply X, in_or_app; now left|now apply IHl]).
    assert (IA : In n (map cname A)) by (apply (Permutation_in _ (Permutation_sym PN)); now left).
    apply in_map_iff in IA as (a & En & Ha). apply in_split in Ha as (A1 & A2 & ->).
    assert (Hac : In a cols) by (apply (Permutation_in _ (Permutation_sym PC)), in_or_app; left; apply in_or_app; right; now left).
    destruct (find_col_ok n cols) as (j & c & F & Nj & Cn); [rewrite <- En; now apply in_map|].
    assert (c = a) as -> by (eapply same_name; [exact NDc|eapply nth_error_In; eauto|exact Hac|congruence]).
    destruct (swap_remove_ok cols j a Nj) as (cols' & SR & PS). cbn [pull_names]. rewrite F, SR. destruct a as [[cn t] v] eqn:Ea. unfold cname in Cn, En. cbn [fst] in Cn, En. subst cn.
    rewrite fmap_insert_new.
    2:{ intros X. assert (Y : In n (map cname cols)) by (apply in_map_iff; exists (n, t, v); split; [reflexivity|exact Hac]). clear - ND X Y.
        induction (map cname cols) as [|x l IHl]; [destruct Y|]. cbn [app] in ND. inversion ND as [|? ? P Q]; subst. destruct Y as [->|Y]; [apply P, in_or_app; now right|now apply IHl]. }
    destruct (IH cols' (m ++ [(n, (t, v))]) (A1 ++ A2) B) as (cols2 & A' & E & PA & NA & PB).
    + apply (Permutation_cons_inv (a := (n, t, v))). rewrite <- PS. rewrite PC. rewrite <- !app_assoc. cbn [app]. symmetry. apply Permutation_middle.
    + apply (Permutation_cons_inv (a := n)). rewrite <- PN. rewrite !map_app. cbn [map cname fst]. apply Permutation_middle.
    + eapply Permutation_NoDup; [|exact ND]. rewrite map_app. cbn [map fst]. rewrite (Permutation_map cname PS). cbn [map cname fst app].
      rewrite app_assoc. apply Permutation_cons_append.
    + exists cols2, ((n, t, v) :: A'). rewrite E. cbn [map entry cname fst snd]. rewrite <- app_assoc. split; [reflexivity|]. split; [|split; [f_equal; exact NA|exact PB]].
      rewrite PA. apply Permutation_middle.
Qed.

Definition inner (k : kind) : fields := match k with KPlain _ => [] | KNested fs | KFlatten fs => fs end.
Definition keep (f : info * kind) (c : list column) : list column := if is_flatten (snd f) then [] else c.
Fixpoint nonflat (fs : fields) (css : list (list column)) : list column :=
  match fs, css with f :: fs', c :: css' => keep f c ++ nonflat fs' css' | _, _ => [] end.
Definition flat_ok (f : info * kind) (c a : list column) : Prop :=
  if is_flatten (snd f) then Permutation a c /\ map cname a = column_names (inner (snd f)) else a = [].

Lemma pull_flatten_ok fs : forall xs css cols m B, all3 (fun f => kind_reads (snd f) (fst f)) fs xs css ->
  Permutation cols (concat css ++ B) -> NoDup (map cname cols ++ map fst m) ->
  exists cols' fl, pull_flatten fs cols m = Ok (cols', m ++ map entry (concat fl)) /\ Permutation cols' (nonflat fs css ++ B) /\ all3 flat_ok fs css fl.
Proof.
  induction fs as [|[i k] fs IH]; intros [|x xs] [|c css] cols m B R PC ND; try destruct R as [].
  - exists cols, []. cbn [pull_flatten concat map nonflat app all3]. rewrite app_nil_r. auto.
  - cbn [snd fst] in *. destruct k as [r|nf|ff].
    + destruct (IH xs css cols m (c ++ B)) as (cols' & fl & E & P & F); [assumption| |exact ND|].
      { rewrite PC. cbn [concat]. rewrite <- app_assoc. apply Permutation_app_swap_app. }
      exists cols', ([] :: fl). cbn [pull_flatten concat app nonflat keep is_flatten snd]. split; [exact E|]. split; [|split; [reflexivity|exact F]].
      rewrite P. rewrite <- app_assoc. apply Permutation_app_swap_app.
    + destruct (IH xs css cols m (c ++ B)) as (cols' & fl & E & P & F); [assumption| |exact ND|].
      { rewrite PC. cbn [concat]. rewrite <- app_assoc. apply Permutation_app_swap_app. }
      exists cols', ([] :: fl). cbn [pull_flatten concat app nonflat keep is_flatten snd]. split; [exact E|]. split; [|split; [reflexivity|exact F]].
      rewrite P. rewrite <- app_assoc. apply Permutation_app_swap_app.
    + match goal with H : kind_reads _ _ _ _ |- _ => destruct H as (_ & PN & _) end.
      destruct (pull_names_ok (column_names ff) cols m c (concat css ++ B)) as (cols1 & A' & E1 & PA & NA & PB); [rewrite PC; cbn [concat]; now rewrite <- app_assoc|exact PN|exact ND|].
      destruct (IH xs css cols1 (m ++ map entry A') B) as (cols' & fl & E & P & F); [assumption|exact PB| |].
      { eapply Permutation_NoDup; [|exact ND]. rewrite (Permutation_map cname PC). cbn [concat]. rewrite <- app_assoc, map_app.
        rewrite (Permutation_map cname PB). rewrite (map_app fst m), (map_map entry fst). assert (X : map (fun x0 => fst (entry x0)) A' = map cname A') by (apply map_ext; intros [[? ?] ?]; reflexivity). rewrite X.
        rewrite <- (Permutation_map cname PA). rewrite <- !app_assoc. rewrite (Permutation_app_swap_app (map cname A')). apply Permutation_app_head. apply Permutation_app_comm. }
      exists cols', (A' :: fl). cbn [pull_flatten]. rewrite E1. cbn [rbind fst snd]. rewrite E. cbn [concat nonflat keep is_flatten snd app]. rewrite map_app, app_assoc.
      split; [reflexivity|]. split; [exact P|]. split; [|exact F]. unfold flat_ok. cbn [is_flatten snd inner]. auto.
Qed.

Lemma take_names_ok A m : take_names (map cname A) (map entry A ++ m) = Ok (A, m).
Proof.
  induction A as [|[[n t] v] A IH]; [reflexivity|]. cbn [map app take_names entry cname fst snd]. unfold entry at 1; cbn [fmap_remove cname fst snd]. rewrite text_eqb_refl.
  rewrite IH. reflexivity.
Qed.

(** ** What the variables hold after the loop *)
Lemma reads_named f x cs : is_flatten (snd f) = false -> kind_reads (snd f) (fst f) x cs -> forall c, In c cs -> named f (cname c) = true.
Proof.
  destruct f as [i k]. cbn [fst snd]. intros NF H c Hc. unfold named, inactive. cbn [fst snd]. destruct k as [r|nf|ff]; [| |discriminate]; cbn [kind_reads] in H; destruct (i_skip_de i).
  - destruct H as [-> _]. destruct Hc.
  - cbn [orb negb is_flatten]. destruct H as [(t & v & y & -> & _)|[-> _]]; [|destruct Hc]. destruct Hc as [<-|[]]. cbn [cname fst andb]. apply text_eqb_refl.
  - destruct H as [-> _]. destruct Hc.
  - destruct H as (rows & table & _ & _ & -> & _). apply in_map_iff in Hc as (d & <- & _). unfold nested_column, cname. cbn [fst orb negb andb is_flatten]. apply prefix_spec. eauto.
Qed.
Lemma nonflat_named fs : forall xs css, all3 (fun f => kind_reads (snd f) (fst f)) fs xs css -> forall c, In c (nonflat fs css) -> exists f, In f fs /\ named f (cname c) = true.
Proof.
  induction fs as [|f fs IH]; intros [|x xs] [|cs css] R c Hc; try (destruct R as []; fail); try destruct Hc. destruct R as [R1 R2]. cbn [nonflat] in Hc. apply in_app_or in Hc as [Hc|Hc].
  - unfold keep in Hc. destruct (is_flatten (snd f)) eqn:F; [destruct Hc|]. exists f. split; [now left|]. eapply reads_named; eauto.
  - destruct (IH xs css R2 c Hc) as (g & G1 & G2). exists g. split; [now right|exact G2].
Qed.
Lemma filter_all {A} (p : A -> bool) l : (forall x, In x l -> p x = true) -> filter p l = l.
Proof. induction l as [|a l IH]; intros H; [reflexivity|]. cbn [filter]. rewrite (H a (or_introl eq_refl)). f_equal. apply IH. intros x Hx. apply H. now right. Qed.
Lemma filter_none {A} (p : A -> bool) l : (forall x, In x l -> p x = false) -> filter p l = [].
Proof. induction l as [|a l IH]; intros H; [reflexivity|]. cbn [filter]. rewrite (H a (or_introl eq_refl)). apply IH. intros x Hx. apply H. now right. Qed.

Lemma nonflat_filter fs : names_ok fs -> forall xs css, all3 (fun f => kind_reads (snd f) (fst f)) fs xs css ->
  forall j f c, nth_error fs j = Some f -> nth_error css j = Some c -> inactive f = false -> filter (fun d => named f (cname d)) (nonflat fs css) = c.
Proof.
  intros OK. assert (G : forall gs pre, fs = pre ++ gs -> forall xs css, all3 (fun f => kind_reads (snd f) (fst f)) gs xs css ->
    forall f c, inactive f = false -> (exists j, nth_error fs j = Some f /\ ((exists j', j = (List.length pre + j')%nat /\ nth_error css j' = Some c) \/ ((j < List.length pre)%nat /\ c = []))) ->
    filter (fun d => named f (cname d)) (nonflat gs css) = c).
  { induction gs as [|g gs IH]; intros pre E [|x xs] [|cs css] R f c A (j & Hj & Hc); try (destruct R as []; fail).
    - cbn [nonflat filter]. destruct Hc as [(j' & _ & N)|[_ ->]]; [destruct j'; discriminate|reflexivity].
    - destruct R as [R1 R2]. cbn [nonflat]. rewrite filter_app.
      assert (Hg : nth_error fs (List.length pre) = Some g) by (rewrite E, nth_error_app2, Nat.sub_diag by lia; reflexivity).
      assert (E' : fs = (pre ++ [g]) ++ gs) by (rewrite <- app_assoc; exact E).
      assert (Diff : j <> List.length pre -> filter (fun d => named f (cname d)) (keep g cs) = []).
      { intros NE. apply filter_none. intros d Hd. unfold keep in Hd. destruct (is_flatten (snd g)) eqn:Fg; [destruct Hd|].
        destruct (named f (cname d)) eqn:Nf; [|reflexivity]. exfalso. apply NE.
        pose proof (find_name_unique fs (cname d) OK j f Hj Nf) as P1. pose proof (find_name_unique fs (cname d) OK _ g Hg (reads_named g x cs Fg R1 d Hd)) as P2. congruence. }
      destruct Hc as [(j' & Ej & N)|[L ->]].
      + destruct j' as [|j'].
        * rewrite Nat.add_0_r in Ej. cbn [nth_error] in N. injection N as ->. assert (g = f) as -> by congruence.
          assert (Ff : is_flatten (snd f) = false) by (unfold inactive in A; now apply orb_false_iff in A).
          rewrite (IH (pre ++ [f]) E' xs css R2 f [] A). 2:{ exists j. split; [exact Hj|]. right. rewrite app_length. cbn [List.length]. split; [lia|reflexivity]. }
          rewrite app_nil_r. unfold keep. rewrite Ff. apply filter_all. intros d Hd. eapply reads_named; eauto.
        * rewrite Diff by lia. cbn [app]. apply (IH (pre ++ [g]) E' xs css R2 f c A). exists j. split; [exact Hj|]. left. exists j'. rewrite app_length. cbn [List.length nth_error] in *. split; [lia|exact N].
      + rewrite Diff by lia. cbn [app]. apply (IH (pre ++ [g]) E' xs css R2 f [] A). exists j. split; [exact Hj|]. right. rewrite app_length. cbn [List.length]. split; [lia|reflexivity]. }
  intros xs css R j f c Hj Hc A. apply (G fs [] eq_refl xs css R f c A). exists j. split; [exact Hj|]. left. exists j. auto.
Qed.

Definition stripped (c : text * ty * list value) : text * ty * list value := (fst (fst c), strip_low_cardinality (snd (fst c)), snd c).
(** The variable of field [f] when its value is [x]. *)
Definition holds_value (f : info * kind) (x : sval) (a : acc) : Prop :=
  if inactive f then a = ASkip else
  match snd f with
  | KPlain _ => (exists y, a = ACell (Some y) /\ x = SPlain y) \/ (a = ACell None /\ i_default (fst f) = Some x)
  | KNested nf => exists rows table ncols, x = SVec rows /\ table <> [] /\ a = ANest ncols (List.length rows) /\ Permutation ncols (map stripped table) /\
                  NoDup (map (fun c => fst (fst c)) table) /\ Forall (fun c => List.length (snd c) = List.length rows) table /\
                  (forall k row, nth_error rows k = Some row -> reads nf row (row_of table k))
  | KFlatten _ => False
  end.

Lemma put_all_nested i nf n L : forall cols len, Forall (fun c => List.length (snd c) = n) L -> (cols <> [] -> len = n) ->
  put_all (i, KNested nf) (map (fun c => (true, nested_column (i_name i) c)) L) (ANest cols len) =
  Ok (ANest (cols ++ map stripped L) (match L with [] => len | _ => n end)).
Proof.
  induction L as [|[[c t] vs] L IH]; intros cols len F Hl; [cbn [map put_all]; now rewrite app_nil_r|].
  pose proof (Forall_inv F) as F1. pose proof (Forall_inv_tail F) as F2. cbv beta in F1. cbn [snd] in F1. cbn [map put_all nested_column put_column fst snd].
  assert (T : match cols with [] => true | _ => (len =? List.length vs)%nat end = true).
  { destruct cols as [|d cols]; [reflexivity|]. apply Nat.eqb_eq. rewrite F1. apply Hl. discriminate. }
  rewrite T. cbn [rbind]. rewrite skipn_app, skipn_all, Nat.sub_diag. cbn [skipn app]. rewrite IH; [|exact F2|intros _; exact F1].
  rewrite <- app_assoc. cbn [map app stripped fst snd]. rewrite F1. destruct L; reflexivity.
Qed.

Lemma perm_map_inv {A B} (g : A -> B) l : forall m, Permutation l (map g m) -> exists m', l = map g m' /\ Permutation m' m.
Proof.
  intros m P. remember (map g m) as gm eqn:E. revert m E. induction P as [|x l l' P IH|x y l|l l' l'' P1 IH1 P2 IH2]; intros m E.
  - symmetry in E. apply map_eq_nil in E as ->. exists []. split; [reflexivity|constructor].
  - destruct m as [|a m]; [discriminate|]. cbn [map] in E. injection E as -> ->. destruct (IH m eq_refl) as (m' & -> & Pm). exists (a :: m'). split; [reflexivity|now constructor].
  - destruct m as [|a [|b m]]; try discriminate. cbn [map] in E. injection E as -> -> ->. exists (b :: a :: m). split; [reflexivity|apply perm_swap].
  - subst. destruct (IH2 m eq_refl) as (m2 & -> & Pm2). destruct (IH1 m2 eq_refl) as (m1 & -> & Pm1). exists m1. split; [reflexivity|]. now rewrite Pm1.
Qed.

Lemma NoDup_map_inj {A B} (g : A -> B) l : NoDup (map g l) -> NoDup l.
Proof. induction l as [|a l IH]; intros H; [constructor|]. cbn [map] in H. inversion H as [|? ? X Y]; subst. constructor; [intros Z; apply X; now apply in_map|now apply IH]. Qed.

Lemma field_from_ok n r t v y : from_sql r t v = Ok y -> field_from n r t v = Ok y.
Proof. intros E. unfold field_from. rewrite E. now destruct (by_attribute r). Qed.
Lemma field_from_inv n r t v y : field_from n r t v = Ok y -> from_sql r t v = Ok y.
Proof. unfold field_from. destruct (by_attribute r); [auto|]. destruct (from_sql r t v) as [z|e|]; cbn [with_column]; auto. destruct e; discriminate. Qed.
Lemma field_from_panic n r t v : field_from n r t v = Panic -> from_sql r t v = Panic.
Proof. unfold field_from. destruct (by_attribute r); [auto|]. destruct (from_sql r t v) as [z|e|]; cbn [with_column]; auto. destruct e; discriminate. Qed.
Lemma put_reads f x c L : inactive f = false -> kind_reads (snd f) (fst f) x c -> NoDup (map cname c) -> Permutation L c ->
  exists a, put_all f (map (pair true) L) (acc0 f) = Ok a /\ holds_value f x a.
Proof.
  destruct f as [i k]. intros A R ND P. unfold acc0, holds_value. rewrite A. unfold inactive in A. cbn [fst snd] in *. apply orb_false_iff in A as [A1 A2].
  destruct k as [r|nf|ff]; [| |discriminate]; cbn [kind_reads] in R; rewrite A1 in R.
  - destruct R as [(t & v & y & -> & E & ->)|[-> D]].
    + apply Permutation_sym, Permutation_length_1_inv in P as ->. cbn [map put_all put_column snd]. rewrite (field_from_ok _ _ _ _ _ E). cbn [rbind]. eauto 6.
    + apply Permutation_sym, Permutation_nil in P as ->. cbn [map put_all]. eauto.
  - destruct R as (rows & table & -> & NE & -> & F & R).
    apply perm_map_inv in P as (T' & -> & PT). rewrite map_map.
    rewrite (put_all_nested i nf (List.length rows)); [|apply (Permutation_Forall (Permutation_sym PT)); exact F|congruence].
    eexists. split; [reflexivity|]. exists rows, table, (map stripped T'). cbn [app].
    assert (NT : T' <> []) by (intros ->; apply Permutation_nil in PT; contradiction). destruct T' as [|d T']; [congruence|].
    split; [reflexivity|]. split; [exact NE|]. split; [reflexivity|]. split; [now apply Permutation_map|]. split; [|split; [exact F|exact R]].
    rewrite map_map in ND. apply (NoDup_map_inj (fun c => dotted (i_name i) ++ c)). rewrite map_map. exact ND.
Qed.

Fixpoint all3_nth {A B C} (P : A -> B -> C -> Prop) l m n {struct l} : all3 P l m n -> forall j a, nth_error l j = Some a -> exists b c, nth_error m j = Some b /\ nth_error n j = Some c /\ P a b c.
Proof.
  destruct l as [|x l], m as [|y m], n as [|z n]; intros H; try destruct H as []; intros [|j] a E; try discriminate.
  - injection E as <-. exists y, z. auto.
  - cbn [nth_error] in E |- *. eapply all3_nth; eauto.
Qed.
Lemma all3_of_nth {A B C} (P : A -> B -> C -> Prop) : forall l m n, List.length m = List.length l -> List.length n = List.length l ->
  (forall j a b c, nth_error l j = Some a -> nth_error m j = Some b -> nth_error n j = Some c -> P a b c) -> all3 P l m n.
Proof.
  induction l as [|x l IH]; intros [|y m] [|z n] L1 L2 H; try discriminate; cbn [all3]; [exact I|]. split.
  - exact (H 0%nat x y z eq_refl eq_refl eq_refl).
  - apply IH; [cbn [List.length] in L1; lia|cbn [List.length] in L2; lia|]. intros j a b c. exact (H (S j) a b c).
Qed.
Lemma all3_length {A B C} (P : A -> B -> C -> Prop) : forall l m n, all3 P l m n -> List.length m = List.length l /\ List.length n = List.length l.
Proof. induction l as [|x l IH]; intros [|y m] [|z n] H; try destruct H as []; [auto|]. destruct (IH m n) as [A0 B0]; [assumption|]. cbn [List.length]. auto. Qed.

Lemma nodup_app {A} (l m : list A) : NoDup (l ++ m) -> NoDup l /\ NoDup m.
Proof.
  induction l as [|a l IH]; intros H; [split; [constructor|exact H]|]. cbn [app] in H. inversion H as [|? ? X Y]; subst. destruct (IH Y) as [A0 B0]. split; [|exact B0].
  constructor; [intros Z; apply X, in_or_app; now left|exact A0].
Qed.
Lemma nodup_concat (css : list (list column)) : NoDup (map cname (concat css)) -> forall j c, nth_error css j = Some c -> NoDup (map cname c).
Proof.
  induction css as [|d css IH]; intros H [|j] c E; try discriminate; cbn [concat] in H; rewrite map_app in H; apply nodup_app in H as [H1 H2]; cbn [nth_error] in E.
  - injection E as <-. exact H1.
  - eapply IH; eauto.
Qed.

Lemma choose {A} (Q : nat -> info * kind -> sval -> A -> Prop) fs : forall xs (css : list (list column)), List.length xs = List.length fs -> List.length css = List.length fs ->
  (forall j f x c, nth_error fs j = Some f -> nth_error xs j = Some x -> nth_error css j = Some c -> exists a, Q j f x a) ->
  exists accs, List.length accs = List.length fs /\ forall j f x a, nth_error fs j = Some f -> nth_error xs j = Some x -> nth_error accs j = Some a -> Q j f x a.
Proof.
  revert Q. induction fs as [|f fs IH]; intros Q [|x xs] [|c css] Lx Lc Each; try discriminate.
  - exists []. split; [reflexivity|]. intros [|j]; discriminate.
  - destruct (Each 0%nat f x c eq_refl eq_refl eq_refl) as (a & A1).
    destruct (IH (fun j => Q (S j)) xs css) as (accs & L & H); [cbn [List.length] in Lx; lia|cbn [List.length] in Lc; lia|intros j; apply (Each (S j))|].
    exists (a :: accs). split; [cbn [List.length]; congruence|]. intros [|j] g y b Hg Hy Hb; cbn [nth_error] in *.
    + injection Hg as <-. injection Hy as <-. injection Hb as <-. auto.
    + eapply H; eauto.
Qed.

Lemma gather_ok fs xs css cols : names_ok fs -> all3 (fun f => kind_reads (snd f) (fst f)) fs xs css -> NoDup (map cname (concat css)) -> Permutation cols (concat css) ->
  exists accs fl, gather fs cols = Ok (accs, map entry (concat fl)) /\ all3 holds_value fs xs accs /\ all3 flat_ok fs css fl.
Proof.
  intros OK R ND P. destruct (all3_length _ _ _ _ R) as [Lx Lc].
  destruct (pull_flatten_ok fs xs css cols [] [] R) as (cols1 & fl & E & P1 & F); [now rewrite app_nil_r|cbn [map]; rewrite app_nil_r; now rewrite (Permutation_map cname P)|].
  rewrite app_nil_r in P1. cbn [app] in E.
  assert (Nm : forall c, In c cols1 -> exists f, In f fs /\ named f (cname c) = true).
  { intros c Hc. apply (nonflat_named fs xs css R). now apply (Permutation_in _ P1). }
  assert (Each : forall j f x c, nth_error fs j = Some f -> nth_error xs j = Some x -> nth_error css j = Some c -> exists a, put_all f (mine fs j 0 cols1) (acc0 f) = Ok a /\ holds_value f x a).
  { intros j f x c Hf Hx Hc. rewrite (mine_named fs OK cols1 0 Nm j f Hf). destruct (all3_nth _ _ _ _ R j f Hf) as (x' & c' & Hx' & Hc' & Rj).
    assert (x' = x) as -> by congruence. assert (c' = c) as -> by congruence. destruct (inactive f) eqn:A.
    - exists ASkip. split; [|unfold holds_value; now rewrite A]. unfold acc0. rewrite A.
      rewrite filter_none; [reflexivity|]. intros d _. unfold named. now rewrite A.
    - apply (put_reads f x c); [exact A|exact Rj|eapply nodup_concat; eauto|].
      rewrite (perm_filter _ _ _ P1). now rewrite (nonflat_filter fs OK xs css R j f c Hf Hc A). }
  assert (Acc : exists accs, List.length accs = List.length fs /\ forall j f x a0, nth_error fs j = Some f -> nth_error xs j = Some x -> nth_error accs j = Some a0 -> put_all f (mine fs j 0 cols1) (acc0 f) = Ok a0 /\ holds_value f x a0).
  { apply (choose (fun j f x a => put_all f (mine fs j 0 cols1) (acc0 f) = Ok a /\ holds_value f x a) fs xs css Lx Lc). exact Each. }
  destruct Acc as (accs & La & Ha). exists accs, fl. split; [|split].
  - unfold gather. destruct OK as (_ & _ & SK). assert (S1 : forallb size_known fs = true) by (apply forallb_forall; apply (proj1 (Forall_forall _ _) SK)). rewrite S1.
    rewrite E. cbn [rbind fst snd]. assert (MK : match_keys fs 0 cols1 (map acc0 fs) = Ok accs).
    { apply match_keys_iff; [now rewrite map_length|]. split; [exact La|]. intros j f a Hf Hacc. rewrite nth_error_map, Hf in Hacc. cbn [option_map] in Hacc. injection Hacc as <-.
      destruct (nth_error xs j) as [x|] eqn:Hx; [|apply nth_error_None in Hx; assert (j < List.length fs)%nat by (apply nth_error_Some; congruence); lia].
      destruct (nth_error accs j) as [a0|] eqn:H0; [|apply nth_error_None in H0; assert (j < List.length fs)%nat by (apply nth_error_Some; congruence); lia].
      exists a0. split; [reflexivity|]. now apply (Ha j f x a0). }
    rewrite MK. reflexivity.
  - apply all3_of_nth; [exact Lx|exact La|]. intros j f x a Hf Hx H0. now apply (Ha j f x a).
  - exact F.
Qed.

(** ** The recursive part *)
Definition rect1 (k' : kind) (a : acc) : res (option sval) :=
  match a with
  | ASkip => Ok None
  | ACell o => Ok (option_map SPlain o)
  | ANest [] _ => match kind_deserialize k' [] with Ok _ => Panic | Err e => Err e | Panic => Panic end
  | ANest ncols len => rows <- mapM (fun i => r <- nested_row ncols i ;; kind_deserialize k' r) (seq 0 len) ;; Ok (Some (SVec rows))
  end.
Fixpoint rectify (fs : fields) (accs : list acc) : res (list (option sval)) :=
  match fs, accs with
  | [], _ => Ok []
  | (_, k') :: fs', a :: accs' => o <- rect1 k' a ;; os <- rectify fs' accs' ;; Ok (o :: os)
  | _ :: _, [] => Panic
  end.
Fixpoint build (fs : fields) (xs : list sval) (m : flatmap) : res (list sval) :=
  match fs, xs with
  | [], _ => Ok []
  | (i, k') :: fs', x :: xs' =>
      if i_skip_de i then
        match i_default i with
        | Some d => ys <- build fs' xs' m ;; Ok (d :: ys)
        | None => Err (EMissingField (i_name i))
        end
      else match k' with
        | KFlatten fs1 =>
            cm <- take_names (column_names fs1) m ;;
            sub <- kind_deserialize k' (fst cm) ;;
            ys <- build fs' xs' (snd cm) ;; Ok (SSub sub :: ys)
        | _ => ys <- build fs' xs' m ;; Ok (x :: ys)
        end
  | _ :: _, [] => Panic
  end.
Lemma kind_deserialize_eq k cols : (exists fs, k = KNested fs \/ k = KFlatten fs) ->
  kind_deserialize k cols = (am <- gather (inner k) cols ;; vals <- rectify (inner k) (fst am) ;; xs <- extract (inner k) vals ;; build (inner k) xs (snd am)).
Proof. intros (fs & [-> | ->]); reflexivity. Qed.

Definition decodes (k : kind) : Prop :=
  match k with
  | KPlain _ => True
  | KNested fs | KFlatten fs => kind_sane k -> forall xs cs cols, reads fs xs cs -> NoDup (map cname cs) -> Permutation cols cs -> kind_deserialize k cols = Ok xs
  end.

Lemma nested_row_ok ncols table k : Permutation ncols (map stripped table) -> Forall (fun c => (k < List.length (snd c))%nat) table ->
  exists r, nested_row ncols k = Ok r /\ Permutation r (row_of table k).
Proof.
  intros P F. apply perm_map_inv in P as (T' & -> & PT). exists (row_of T' k). split; [|now apply Permutation_map].
  assert (F' : Forall (fun c => (k < List.length (snd c))%nat) T') by (apply (Permutation_Forall (Permutation_sym PT)); exact F).
  clear F PT table. unfold nested_row, row_of. induction F' as [|[[c t] vs] T' H _ IH]; [reflexivity|]. cbn [map mapM stripped fst snd] in *.
  rewrite (nth_error_nth' vs VNull H). cbn [rbind]. rewrite IH. reflexivity.
Qed.

Lemma rect1_nested nf rows table ncols : decodes (KNested nf) -> kind_sane (KNested nf) -> table <> [] -> Permutation ncols (map stripped table) ->
  NoDup (map (fun c => fst (fst c)) table) -> Forall (fun c => List.length (snd c) = List.length rows) table ->
  (forall k row, nth_error rows k = Some row -> reads nf row (row_of table k)) ->
  rect1 (KNested nf) (ANest ncols (List.length rows)) = Ok (Some (SVec rows)).
Proof.
  intros D S NE P ND F R. unfold rect1. destruct ncols as [|c0 ncols]; [apply Permutation_nil, map_eq_nil in P; contradiction|]. set (nc := c0 :: ncols) in *.
  assert (M : mapM (fun i => r <- nested_row nc i ;; kind_deserialize (KNested nf) r) (seq 0 (List.length rows)) = Ok rows).
  { assert (G : forall n s, (forall k row, nth_error n k = Some row -> nth_error rows (s + k) = Some row) -> (s + List.length n <= List.length rows)%nat ->
       mapM (fun i => r <- nested_row nc i ;; kind_deserialize (KNested nf) r) (seq s (List.length n)) = Ok n).
    { induction n as [|row n IH]; intros s H L; [reflexivity|]. cbn [List.length seq mapM].
      pose proof (H 0%nat row eq_refl) as Hr. rewrite Nat.add_0_r in Hr.
      destruct (nested_row_ok nc table s P) as (r & Er & Pr); [eapply Forall_impl; [|exact F]; cbv beta; intros c Hc; rewrite Hc; cbn [List.length] in L; lia|].
      rewrite Er. cbn [rbind]. rewrite (D S row (row_of table s) r (R s row Hr)); [|unfold row_of; rewrite map_map; exact ND|exact Pr]. cbn [rbind].
      rewrite IH; [reflexivity| |cbn [List.length] in L; lia]. intros k row' Hk. rewrite Nat.add_succ_l, <- Nat.add_succ_r. apply H. exact Hk. }
    apply G; [auto|lia]. }
  rewrite M. reflexivity.
Qed.

Definition stored (f : info * kind) (x : sval) (o : option sval) : Prop :=
  if inactive f then o = None else o = Some x \/ (o = None /\ i_default (fst f) = Some x).
Lemma rectify_ok fs : Forall (fun f => decodes (snd f)) fs -> Forall (fun f => kind_sane (snd f)) fs -> forall xs accs, all3 holds_value fs xs accs ->
  exists vals, rectify fs accs = Ok vals /\ all3 stored fs xs vals.
Proof.
  induction fs as [|[i k] fs IH]; intros D S [|x xs] [|a accs] H; try (destruct H as []; fail); [exists []; now split|].
  destruct H as [H1 H2]. pose proof (Forall_inv D) as D1. pose proof (Forall_inv S) as S1. cbv beta in D1, S1. cbn [snd] in D1, S1.
  destruct (IH (Forall_inv_tail D) (Forall_inv_tail S) xs accs H2) as (vals & E & St). cbn [rectify].
  assert (X : exists o, rect1 k a = Ok o /\ stored (i, k) x o).
  { unfold holds_value in H1. unfold stored. destruct (inactive (i, k)); [subst a; exists None; now split|]. cbn [fst snd] in *. destruct k as [r|nf|ff].
    - destruct H1 as [(y & -> & ->)|[-> Df]]; cbn [rect1 option_map]; eauto 6.
    - destruct H1 as (rows & table & ncols & -> & NE & -> & P & ND & F & R). exists (Some (SVec rows)). split; [|now left]. now apply (rect1_nested nf rows table ncols).
    - destruct H1. }
  destruct X as (o & Eo & So). rewrite Eo. cbn [rbind]. rewrite E. cbn [rbind]. exists (o :: vals). split; [reflexivity|]. now split.
Qed.
Definition extracted (f : info * kind) (x y : sval) : Prop := inactive f = false -> y = x.
Lemma extract_ok fs : forall xs vals, all3 stored fs xs vals -> exists ys, extract fs vals = Ok ys /\ all3 extracted fs xs ys.
Proof.
  induction fs as [|f fs IH]; intros [|x xs] [|o vals] H; try (destruct H as []; fail); [exists []; now split|].
  destruct H as [H1 H2]. destruct (IH xs vals H2) as (ys & E & X). cbn [extract]. unfold stored in H1. destruct (inactive f) eqn:A.
  - cbn [rbind]. rewrite E. cbn [rbind]. eexists. split; [reflexivity|]. split; [|exact X]. intros C. congruence.
  - destruct H1 as [->|[-> Df]]; [|rewrite Df]; cbn [rbind]; rewrite E; cbn [rbind]; eexists; (split; [reflexivity|]); (split; [intros _; reflexivity|exact X]).
Qed.
Lemma build_ok fs : Forall (fun f => decodes (snd f)) fs -> Forall (fun f => kind_sane (snd f)) fs -> forall xs css ys fl,
  all3 (fun f => kind_reads (snd f) (fst f)) fs xs css -> all3 extracted fs xs ys -> all3 flat_ok fs css fl -> NoDup (map cname (concat css)) ->
  build fs ys (map entry (concat fl)) = Ok xs.
Proof.
  induction fs as [|[i k] fs IH]; intros D S [|x xs] [|c css] [|y ys] [|a fl] R X F ND; try (destruct R as []; fail); try (destruct X as []; fail); try (destruct F as []; fail); [reflexivity|].
  destruct R as [R1 R2], X as [X1 X2], F as [F1 F2]. cbn [concat] in ND. rewrite map_app in ND. apply nodup_app in ND as [N1 N2].
  specialize (IH (Forall_inv_tail D) (Forall_inv_tail S) xs css ys fl R2 X2 F2 N2).
  pose proof (Forall_inv D) as D1. pose proof (Forall_inv S) as S1. cbv beta in D1, S1. cbn [snd fst] in *. cbn [build concat].
  unfold extracted, inactive in X1. unfold flat_ok in F1. cbn [snd fst] in *. destruct k as [r|nf|ff]; cbn [kind_reads is_flatten orb] in *.
  - subst a. cbn [app map]. destruct (i_skip_de i).
    + destruct R1 as [_ ->]. rewrite IH. reflexivity.
    + rewrite IH, (X1 eq_refl). reflexivity.
  - subst a. cbn [app map]. destruct (i_skip_de i).
    + destruct R1 as [_ ->]. rewrite IH. reflexivity.
    + rewrite IH, (X1 eq_refl). reflexivity.
  - destruct R1 as (-> & _ & sub & -> & Rs). destruct F1 as [PA NA]. cbn [inner] in NA. rewrite map_app, <- NA, take_names_ok. cbn [rbind fst snd].
    rewrite (D1 S1 sub c a Rs N1 PA). cbn [rbind]. rewrite IH. reflexivity.
Qed.
Lemma sane_inv fs : kind_sane (KNested fs) -> names_ok fs /\ Forall (fun f => kind_sane (snd f)) fs.
Proof.
  cbn [kind_sane]. intros [A B]. split; [exact A|]. clear A. induction fs as [|f fs IH]; [constructor|]. destruct B as [B1 B2]. constructor; [exact B1|now apply IH].
Qed.
Lemma main_ok fs : Forall (fun f => decodes (snd f)) fs -> kind_sane (KNested fs) -> forall xs cs cols, reads fs xs cs -> NoDup (map cname cs) -> Permutation cols cs ->
  (am <- gather fs cols ;; vals <- rectify fs (fst am) ;; xs <- extract fs vals ;; build fs xs (snd am)) = Ok xs.
Proof.
  intros D S xs cs cols (css & -> & R) ND P. apply sane_inv in S as [OK S].
  destruct (gather_ok fs xs css cols OK R ND P) as (accs & fl & E & H & F). rewrite E. cbn [rbind fst snd].
  destruct (rectify_ok fs D S xs accs H) as (vals & E2 & St). rewrite E2. cbn [rbind].
  destruct (extract_ok fs xs vals St) as (ys & E3 & X). rewrite E3. cbn [rbind]. now apply (build_ok fs D S xs css ys fl).
Qed.

Lemma decode_all k : decodes k.
Proof.
  induction k as [r|fs IH|fs IH] using kind_ind'; [exact I| |]; intros S xs cs cols R ND P; rewrite kind_deserialize_eq by eauto; cbn [inner]; now apply (main_ok fs IH S xs cs).
Qed.
Lemma deserialize_reads fs xs cs cols : sane fs -> reads fs xs cs -> NoDup (map cname cs) -> Permutation cols cs -> deserialize fs cols = Ok xs.
Proof. intros S. exact (decode_all (KNested fs) S xs cs cols). Qed.
