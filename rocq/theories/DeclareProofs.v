(** Proofs about declared structs (Declare.v, DeclareSpec.v). *)
From Coq Require Import String Permutation.
From Verif Require Import Base Types Text Rename RawRow Numeric Convert ConvertSpec ConvertSafe Migrate Attrs AttrSpec AttrProofs Derive DeriveSpec DeriveProofs4 Declare DeclareSpec.
Local Open Scope list_scope.
Local Open Scope N_scope.

(** ** Lists *)
Lemma Forall2_of_nth {A B} (R : A -> B -> Prop) l m : List.length l = List.length m ->
  (forall i a b, nth_error l i = Some a -> nth_error m i = Some b -> R a b) -> Forall2 R l m.
Proof.
  revert m; induction l as [|a l IH]; intros [|b m] L H; cbn in L; try discriminate; constructor.
  - apply (H 0%nat); reflexivity.
  - apply IH; [congruence|]. intros i x y X Y. apply (H (S i)); assumption.
Qed.
Lemma Forall2_nth {A B} (R : A -> B -> Prop) l m : Forall2 R l m -> List.length l = List.length m /\
  (forall i a b, nth_error l i = Some a -> nth_error m i = Some b -> R a b).
Proof.
  induction 1 as [|a b l m H F [L N]]; [split; [reflexivity|intros [|i]; discriminate]|].
  split; [cbn; congruence|]. intros [|i] x y X Y; cbn in X, Y; [injection X as <-; injection Y as <-; exact H|]. eapply N; eassumption.
Qed.
Lemma nth_other {A B} (l : list A) (m : list B) i a : List.length l = List.length m -> nth_error l i = Some a -> exists b, nth_error m i = Some b.
Proof.
  intros L H. assert (i < List.length m)%nat as K by (rewrite <- L; apply nth_error_Some; congruence).
  apply nth_error_Some in K. destruct (nth_error m i) as [b|]; [eauto|congruence].
Qed.

Section TypeInd.
  Variable P : ftype -> Prop.
  Hypothesis HP : forall r, P (FPlain r).
  Hypothesis HV : forall a std ds, Forall (fun d => P (snd d)) ds -> P (FVec a std ds).
  Hypothesis HR : forall a std ds, Forall (fun d => P (snd d)) ds -> P (FRow a std ds).
  Fixpoint ftype_ind' (t : ftype) : P t :=
    let all := fix all (ds : list (fhead * ftype)) : Forall (fun d => P (snd d)) ds :=
      match ds with [] => Forall_nil _ | d :: r => Forall_cons d (ftype_ind' (snd d)) (all r) end in
    match t with FPlain r => HP r | FVec a std ds => HV a std ds (all ds) | FRow a std ds => HR a std ds (all ds) end.
End TypeInd.

Section Proofs.
  Context {where_ type_ : Type} (parse_path : text -> option path)
          (parse_where : text -> option where_) (parse_type : text -> option type_) (u : funs).
  Notation says_s := (says_struct parse_path parse_where parse_type).
  Notation says_f := (says_field parse_path parse_where).
  Notation field := (@field where_).
  Notation compile_type := (compile_type parse_path parse_where parse_type u).
  Notation compile_struct := (compile_struct parse_path parse_where parse_type u).
  Notation default_of := (default_of u).

  (** ** Settings *)
  Lemma has_setting {S A} (mk : A -> S) (is : S -> option A) : (forall s a, is s = Some a <-> s = mk a) ->
    forall l, (exists a, In (mk a) l) \/ (forall a, ~ In (mk a) l).
  Proof.
    intros H l. induction l as [|s l [[a IH]|IH]]; [right; intros a []|left; exists a; right; exact IH|].
    destruct (is s) as [a|] eqn:E; [left; exists a; left; apply H in E; congruence|]. right. intros a [->|I]; [|exact (IH a I)].
    assert (is (mk a) = Some a) by now apply H. congruence.
  Qed.
  Lemma has_fdefault (l : list (@fsetting where_)) : (exists d, In (FDefault d) l) \/ (forall d, ~ In (FDefault d) l).
  Proof. apply (has_setting FDefault (fun s => match s with FDefault d => Some d | _ => None end)). intros [] a; split; congruence. Qed.
  Lemma has_frename (l : list (@fsetting where_)) : (exists d, In (FRename d) l) \/ (forall d, ~ In (FRename d) l).
  Proof. apply (has_setting FRename (fun s => match s with FRename d => Some d | _ => None end)). intros [] a; split; congruence. Qed.
  Lemma has_cdefault (l : list (@csetting where_ type_)) : (exists d, In (CDefault d) l) \/ (forall d, ~ In (CDefault d) l).
  Proof. apply (has_setting CDefault (fun s => match s with CDefault d => Some d | _ => None end)). intros [] a; split; congruence. Qed.
  Lemma has_crename (l : list (@csetting where_ type_)) : (exists d, In (CRenameAll d) l) \/ (forall d, ~ In (CRenameAll d) l).
  Proof. apply (has_setting CRenameAll (fun s => match s with CRenameAll d => Some d | _ => None end)). intros [] a; split; congruence. Qed.

  Lemma frename_one a l t t' : says_f a l -> In (FRename t) l -> In (FRename t') l -> t = t'.
  Proof.
    intros (_ & ND & _) A B. apply in_split in A as (l1 & l2 & ->). rewrite map_app in ND. cbn [map] in ND. apply NoDup_remove_2 in ND.
    apply in_app_or in B as [B|[B|B]]; [|congruence|]; exfalso; apply ND; rewrite <- map_app; apply (in_map fsort) in B; cbn [fsort] in *; rewrite map_app; apply in_or_app; tauto.
  Qed.
  Lemma field_named_fun r i a l n n' : says_f a l -> field_named r i l n -> field_named r i l n' -> n = n'.
  Proof.
    intros SF [A|[A A']] [B|[B B']]; [eapply frename_one; eassumption|now elim (B n)|now elim (A n')|congruence].
  Qed.

  Lemma in_reads {M S} (reads : M -> list S -> Prop) ms ll s : Forall2 reads ms ll -> In s (concat ll) -> exists m l, reads m l /\ In s l.
  Proof.
    induction 1 as [|m l ms ll R F IH]; cbn [concat]; [intros []|]. intros I. apply in_app_or in I as [I|I]; [exists m, l; auto|]. exact (IH I).
  Qed.
  Lemma fdefault_some a l d : says_f a l -> In (FDefault d) l -> d <> DNone.
  Proof.
    intros (_ & _ & ll & F & ->) I. destruct (in_reads _ _ _ _ F I) as (m & l & [R|[_ ->]] & J); [|destruct J].
    destruct R; cbn in J; repeat destruct J as [J|J]; try discriminate; try (injection J as <-; discriminate); destruct J.
  Qed.
  Lemma cdefault_some a l d : says_s a l -> In (CDefault d) l -> d <> DNone.
  Proof.
    intros (_ & _ & ll & F & ->) I. destruct (in_reads _ _ _ _ F I) as (m & l & [R|[_ ->]] & J); [|destruct J].
    destruct R; cbn in J; repeat destruct J as [J|J]; try discriminate; try (injection J as <-; discriminate); destruct J.
  Qed.

  (** ** What is compiled *)
  (** Field number [j] of a struct with the settings [cs], and what it becomes. *)
  Definition comes_from (ct : ftype -> field -> option kind) (cs : list (@csetting where_ type_)) (r : rule) (std : option (list sval)) (j : nat) (d : fhead * ftype) (f : info * kind) : Prop :=
    exists l g dv, says_f (h_attrs (fst d)) l /\ field_named r (h_ident (fst d)) l (f_name g) /\
      (f_nested g = true <-> In FNested l) /\ (f_flatten g = true <-> In FFlatten l) /\ (f_skip_ser g = true <-> In FSkipSer l) /\ (f_skip_de g = true <-> In FSkipDe l) /\
      (forall p, f_ser g = Some p <-> In (FSer p) l) /\ (forall p, f_de g = Some p <-> In (FDe p) l) /\
      default_of cs std j (fst d) l dv /\ ct (snd d) g = Some (snd f) /\ fst f = field_info g dv.

  Lemma compile_fields_nth ct cd : forall j ds (gs : list field) fs, compile_fields u ct cd j ds gs = Some fs ->
    List.length fs = List.length ds /\ List.length gs = List.length ds /\
    forall i d (g : field) f, nth_error ds i = Some d -> nth_error gs i = Some g -> nth_error fs i = Some f ->
      exists dv, field_default u cd (j + i) (fst d) g = Some dv /\ ct (snd d) g = Some (snd f) /\ fst f = field_info g dv.
  Proof.
    intros j ds. revert j; induction ds as [|[h t] ds IH]; intros j [|g gs] fs H; cbn in H; try discriminate.
    - injection H as <-. split; [reflexivity|]. split; [reflexivity|]. intros [|i]; discriminate.
    - destruct (field_default u cd j h g) as [dv|] eqn:D; [|discriminate]. destruct (ct t g) as [k|] eqn:K; [|discriminate].
      fold (compile_fields u ct cd) in H. destruct (compile_fields u ct cd (S j) ds gs) as [r|] eqn:R; [|discriminate]. injection H as <-.
      destruct (IH _ _ _ R) as (L1 & L2 & N). split; [cbn; congruence|]. split; [cbn; congruence|].
      intros [|i] d g' f X Y Z; cbn in X, Y, Z.
      + injection X as <-. injection Y as <-. injection Z as <-. cbn [fst snd]. exists dv. rewrite Nat.add_0_r. auto.
      + destruct (N i d g' f X Y Z) as (dv' & A). exists dv'. replace (j + S i)%nat with (S j + i)%nat by lia. exact A.
  Qed.

  Lemma default_field cs (c : @container where_ type_) std cd a sa l h (g : field) n j dv :
    says_s sa cs -> container_has cs c -> says_f a l -> field_has n (c_default c) l g ->
    struct_default u std c = Some cd -> field_default u cd j h g = Some dv -> default_of cs std j h l dv.
  Proof.
    intros SA CH SF FH SD FD. unfold field_default in FD. destruct (has_fdefault l) as [[d I]|NF].
    - pose proof (fdefault_some _ _ _ SF I) as ND. rewrite (fh_default _ _ _ _ FH d I) in FD. destruct d as [| |p]; [congruence| |].
      + destruct (h_std h) as [v|] eqn:E; [|discriminate]. injection FD as <-. now apply do_own.
      + injection FD as <-. now apply do_function.
    - pose proof (fh_no_default _ _ _ _ FH NF) as FN. unfold struct_default in SD. destruct (has_cdefault cs) as [[d I]|NC].
      + pose proof (cdefault_some _ _ _ SA I) as ND. rewrite (ch_default _ _ CH d I) in SD, FN. destruct d as [| |p]; [congruence| |].
        * rewrite FN in FD. destruct std as [vs|] eqn:Es; [|discriminate]. injection SD as <-. destruct (nth_error vs j) as [v|] eqn:E; [|discriminate].
          injection FD as <-. now apply (do_struct _ _ _ _ _ _ vs).
        * rewrite FN in FD. injection SD as <-. destruct (nth_error (u_struct u p) j) as [v|] eqn:E; [|discriminate].
          injection FD as <-. now apply (do_struct_function _ _ _ _ _ _ p).
      + rewrite (ch_no_default _ _ CH NC) in SD, FN. injection SD as <-. rewrite FN in FD. destruct (f_skip_de g) eqn:K.
        * destruct (h_std h) as [v|] eqn:E; [|discriminate]. injection FD as <-. apply do_skipped; auto. now apply (fh_skip_de _ _ _ _ FH).
        * injection FD as <-. apply do_none; auto. intros I. apply (fh_skip_de _ _ _ _ FH) in I. congruence.
  Qed.

  Lemma field_named_has r i l n cd (g : field) : named_by r i l n -> field_has n cd l g -> field_named r i l (f_name g).
  Proof.
    intros NB FH. destruct (has_frename l) as [[t I]|NR].
    - left. now rewrite (fh_rename _ _ _ _ FH t I).
    - right. split; [exact NR|]. rewrite (fh_name _ _ _ _ FH NR). apply NB. exact NR.
  Qed.

  Lemma compile_struct_inv ct a std ds fs : compile_struct ct a std ds = Some fs ->
    exists cs r, says_s a cs /\ struct_rule cs r /\ (forall t, ~ In (CFrom t) cs /\ ~ In (CTryFrom t) cs /\ ~ In (CInto t) cs) /\
      List.length fs = List.length ds /\
      forall i d f, nth_error ds i = Some d -> nth_error fs i = Some f -> comes_from ct cs r std i d f.
  Proof.
    unfold Declare.compile_struct. destruct (derive parse_path parse_where parse_type a (DNamed (named_fields ds))) as [c gs| |] eqn:E; try discriminate.
    destruct (derive_ok _ _ _ _ _ _ _ E) as (cs & SA & NC & CH & F2). intros H.
    destruct (c_from c) eqn:E1; [discriminate|]. destruct (c_try_from c) eqn:E2; [discriminate|]. destruct (c_into c) eqn:E3; [discriminate|].
    destruct (struct_default u std c) as [cd|] eqn:SD; [|discriminate]. destruct (compile_fields u ct cd 0 ds gs) as [fs'|] eqn:CF; [|discriminate].
    destruct (denies c fs'); [discriminate|]. injection H as <-. exists cs, (c_rename_all c). split; [exact SA|]. split; [|split; [|]].
    - destruct (has_crename cs) as [[r I]|N]; [left; now rewrite (ch_rename_all _ _ CH r I)|right; split; [exact N|apply (ch_no_rename_all _ _ CH N)]].
    - intros t. repeat split; intros I; [apply (ch_from _ _ CH) in I|apply (ch_try_from _ _ CH) in I|apply (ch_into _ _ CH) in I]; congruence.
    - destruct (compile_fields_nth _ _ _ _ _ _ CF) as (L1 & L2 & N). split; [exact L1|]. intros i d f D F.
      destruct (nth_other ds gs i d) as [g G]; [congruence|exact D|]. destruct (N i d g f D G F) as (dv & A & B & C).
      destruct (Forall2_nth _ _ _ F2) as [_ FN]. destruct (FN i (h_ident (fst d), h_attrs (fst d)) g) as (l & n & SF & NB & FH).
      + unfold named_fields. rewrite nth_error_map, D. reflexivity.
      + exact G.
      + cbn [fst snd] in SF, NB. exists l, g, dv. split; [exact SF|]. split; [now apply (field_named_has _ _ _ n (c_default c))|].
        split; [apply (fh_nested _ _ _ _ FH)|]. split; [apply (fh_flatten _ _ _ _ FH)|]. split; [apply (fh_skip_ser _ _ _ _ FH)|]. split; [apply (fh_skip_de _ _ _ _ FH)|].
        split; [apply (fh_ser _ _ _ _ FH)|]. split; [apply (fh_de _ _ _ _ FH)|]. split; [|auto]. eapply default_field; eassumption.
  Qed.

  (** ** Column names *)
  Definition piece (f : info * kind) : list text := if i_skip_ser (fst f) then [] else kind_names (i_name (fst f)) (snd f).
  Lemma column_names_pieces fs : column_names fs = concat (map piece fs).
  Proof. unfold column_names. rewrite flat_map_concat_map. reflexivity. Qed.
  Lemma inner_names n fs : kind_names n (KFlatten fs) = column_names fs /\ kind_names n (KNested fs) = map (fun c => n ++ [46] ++ c) (column_names fs).
  Proof.
    assert (K : forall fs, (fix go (fs : list (info * kind)) : list text :=
       match fs with [] => [] | (i, k) :: r => if i_skip_ser i then go r else kind_names (i_name i) k ++ go r end) fs = column_names fs).
    { clear fs. induction fs as [|[i k] fs IH]; [reflexivity|]. rewrite IH. cbn [column_names flat_map fst snd]. destruct (i_skip_ser i); reflexivity. }
    cbn [kind_names]. rewrite K. split; [reflexivity|]. apply map_ext. intros c. unfold dotted. now rewrite <- app_assoc.
  Qed.

  Definition cols_ok (t : ftype) : Prop := match t with
    | FPlain _ => True
    | FVec a std ds | FRow a std ds => forall fs, compile_struct compile_type a std ds = Some fs -> struct_columns parse_path parse_where parse_type a ds (column_names fs)
    end.
  Lemma field_cols cs r std j d f : cols_ok (snd d) -> comes_from compile_type cs r std j d f -> field_columns parse_path parse_where parse_type r d (piece f).
  Proof.
    destruct d as [h t], f as [i k]. cbn [fst snd]. intros OK (l & g & dv & SF & FN & NE & FL & SS & SD & SE & DE & _ & CT & FI). cbn [fst snd] in *.
    unfold piece. cbn [fst snd]. subst i. cbn [field_info i_skip_ser i_name]. destruct (f_skip_ser g) eqn:ES.
    { apply (fc_skipped _ _ _ _ _ _ l); tauto. }
    assert (NS : ~ In FSkipSer l) by (rewrite <- SS; congruence).
    destruct t as [rt|a sd ds|a sd ds]; cbn [Declare.compile_type] in CT.
    - destruct (f_nested g) eqn:E1; [discriminate|]. destruct (f_flatten g) eqn:E2; [discriminate|]. cbn [orb] in CT. injection CT as <-. cbn [kind_names].
      apply (fc_plain _ _ _ _ _ _ l); auto; intros I; [apply NE in I|apply FL in I]; congruence.
    - destruct (f_nested g) eqn:E1; [|discriminate]. destruct (negb (f_flatten g)); [|discriminate]. cbn [andb] in CT.
      match type of CT with (if ?b then _ else _) = _ => destruct b; [|discriminate] end.
      destruct (compile_struct compile_type a sd ds) as [fs|] eqn:CS; [|discriminate]. injection CT as <-.
      rewrite (proj2 (inner_names _ _)). apply (fc_nested _ _ _ _ _ _ _ _ l); auto. now apply NE.
    - destruct (f_flatten g) eqn:E1; [|discriminate]. cbn [andb] in CT.
      match type of CT with (if ?b then _ else _) = _ => destruct b; [|discriminate] end.
      destruct (compile_struct compile_type a sd ds) as [fs|] eqn:CS; [|discriminate]. injection CT as <-.
      rewrite (proj1 (inner_names _ _)). apply (fc_flattened _ _ _ _ _ _ _ _ l); auto. now apply FL.
  Qed.
  Lemma struct_cols a std ds : Forall (fun d => cols_ok (snd d)) ds -> forall fs, compile_struct compile_type a std ds = Some fs -> struct_columns parse_path parse_where parse_type a ds (column_names fs).
  Proof.
    intros F fs H. destruct (compile_struct_inv _ _ _ _ _ H) as (cs & r & SA & SR & _ & L & N). rewrite column_names_pieces.
    apply (sc_struct _ _ _ _ _ cs r); [exact SA|exact SR|]. apply Forall2_of_nth; [rewrite map_length; congruence|].
    intros i d ns D M. rewrite nth_error_map in M. destruct (nth_error fs i) as [f|] eqn:E; [|discriminate]. injection M as <-.
    apply (field_cols cs _ std i); [|now apply N]. apply (proj1 (Forall_forall _ _) F). eapply nth_error_In. exact D.
  Qed.
  Lemma all_cols : forall t, cols_ok t.
  Proof. induction t as [r|a std ds IH|a std ds IH] using ftype_ind'; cbn [cols_ok]; [exact Logic.I|now apply struct_cols|now apply struct_cols]. Qed.
  Lemma declared_columns a std ds fs : compile parse_path parse_where parse_type u a std ds = Some fs ->
    struct_columns parse_path parse_where parse_type a ds (column_names fs).
  Proof. apply struct_cols. apply Forall_forall. intros d _. apply all_cols. Qed.

  (** ** Plain structs *)
  Lemma plain_kind (d : fhead * ftype) (g : field) k : (exists r, snd d = FPlain r) -> compile_type (snd d) g = Some k -> exists r, snd d = FPlain r /\ k = KPlain (field_rty u r g).
  Proof.
    intros [r E] CT. rewrite E in CT. cbn [Declare.compile_type] in CT. destruct (f_nested g || f_flatten g); [discriminate|]. injection CT as <-. eauto.
  Qed.
  Lemma compiled_plain a std ds fs : compile parse_path parse_where parse_type u a std ds = Some fs -> plain_fields ds -> all_plain fs.
  Proof.
    intros H P. destruct (compile_struct_inv _ _ _ _ _ H) as (cs & r & _ & _ & _ & L & N). apply Forall_forall. intros f I. apply In_nth_error in I as [i F].
    destruct (nth_other fs ds i f L F) as [d D]. destruct (N i d f D F) as (l & g & dv & _ & _ & _ & _ & _ & _ & _ & _ & _ & CT & _).
    assert (exists r, snd d = FPlain r) as [rt E] by (apply (proj1 (Forall_forall _ _) P); eapply nth_error_In; exact D).
    destruct (plain_kind d g (snd f) (ex_intro _ rt E) CT) as (rr & _ & K). eauto.
  Qed.

  Lemma rty_calm r (g : field) : calm r -> (forall q t v, typed t v = true -> u_de u q t v <> Panic) -> calm (field_rty u r g).
  Proof.
    intros C D. unfold field_rty. destruct (f_ser g) as [p|], (f_de g) as [q|]; cbn [calm]; [apply D| |apply D|exact C]. intros t v T. now apply safe.
  Qed.
  Lemma compiled_no_panic a std ds fs cols : compile parse_path parse_where parse_type u a std ds = Some fs -> plain_fields ds ->
    (forall d r, In d ds -> snd d = FPlain r -> calm r) -> (forall q t v, typed t v = true -> u_de u q t v <> Panic) ->
    Forall (fun c => typed (snd (fst c)) (snd c) = true) cols -> deserialize fs cols <> Panic.
  Proof.
    intros H P C D T. apply deserialize_plain_no_panic; [now apply (compiled_plain a std ds)| |exact T].
    destruct (compile_struct_inv _ _ _ _ _ H) as (cs & r & _ & _ & _ & L & N). apply Forall_forall. intros f I rr K. apply In_nth_error in I as [i F].
    destruct (nth_other fs ds i f L F) as [d E]. destruct (N i d f E F) as (l & g & dv & _ & _ & _ & _ & _ & _ & _ & _ & _ & CT & _).
    pose proof (nth_error_In _ _ E) as Id. pose proof (proj1 (Forall_forall _ _) P d Id) as Q.
    destruct (plain_kind d g (snd f) Q CT) as (rt & Pr & K'). assert (rr = field_rty u rt g) as -> by congruence. apply rty_calm; [|exact D]. now apply (C d).
  Qed.

  Lemma rty_writes r (l : list (@fsetting where_)) (g : field) x h : (forall p, f_ser g = Some p <-> In (FSer p) l) -> writes_as u r l x h (to_sql (field_rty u r g) x h).
  Proof.
    intros SE. unfold field_rty. destruct (f_ser g) as [p|] eqn:E.
    - assert (In (FSer p) l) by now apply SE. destruct (f_de g); cbn [to_sql]; now constructor.
    - assert (forall p, ~ In (FSer p) l) by (intros p I; apply SE in I; congruence). destruct (f_de g); cbn [to_sql]; now constructor.
  Qed.
  Lemma rty_reads r (l : list (@fsetting where_)) (g : field) t v : (forall p, f_de g = Some p <-> In (FDe p) l) -> reads_as u r l t v (from_sql (field_rty u r g) t v).
  Proof.
    intros DE. unfold field_rty. destruct (f_de g) as [p|] eqn:E.
    - assert (In (FDe p) l) by now apply DE. destruct (f_ser g); cbn [from_sql]; now constructor.
    - assert (forall p, ~ In (FDe p) l) by (intros p I; apply DE in I; congruence). destruct (f_ser g); cbn [from_sql]; now constructor.
  Qed.

  Lemma plain_written hints r : forall ds fs, Forall2 (fun (d : fhead * ftype) (f : info * kind) => (exists rt, snd d = FPlain rt) /\ exists cs std i, comes_from compile_type cs r std i d f) ds fs ->
    forall xs row, serialize hints fs xs = Ok row ->
    exists pieces, row = concat pieces /\ List.length xs = List.length ds /\
      Forall2 (fun dx p => field_written parse_path parse_where u hints r (fst dx) (snd dx) p) (combine ds xs) pieces.
  Proof.
    induction 1 as [|[h t] [i k] ds fs [[rt P] (cs & std & j & CF)] F IH]; intros xs row H.
    - destruct xs; cbn in H; [|discriminate]. injection H as <-. exists []. repeat split. constructor.
    - cbn [snd] in P. subst t. destruct CF as (l & g & dv & SF & FN & _ & _ & SS & _ & SE & _ & _ & CT & FI). cbn [fst snd] in *. subst i.
      cbn [Declare.compile_type] in CT. destruct (f_nested g || f_flatten g); [discriminate|]. injection CT as <-.
      destruct xs as [|x xs]; cbn [serialize field_info i_skip_ser] in H; [discriminate|]. destruct (f_skip_ser g) eqn:ES.
      + destruct (IH _ _ H) as (ps & -> & L & W). exists ([] :: ps). split; [reflexivity|]. split; [cbn; congruence|]. cbn [combine]. constructor; [|exact W].
        apply (fw_skipped _ _ _ _ _ _ _ l); tauto.
      + destruct x as [y|?|?]; cbn [kind_serialize] in H; try discriminate. cbn [field_info i_name] in H.
        destruct (to_sql (field_rty u rt g) y (hints (f_name g))) as [v| |] eqn:T; cbn [rbind] in H; try discriminate.
        destruct (serialize hints fs xs) as [b| |] eqn:S'; cbn [rbind] in H; try discriminate. injection H as <-.
        destruct (IH _ _ S') as (ps & -> & L & W). exists ([(f_name g, v)] :: ps). split; [reflexivity|]. split; [cbn; congruence|]. cbn [combine]. constructor; [|exact W].
        apply (fw_sent _ _ _ _ _ _ _ l); auto; [rewrite <- SS; congruence|]. rewrite <- T. now apply rty_writes.
  Qed.
  Lemma compiled_written hints a std ds fs xs row : compile parse_path parse_where parse_type u a std ds = Some fs -> plain_fields ds -> serialize hints fs xs = Ok row ->
    exists cs r pieces, says_s a cs /\ struct_rule cs r /\ row = concat pieces /\ List.length xs = List.length ds /\
      Forall2 (fun dx p => field_written parse_path parse_where u hints r (fst dx) (snd dx) p) (combine ds xs) pieces.
  Proof.
    intros H P S'. destruct (compile_struct_inv _ _ _ _ _ H) as (cs & r & SA & SR & _ & L & N).
    destruct (plain_written hints r ds fs) with (xs := xs) (row := row) as (ps & A & B & C); [|exact S'|exists cs, r, ps; auto].
    apply Forall2_of_nth; [congruence|]. intros i d f D F. split; [|exists cs, std, i; now apply N].
    apply (proj1 (Forall_forall _ _) P). eapply nth_error_In; exact D.
  Qed.

  (** ** Reading *)
  Lemma read_positions_in fs j : In j (read_positions fs) <-> exists f, nth_error fs j = Some f /\ i_skip_de (fst f) = false.
  Proof.
    unfold read_positions. rewrite filter_In, in_seq. split.
    - intros [_ H]. destruct (nth_error fs j) as [f|]; [|discriminate]. exists f. split; [reflexivity|]. now destruct (i_skip_de (fst f)).
    - intros (f & E & S'). rewrite E, S'. split; [|reflexivity]. split; [lia|]. cbn. apply nth_error_Some. congruence.
  Qed.
  Lemma goes_by_name fs idx n j f : nth_error fs j = Some f -> i_skip_de (fst f) = false -> i_name (fst f) = n ->
    (forall j' f', nth_error fs j' = Some f' -> i_skip_de (fst f') = false -> i_name (fst f') = n -> j' = j) -> goes_to fs idx n = Some j.
  Proof.
    intros F S' N0 U. unfold goes_to. set (p := fun j0 : nat => _).
    destruct (find p (read_positions fs)) as [j'|] eqn:E.
    - apply find_some in E as [I P0]. apply read_positions_in in I as (f' & F' & S2). unfold p in P0. rewrite F' in P0. apply text_eqb_eq in P0.
      f_equal. now apply (U j' f').
    - exfalso. assert (I : In j (read_positions fs)) by (apply read_positions_in; eauto).
      pose proof (find_none _ _ E j I) as Q. unfold p in Q. rewrite F, N0, text_eqb_refl in Q. discriminate.
  Qed.
  Lemma combine_seq_in {A} (l : list A) : forall s x, In x l -> exists i, In (i, x) (combine (seq s (List.length l)) l).
  Proof. induction l as [|a l IH]; intros s x; [intros []|]. cbn. intros [->|I]; [eauto|]. destruct (IH (S s) x I) as [i J]. eauto. Qed.
  Lemma columns_of_in fs j cols c : In c (columns_of fs j cols) -> In c cols /\ exists idx, goes_to fs idx (cname c) = Some j.
  Proof.
    unfold columns_of. intros I. apply in_map_iff in I as ([idx c'] & E & I). cbn [snd] in E. subst c'. apply filter_In in I as [I G]. cbn [fst snd] in G.
    split; [eapply in_combine_r; exact I|]. exists idx. destruct (goes_to fs idx (cname c)) as [j'|]; [|discriminate]. apply Nat.eqb_eq in G. congruence.
  Qed.
  Lemma columns_of_has fs j cols c : In c cols -> (forall idx, goes_to fs idx (cname c) = Some j) -> In c (columns_of fs j cols).
  Proof.
    intros I G. unfold columns_of. destruct (combine_seq_in cols 0 c I) as [idx J]. apply in_map_iff. exists (idx, c). split; [reflexivity|].
    apply filter_In. split; [exact J|]. cbn [fst snd]. now rewrite G, Nat.eqb_refl.
  Qed.

  Lemma compiled_read a std ds fs cols xs : compile parse_path parse_where parse_type u a std ds = Some fs -> plain_fields ds ->
    (forall cs r, says_s a cs -> struct_rule cs r -> distinct_names parse_path parse_where r ds /\ Forall (fun c => belongs parse_path parse_where r ds (cname c)) cols) ->
    deserialize fs cols = Ok xs ->
    exists cs r, says_s a cs /\ struct_rule cs r /\ List.length xs = List.length ds /\
      forall j d x, nth_error ds j = Some d -> nth_error xs j = Some x -> field_read parse_path parse_where u cs r std j cols d x.
  Proof.
    intros H P DN E. pose proof (compiled_plain _ _ _ _ H P) as AP. destruct (compile_struct_inv _ _ _ _ _ H) as (cs & r & SA & SR & _ & L & N).
    destruct (DN cs r SA SR) as [U B]. clear DN. apply (deserialize_plain _ _ _ AP) in E as [LX E]. exists cs, r. split; [exact SA|]. split; [exact SR|].
    split; [congruence|]. intros j d x D X. destruct (nth_other ds fs j d (eq_sym L) D) as [f F].
    pose proof (E j f x F X) as PF. destruct (N j d f D F) as (l & g & dv & SF & FN & _ & _ & _ & SD & _ & DE & DF & CT & FI).
    assert (Pd : exists rt, snd d = FPlain rt) by (apply (proj1 (Forall_forall _ _) P); eapply nth_error_In; exact D).
    destruct (plain_kind d g (snd f) Pd CT) as (rt & Ed & K). destruct d as [h t]. cbn [snd fst] in *. subst t.
    unfold plain_field in PF. rewrite FI in PF. cbn [field_info i_skip_de i_default] in PF. destruct (f_skip_de g) eqn:ES.
    - apply (fr_skipped _ _ _ _ _ _ _ _ _ _ l); [exact SF|tauto|now rewrite <- PF].
    - assert (NS : ~ In FSkipDe l) by (rewrite <- SD; congruence). rewrite K in PF.
      (* names are unique among the fields that are read *)
      assert (UN : forall j' f', nth_error fs j' = Some f' -> i_skip_de (fst f') = false -> i_name (fst f') = f_name g -> j' = j).
      { intros j' f' F' S2 N2. destruct (nth_other fs ds j' f' L F') as [[h' t'] D']. destruct (N j' (h', t') f' D' F') as (l' & g' & dv' & SF' & FN' & _ & _ & _ & SD' & _ & _ & _ & _ & FI').
        cbn [fst snd] in *. rewrite FI' in S2, N2. cbn [field_info i_skip_de i_name] in S2, N2. rewrite N2 in FN'.
        apply (U j' j h' h t' (FPlain rt) l' l (f_name g)); auto. rewrite <- SD'. congruence. }
      assert (G : forall idx, goes_to fs idx (f_name g) = Some j).
      { intros idx. apply (goes_by_name fs idx (f_name g) j f); auto; rewrite FI; [exact ES|reflexivity]. }
      destruct (columns_of fs j cols) as [|[[m t] v] [|]] eqn:C; [| |destruct PF].
      + apply (fr_absent _ _ _ _ _ _ _ _ _ _ l (f_name g)); [exact SF|exact NS|exact FN| |now rewrite <- PF].
        intros I. apply in_map_iff in I as (c & Ec & I). assert (In c (columns_of fs j cols)) as Q; [|rewrite C in Q; destruct Q].
        apply columns_of_has; [exact I|]. intros idx. rewrite Ec. apply G.
      + destruct PF as (y & FS & ->). assert (Q : In (m, t, v) (columns_of fs j cols)) by (rewrite C; now left).
        apply columns_of_in in Q as [I [idx GI]]. cbn [cname fst] in GI.
        pose proof (proj1 (Forall_forall _ _) B _ I) as (h' & t' & l' & I' & SF' & NS' & FN'). cbn [cname fst] in FN'. apply In_nth_error in I' as [j' D'].
        destruct (nth_other ds fs j' (h', t') (eq_sym L) D') as [f' F']. destruct (N j' (h', t') f' D' F') as (l2 & g' & dv' & SF2 & FN2 & _ & _ & _ & SD2 & _ & _ & _ & _ & FI2).
        cbn [fst snd] in *. assert (l2 = l') as -> by (eapply says_field_fun; eassumption).
        assert (Nm : f_name g' = m) by (eapply field_named_fun; eassumption).
        assert (j' = j) as ->.
        { assert (GJ : goes_to fs idx m = Some j').
          { apply (goes_by_name fs idx m j' f'); auto.
            - rewrite FI2. cbn [field_info i_skip_de]. destruct (f_skip_de g'); [exfalso; apply NS'; now apply SD2|reflexivity].
            - rewrite FI2. exact Nm.
            - intros j2 f2 F2 S2 N2. destruct (nth_other fs ds j2 f2 L F2) as [[h2 t2] D2]. destruct (N j2 (h2, t2) f2 D2 F2) as (l3 & g3 & dv3 & SF3 & FN3 & _ & _ & _ & SD3 & _ & _ & _ & _ & FI3).
              cbn [fst snd] in *. rewrite FI3 in S2, N2. cbn [field_info i_skip_de i_name] in S2, N2. rewrite N2 in FN3.
              apply (U j2 j' h2 h' t2 t' l3 l' m); auto. rewrite <- SD3. congruence. }
          congruence. }
        assert (Q : (h', t') = (h, FPlain rt)) by congruence. injection Q as -> ->. assert (l' = l) as -> by (eapply says_field_fun; eassumption).
        assert (m = f_name g) as ->. { rewrite <- Nm. assert (f' = f) by congruence. subst f'. rewrite FI in FI2. apply (f_equal i_name) in FI2. symmetry. exact FI2. }
        apply (fr_column _ _ _ _ _ _ _ _ _ _ l (f_name g) t v); auto. rewrite <- FS. now apply rty_reads.
  Qed.

  (** ** Acceptance *)
  Lemma compile_fields_some ct cd : forall j ds (gs : list field), List.length gs = List.length ds ->
    (forall i d (g : field), nth_error ds i = Some d -> nth_error gs i = Some g ->
       (exists dv, field_default u cd (j + i) (fst d) g = Some dv) /\ exists k, ct (snd d) g = Some k) ->
    exists fs, compile_fields u ct cd j ds gs = Some fs.
  Proof.
    intros j ds. revert j; induction ds as [|[h t] ds IH]; intros j [|g gs] L H; cbn in L; try discriminate; [exists []; reflexivity|].
    destruct (H 0%nat (h, t) g eq_refl eq_refl) as [[dv D] [k K]]. rewrite Nat.add_0_r in D. cbn [fst snd] in D, K.
    destruct (IH (S j) gs) as [fs F]; [congruence| |].
    - intros i d g' A B. replace (S j + i)%nat with (j + S i)%nat by lia. apply (H (S i)); assumption.
    - cbn. rewrite D, K. fold (compile_fields u ct cd). rewrite F. eauto.
  Qed.

  Definition accepts (t : ftype) : Prop := forall l n (g : field), good_type parse_path parse_where parse_type u l n t -> f_name g = n ->
    (f_nested g = true <-> In FNested l) -> (f_flatten g = true <-> In FFlatten l) ->
    (forall p, f_ser g = Some p <-> In (FSer p) l) -> (forall p, f_de g = Some p <-> In (FDe p) l) -> exists k, compile_type t g = Some k.
  Lemma iff_false (b : bool) (A : Prop) : (b = true <-> A) -> ~ A -> b = false.
  Proof. destruct b; [|reflexivity]. intros H N. elim N. now apply H. Qed.
  Lemma not_given {A S} (o : option A) (mk : A -> S) l : (forall p, o = Some p <-> In (mk p) l) -> (forall p, ~ In (mk p) l) -> given o = false.
  Proof. intros H N. destruct o as [p|]; [|reflexivity]. elim (N p). now apply H. Qed.

  Lemma accept_struct a std ds : Forall (fun d => accepts (snd d)) ds -> good_struct parse_path parse_where parse_type u a std ds ->
    exists fs, compile_struct compile_type a std ds = Some fs.
  Proof.
    intros IH G. inversion G as [a0 std0 ds0 cs r SA PS SR D1 D2 GF]; subst a0 std0 ds0. destruct PS as [ND PS].
    destruct (derive_accepts parse_path parse_where parse_type a (named_fields ds) cs) as (c & gs & E); [exact SA| | |].
    { intros t u0 [A _]. now elim (proj1 (PS t)). }
    { intros r' R'. assert (r' = r) as ->.
      { destruct R' as [R'|[-> R']], SR as [SR|[SR SR']]; [|now elim (SR r')|now elim (R' r)|congruence].
        destruct SA as (_ & NDs & _). apply in_split in R' as (l1 & l2 & ->). rewrite map_app in NDs. cbn [map] in NDs. apply NoDup_remove_2 in NDs.
        apply in_app_or in SR as [B|[B|B]]; [|congruence|]; exfalso; apply NDs; apply (in_map csort) in B; cbn [csort] in *; apply in_or_app; tauto. }
      unfold named_fields. apply Forall_forall. intros f I. apply in_map_iff in I as ([h t] & <- & I). cbn [fst snd].
      pose proof (proj1 (Forall_forall _ _) GF _ I) as Q. inversion Q; subst. exists l, n. split; [assumption|].
      match goal with H : field_named _ _ _ _ |- _ => destruct H as [F|[F F']] end; intros NF; [now elim (NF n)|exact F']. }
    unfold Declare.compile_struct. rewrite E. destruct (derive_ok _ _ _ _ _ _ _ E) as (cs' & SA' & _ & CH & F2).
    assert (cs' = cs) as -> by (eapply says_struct_fun; eassumption).
    assert (c_from c = None) as -> by (destruct (c_from c) as [t|] eqn:Q; [elim (proj1 (PS t)); now apply (ch_from _ _ CH)|reflexivity]).
    assert (c_try_from c = None) as -> by (destruct (c_try_from c) as [t|] eqn:Q; [elim (proj1 (proj2 (PS t))); now apply (ch_try_from _ _ CH)|reflexivity]).
    assert (c_into c = None) as -> by (destruct (c_into c) as [t|] eqn:Q; [elim (proj2 (proj2 (PS t))); now apply (ch_into _ _ CH)|reflexivity]).
    assert (c_rename_all c = r) as Rr.
    { destruct SR as [SR|[SR ->]]; [now apply (ch_rename_all _ _ CH)|now apply (ch_no_rename_all _ _ CH)]. }
    assert (exists cd, struct_default u std c = Some cd /\ (c_default c = DNone -> cd = None) /\ (c_default c <> DNone -> exists vs, cd = Some vs /\ List.length vs = List.length ds)) as (cd & SD & CD0 & CD1).
    { unfold struct_default. destruct (has_cdefault cs) as [[d I]|NC].
      - rewrite (ch_default _ _ CH d I). pose proof (cdefault_some _ _ _ SA I). destruct d as [| |p]; [congruence| |].
        + destruct (D1 I) as (vs & -> & L). exists (Some vs). split; [reflexivity|]. split; [discriminate|]. eauto.
        + exists (Some (u_struct u p)). split; [reflexivity|]. split; [discriminate|]. eauto.
      - rewrite (ch_no_default _ _ CH NC). exists None. repeat split; congruence. }
    rewrite SD. destruct (Forall2_nth _ _ _ F2) as [L FN]. unfold named_fields in L. rewrite map_length in L.
    destruct (compile_fields_some compile_type cd 0 ds gs (eq_sym L)) as [fs F].
    - intros i [h t] g D Gi. destruct (FN i (h_ident h, h_attrs h) g) as (l & n & SF & NB & FH); [unfold named_fields; now rewrite nth_error_map, D|exact Gi|].
      cbn [fst snd] in *. pose proof (nth_error_In _ _ D) as I. pose proof (proj1 (Forall_forall _ _) GF _ I) as Q.
      inversion Q as [r1 cs1 h1 t1 l1 n1 SF1 FN1 HD GT]; subst r1 cs1 h1 t1. assert (l1 = l) as -> by (eapply says_field_fun; eassumption). split.
      + unfold field_default. destruct (has_fdefault l) as [[d J]|NF].
        * rewrite (fh_default _ _ _ _ FH d J). pose proof (fdefault_some _ _ _ SF J). destruct d as [| |p]; [congruence| |eauto].
          destruct (HD (or_introl J)) as [d ->]. eauto.
        * rewrite (fh_no_default _ _ _ _ FH NF). destruct (c_default c) eqn:EC.
          -- rewrite (CD0 eq_refl). destruct (f_skip_de g) eqn:ES; [|eauto]. destruct HD as [d ->]; [|eauto]. right. split; [now apply (fh_skip_de _ _ _ _ FH)|]. split; [exact NF|].
             intros d J. rewrite (ch_default _ _ CH d J) in EC. now apply (cdefault_some _ _ _ SA J).
          -- destruct CD1 as (vs & -> & LV); [discriminate|]. destruct (nth_other ds vs i (h, t) (eq_sym LV) D) as [b B]. cbn [Nat.add]. rewrite B. eauto.
          -- destruct CD1 as (vs & -> & LV); [discriminate|]. destruct (nth_other ds vs i (h, t) (eq_sym LV) D) as [b B]. cbn [Nat.add]. rewrite B. eauto.
      + apply (proj1 (Forall_forall _ _) IH _ I l n1 g GT).
        * eapply field_named_fun; [exact SF| |exact FN1]. rewrite <- Rr. eapply field_named_has; eassumption.
        * apply (fh_nested _ _ _ _ FH).
        * apply (fh_flatten _ _ _ _ FH).
        * apply (fh_ser _ _ _ _ FH).
        * apply (fh_de _ _ _ _ FH).
    - rewrite F. unfold denies. assert (c_deny c = false) as -> by (eapply iff_false; [apply (ch_deny _ _ CH)|exact ND]). cbn [andb]. eauto.
  Qed.
  Lemma all_accept : forall t, accepts t.
  Proof.
    induction t as [r|a std ds IH|a std ds IH] using ftype_ind'; intros l n g GT GN NE FL SE DE; inversion GT; subst; cbn [Declare.compile_type].
    - rewrite (iff_false _ _ NE), (iff_false _ _ FL) by assumption. cbn [orb]. eauto.
    - rewrite (proj2 NE), (iff_false _ _ FL) by assumption. rewrite (not_given _ _ _ SE), (not_given _ _ _ DE) by (intros p; match goal with H : forall p, _ /\ _ |- _ => apply H end).
      match goal with H : u_nameable _ _ = true |- _ => rewrite H end. rewrite Bool.orb_true_r. cbn [andb negb].
      destruct (accept_struct a std ds IH) as [fs ->]; [assumption|]. cbn [option_map]. eauto.
    - rewrite (proj2 FL), (iff_false _ _ NE) by assumption. rewrite (not_given _ _ _ SE), (not_given _ _ _ DE) by (intros p; match goal with H : forall p, _ /\ _ |- _ => apply H end).
      cbn [andb negb]. destruct (accept_struct a std ds IH) as [fs ->]; [assumption|]. cbn [option_map]. eauto.
  Qed.
  Lemma declared_accepted a std ds : good_struct parse_path parse_where parse_type u a std ds -> exists fs, compile parse_path parse_where parse_type u a std ds = Some fs.
  Proof. apply accept_struct. apply Forall_forall. intros d _. apply all_accept. Qed.

  (** ** [from], [try_from], [into] *)
  Lemma derive_row_own v a std ds fs : compile parse_path parse_where parse_type u a std ds = Some fs ->
    exists ri, derive_row parse_path parse_where parse_type u v a std ds = Some ri /\ ri_count ri = column_count fs /\ ri_names ri = Some (column_names fs) /\
      (forall hints x, ri_serialize ri hints x = serialize hints fs x) /\ (forall cols, ri_deserialize ri cols = deserialize fs cols).
  Proof.
    unfold compile, Declare.compile_struct, derive_row. destruct (derive parse_path parse_where parse_type a (DNamed (named_fields ds))) as [c gs| |]; try discriminate.
    intros H. unfold impl_writes, impl_reads. destruct (c_from c); [discriminate|]. destruct (c_try_from c); [discriminate|]. destruct (c_into c); [discriminate|].
    destruct (struct_default u std c) as [cd|]; [|discriminate]. destruct (compile_fields u compile_type cd 0 ds gs) as [fs'|]; [|discriminate].
    destruct (denies c fs'); [discriminate|]. injection H as <-. eexists. split; [reflexivity|]. repeat split.
  Qed.
  Lemma derive_row_converted v a std ds ri cs : derive_row parse_path parse_where parse_type u v a std ds = Some ri -> says_s a cs ->
    (forall t, In (CInto t) cs -> ri_count ri = None /\ ri_names ri = None /\ forall hints x, ri_serialize ri hints x = ri_serialize (v_row v t) hints (v_into v t x)) /\
    (forall t, In (CFrom t) cs -> forall cols, ri_deserialize ri cols = (x <- ri_deserialize (v_row v t) cols ;; Ok (v_from v t x))) /\
    (forall t, In (CTryFrom t) cs -> forall cols, ri_deserialize ri cols = (x <- ri_deserialize (v_row v t) cols ;; v_try_from v t x)).
  Proof.
    unfold derive_row. destruct (derive parse_path parse_where parse_type a (DNamed (named_fields ds))) as [c gs| |] eqn:E; try discriminate.
    intros H SA. destruct (derive_ok _ _ _ _ _ _ _ E) as (cs' & SA' & NC & CH & _). assert (cs' = cs) as -> by (eapply says_struct_fun; eassumption).
    match type of H with context [impl_writes _ _ ?f] => set (fs := f) in H end.
    destruct (impl_writes v c fs) as [[[n names] ser]|] eqn:W; [|discriminate]. destruct (impl_reads v c fs) as [de|] eqn:R; [|discriminate]. injection H as <-. cbn.
    split; [|split].
    - intros t I. unfold impl_writes in W. rewrite (proj2 (ch_into _ _ CH t) I) in W. injection W as <- <- <-. auto.
    - intros t I. unfold impl_reads in R. rewrite (proj2 (ch_from _ _ CH t) I) in R. injection R as <-. auto.
    - intros t I. unfold impl_reads in R. destruct (c_from c) as [t0|] eqn:F.
      + exfalso. apply (NC t0 t). split; [now apply (ch_from _ _ CH)|exact I].
      + rewrite (proj2 (ch_try_from _ _ CH t) I) in R. injection R as <-. auto.
  Qed.

  (** ** [deny_unknown_fields] *)
  Lemma flatten_kind t (g : field) k : compile_type t g = Some k -> is_flatten k = true -> f_flatten g = true.
  Proof.
    destruct t as [r|a std ds|a std ds]; cbn [Declare.compile_type].
    - destruct (f_nested g || f_flatten g); [discriminate|]. intros [= <-]. discriminate.
    - match goal with |- (if ?b then _ else _) = _ -> _ => destruct b; [|discriminate] end. destruct (compile_struct compile_type a std ds); cbn [option_map]; [intros [= <-]|]; discriminate.
    - destruct (f_flatten g); [reflexivity|discriminate].
  Qed.
  Lemma deny_rejected a std ds cs : says_s a cs -> In CDeny cs ->
    (forall d l, In d ds -> says_f (h_attrs (fst d)) l -> ~ In FFlatten l) -> compile parse_path parse_where parse_type u a std ds = None.
  Proof.
    intros SA D NF. destruct (compile parse_path parse_where parse_type u a std ds) as [fs|] eqn:E; [|reflexivity]. exfalso.
    destruct (compile_struct_inv _ _ _ _ _ E) as (cs' & r & _ & _ & _ & L & N). unfold compile, Declare.compile_struct in E.
    destruct (derive parse_path parse_where parse_type a (DNamed (named_fields ds))) as [c gs| |] eqn:DV; try discriminate.
    destruct (derive_ok _ _ _ _ _ _ _ DV) as (cs2 & SA2 & _ & CH & _). assert (cs2 = cs) as -> by (eapply says_struct_fun; eassumption).
    destruct (c_from c); [discriminate|]. destruct (c_try_from c); [discriminate|]. destruct (c_into c); [discriminate|].
    destruct (struct_default u std c) as [cd|]; [|discriminate]. destruct (compile_fields u compile_type cd 0 ds gs) as [fs'|]; [|discriminate].
    unfold denies in E. rewrite (proj2 (ch_deny _ _ CH) D) in E. cbn [andb] in E.
    destruct (existsb (fun f => is_flatten (snd f)) fs') eqn:X; [|discriminate]. injection E as ->.
    apply existsb_exists in X as (f & I & K). apply In_nth_error in I as [i F]. destruct (nth_other fs ds i f L F) as [d Di].
    destruct (N i d f Di F) as (l & g & dv & SF & _ & _ & FL & _ & _ & _ & _ & _ & CT & _).
    apply (NF d l); [eapply nth_error_In; exact Di|exact SF|]. apply FL. eapply flatten_kind; eassumption.
  Qed.
End Proofs.
