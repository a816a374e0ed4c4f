(** Proofs about [Json<T>]: it is a [String] with serde_json around it. *)
From Verif Require Import Base Io Types Ser Deser Text Utf8 RawRow Numeric NumericSpec ColumnSpec ColumnProofs ColumnRoundtrip LowCardProofs WireProofs
  Convert ConvertSpec ConvertProofs ConvertWire ConvertSafe ReadProofs Json JsonSpec Props_Convert.
Local Open Scope list_scope. Local Open Scope N_scope.

Lemma json_to_string {T} (J : serde_json T) x s h : j_text J x = Some s -> json_to_sql J x h = to_sql RString (XStr s) h.
Proof. intros E. unfold json_to_sql. now rewrite E. Qed.
Lemma json_of_string {T} (J : serde_json T) x s t v :
  j_read J s = Some x -> from_sql RString t v = Ok (XStr s) -> json_from_sql J t v = Ok x.
Proof. intros E F. unfold json_from_sql. rewrite F. cbn [rbind]. now rewrite E. Qed.

Lemma json_opt_to_string {T} (J : serde_json T) o o' h :
  match o, o' with None, None => True | Some x, Some s => j_text J x = Some s | _, _ => False end ->
  json_opt_to_sql J o h = to_sql (ROpt RString) (XOpt (option_map XStr o')) h.
Proof. destruct o, o'; cbn; try tauto. intros E. now rewrite (json_to_string _ _ _ _ E). Qed.
Lemma json_opt_of_string {T} (J : serde_json T) o o' t v :
  match o, o' with None, None => True | Some x, Some s => j_read J s = Some x | _, _ => False end ->
  from_sql (ROpt RString) t v = Ok (XOpt (option_map XStr o')) -> json_opt_from_sql J t v = Ok o.
Proof.
  unfold json_opt_from_sql. intros E F. cbv zeta.
  set (sub := match t with TNullable x => strip_low_cardinality x | x => x end).
  assert (K : v = VNull \/ v <> VNull) by (destruct v; auto; right; discriminate).
  destruct K as [->|NN].
  - cbn [from_sql] in F. destruct o', o; cbn in E, F; try tauto; try discriminate.
  - assert (A : (w <- from_sql RString sub v ;; Ok (XOpt (Some w))) = Ok (XOpt (option_map XStr o'))).
    { rewrite <- F. symmetry. unfold sub. now destruct v. }
    destruct (from_sql RString sub v) as [w|e|] eqn:Q; [|discriminate|discriminate]. cbn [rbind] in A.
    destruct o' as [s|]; cbn [option_map] in A; [|discriminate]. assert (w = XStr s) as -> by congruence.
    destruct o as [x|]; [|tauto].
    pose proof (json_of_string J x s _ _ E Q) as R. destruct v; try (now elim NN); rewrite R; reflexivity.
Qed.

Lemma fixed_ok_iff n bs : fixed_ok n bs = true <-> lenN bs <= n /\ ~ In 0 bs.
Proof.
  unfold fixed_ok. rewrite andb_true_iff, N.leb_le, forallb_forall. split; intros [A B]; split; auto.
  - intros I. apply B in I. discriminate.
  - intros b I. apply negb_true_iff, N.eqb_neq. intros ->. auto.
Qed.
Lemma json_column_ok t s : forallb scalar s = true -> json_column t s ->
  stores RString t = true /\ member RString t (XStr s) /\ survives RString t (XStr s).
Proof.
  destruct t; cbn [json_column]; try tauto; intros F C; cbn; repeat split; auto. now apply fixed_ok_iff.
Qed.

Lemma mapM_rel {A B C} (R : A -> B -> Prop) (f : A -> res C) (g : B -> res C) l m :
  (forall a b, R a b -> f a = g b) -> Forall2 R l m -> mapM f l = mapM g m.
Proof. intros H F. induction F as [|a b l m r _ IH]; [reflexivity|]. cbn [mapM]. now rewrite (H _ _ r), IH. Qed.

Lemma mapM_back {A B C D} (R : A -> C -> Prop) (f : B -> res A) (g : B -> res C) (d : D) : forall l xs ys,
  (forall b x y, R x y -> f b = Ok x -> g b = Ok y) -> Forall2 R xs ys -> mapM f l = Ok xs -> mapM g l = Ok ys.
Proof.
  induction l as [|b l IH]; intros xs ys H F; cbn [mapM].
  - intros [= <-]. now inversion F.
  - destruct (f b) as [x| |] eqn:E1; cbn [rbind]; try discriminate.
    destruct (mapM f l) as [xs'| |] eqn:E2; cbn [rbind]; try discriminate. intros [= <-].
    inversion F; subst. erewrite H by eauto. cbn [rbind]. now erewrite IH by eauto.
Qed.

Lemma json_roundtrip {T} (J : serde_json T) t xs ss :
  validate t = true -> stores RString (strip_low_cardinality t) = true ->
  Forall2 (fun x s => json_faithful J x s /\ json_column (strip_low_cardinality t) s) xs ss ->
  exists vs, mapM (fun x => json_to_sql J x (Some t)) xs = Ok vs /\ vs = map (fun s => VString (utf8 s)) ss /\
    (fits t vs -> exists bs, ser t vs = Ok bs /\
       forall rest, exists vs', deser t (lenN xs) (bs ++ rest) = Ok (vs', rest) /\
         mapM (json_from_sql J (strip_low_cardinality t)) vs' = Ok xs).
Proof.
  intros V S F.
  assert (G : Forall (fun x => member RString (strip_low_cardinality t) x /\ survives RString (strip_low_cardinality t) x) (map XStr ss)).
  { induction F as [|x s xs ss [(_ & _ & A) B] _ IH]; constructor; auto. now apply json_column_ok. }
  destruct (C44_end_to_end RString t _ V S G) as (vs & A & B).
  assert (L : lenN (map XStr ss) = lenN xs).
  { clear -F. unfold lenN. f_equal. induction F; cbn; auto. }
  assert (F2 : Forall2 (fun x y => exists s, y = XStr s /\ json_faithful J x s) xs (map XStr ss)).
  { clear -F. induction F as [|x s xs ss [A _] _ IH]; constructor; eauto. }
  exists vs. split; [|split].
  - rewrite <- A. eapply mapM_rel; [|exact F2]. intros x y (s & -> & E & _). now apply json_to_string.
  - clear -A. revert vs A. induction ss as [|s ss IH]; cbn [map mapM]; [congruence|]. intros vs.
    cbn [to_sql rbind]. destruct (mapM _ (map XStr ss)) as [w| |] eqn:Q; cbn [rbind]; try discriminate.
    intros H. apply (f_equal (fun r => match r with Ok l => l | _ => [] end)) in H. cbn in H. subst. f_equal. now apply IH.
  - intros Fi. destruct (B Fi) as (bs & C & D). exists bs. split; [exact C|]. intros rest.
    destruct (D rest) as (vs' & P & Q). exists vs'. rewrite <- L. split; [exact P|].
    eapply (mapM_back (fun y x => exists s, y = XStr s /\ json_faithful J x s) _ _ tt); [| |exact Q].
    + intros b x y (s & -> & _ & E & _) H. now apply (json_of_string J y s).
    + clear -F2. induction F2; constructor; auto.
Qed.

Lemma json_opt_roundtrip {T} (J : serde_json T) t t' xs ss :
  validate t = true -> strip_low_cardinality t = TNullable t' -> stores RString (strip_low_cardinality t') = true ->
  Forall2 (fun x s => json_opt_faithful J x s /\ match s with Some s => json_column (strip_low_cardinality t') s | None => True end) xs ss ->
  exists vs, mapM (fun x => json_opt_to_sql J x (Some t)) xs = Ok vs /\
    (fits t vs -> exists bs, ser t vs = Ok bs /\
       forall rest, exists vs', deser t (lenN xs) (bs ++ rest) = Ok (vs', rest) /\
         mapM (json_opt_from_sql J (strip_low_cardinality t)) vs' = Ok xs).
Proof.
  intros V ST S F.
  assert (NG : is_geo t' = false).
  { destruct t'; cbn in S |- *; try reflexivity; discriminate. }
  assert (G : Forall (fun x => member (ROpt RString) (strip_low_cardinality t) x /\ survives (ROpt RString) (strip_low_cardinality t) x)
                (map (fun o => XOpt (option_map XStr o)) ss)).
  { rewrite ST. induction F as [|x s xs ss [A B] _ IH]; constructor; auto. destruct s as [s|]; cbn [option_map].
    - destruct x as [x|]; [|destruct A]. destruct A as (_ & _ & A). destruct (json_column_ok _ _ A B) as (_ & P & Q). split; [exact P|exact Q].
    - split; [exact Logic.I|exact NG]. }
  assert (S' : stores (ROpt RString) (strip_low_cardinality t) = true).
  { rewrite ST. change (negb (has_null RString) && stores RString (strip_low_cardinality t') = true). rewrite S. reflexivity. }
  destruct (C44_end_to_end (ROpt RString) t _ V S' G) as (vs & A & B).
  assert (L : lenN (map (fun o => XOpt (option_map XStr o)) ss) = lenN xs).
  { clear -F. unfold lenN. f_equal. induction F; cbn; auto. }
  assert (F2 : Forall2 (fun x y => exists s, y = XOpt (option_map XStr s) /\ json_opt_faithful J x s) xs (map (fun o => XOpt (option_map XStr o)) ss)).
  { clear -F. induction F as [|x s xs ss [A _] _ IH]; constructor; eauto. }
  exists vs. split.
  - rewrite <- A. eapply mapM_rel; [|exact F2]. intros x y (s & -> & E). apply json_opt_to_string.
    destruct x, s; cbn in E; try tauto. apply E.
  - intros Fi. destruct (B Fi) as (bs & C & D). exists bs. split; [exact C|]. intros rest.
    destruct (D rest) as (vs' & P & Q). exists vs'. rewrite <- L. split; [exact P|].
    eapply (mapM_back (fun y x => exists s, y = XOpt (option_map XStr s) /\ json_opt_faithful J x s) _ _ tt); [| |exact Q].
    + intros b x y (s & -> & E) H. apply (json_opt_of_string J y s); [|exact H]. destruct y, s; cbn in E; try tauto. apply E.
    + clear -F2. induction F2; constructor; auto.
Qed.

(** What reading does with any value a column can deliver. *)
Lemma json_reads {T} (J : serde_json T) t v : typed t v = true ->
  json_from_sql J (strip_low_cardinality t) v =
    match strip_low_cardinality t, v with
    | TString, VString bs | TFixedString _, VString bs =>
        match utf8_decode bs with
        | None => Err EUtf8
        | Some s => match j_read J s with Some x => Ok x | None => Err EDeser end
        end
    | _, _ => Err EDeser
    end.
Proof.
  intros Ty. rewrite <- typed_strip in Ty. revert Ty. unfold json_from_sql. generalize (strip_low_cardinality t) as u. intros u Ty.
  destruct u; cbn [from_sql rbind]; try reflexivity; (destruct v; cbn in Ty; try discriminate; cbn [rstring_from];
   destruct (utf8_decode _); reflexivity).
Qed.
