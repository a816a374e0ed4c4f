(** Batches of an insert that go out without any column (C90). *)
From Coq Require Import Lia Permutation.
From Verif Require Import Base Types Text IndexMap Io IoProofs Block BlockProofs Compression CompressionProofs Progress Protocol Connection ConnectionSpec Api ApiProofs TripSpec.
Local Open Scope list_scope.
Local Open Scope N_scope.

Local Lemma Ok_inj {A} (a b : A) : Ok a = Ok b -> a = b.
Proof. now intros [= ->]. Qed.

Section Marker.
  Context {T : Type} (ser_row : T -> imap ty -> res (list (text * value))).

  (** A row that contributes no value: it cannot be serialized, or it has no columns at all. *)
  Definition gives_nothing (types : imap ty) (x : T) : Prop := (exists e, ser_row x types = Err e) \/ ser_row x types = Ok [].
  Definition gives_something (types : imap ty) (x : T) : Prop := exists kv row, ser_row x types = Ok (kv :: row).

  Lemma marker_iff types rows b : insert_block ser_row types rows = Ok b ->
    (no_columns b = true <-> Forall (gives_nothing types) rows).
  Proof.
    intros I. unfold insert_block in I. destruct (push_rows ser_row types rows []) as [m| |] eqn:P; try discriminate I.
    cbn [rbind] in I. apply Ok_inj in I. subst b. unfold no_columns. cbn [b_types b_data].
    destruct (push_rows_spec ser_row types rows [] m P) as (_ & N & F & K). specialize (N (NoDup_nil _)). split.
    - intros NC. apply Forall_forall. intros x X. destruct (proj1 (Forall_forall _ _) F x X) as [NP V].
      destruct (ser_row x types) as [[|[k v] row]|e|] eqn:S; [right; exact S|exfalso|left; now exists e|now elim NP].
      assert (SR : serialized ser_row types x = (k, v) :: row) by (unfold serialized; now rewrite S).
      rewrite SR in V. destruct (Forall_inv V) as (t & G & _). cbn [fst] in G. apply im_get_some_in in G.
      pose proof (proj1 (forallb_forall _ _) NC _ G) as NG. cbn [fst] in NG.
      assert (IK : In k (im_keys m)). { apply K. right. exists x. split; [exact X|]. rewrite SR. now left. }
      apply in_map_iff in IK as ([k' vs] & E & IK). cbn in E. subst k'. rewrite (im_get_in k m vs N IK) in NG. discriminate NG.
    - intros G. assert (M : m = []).
      { destruct m as [|[k vs] m]; [reflexivity|]. exfalso. destruct (proj1 (K k) (or_introl eq_refl)) as [[]|(x & X & IN)].
        unfold serialized in IN. destruct (proj1 (Forall_forall _ _) G x X) as [[e E]|E]; rewrite E in IN; destruct IN. }
      subst m. apply forallb_forall. intros e _. reflexivity.
  Qed.

  (** A batch of rows that contribute nothing is always accepted. *)
  Lemma nothing_block types rows : Forall (gives_nothing types) rows ->
    insert_block ser_row types rows = Ok {| b_info := default_info; b_rows := lenN rows; b_types := types; b_data := [] |}.
  Proof.
    intros F. unfold insert_block. assert (P : push_rows ser_row types rows [] = Ok []).
    { induction F as [|x rows [[e E]|E] F IH]; cbn [push_rows]; [reflexivity|rewrite E; exact IH|rewrite E; cbn [push_row rbind]; exact IH]. }
    rewrite P. reflexivity.
  Qed.

  Lemma of_key_le1 k row : NoDup (map fst row) -> (length (of_key k row) <= 1)%nat.
  Proof.
    intros ND. destruct (in_dec (list_eq_dec N.eq_dec) k (map fst row)) as [J|J].
    - rewrite (of_key_val k row ND J). cbn. lia.
    - rewrite (of_key_none k row J). cbn. lia.
  Qed.

  (** All or nothing: if the block can be written, either all rows give the same columns or none
      gives any. *)
  Lemma all_or_none types rows b D rev bytes : NoDup (im_keys types) ->
    (forall x row, In x rows -> ser_row x types = Ok row -> NoDup (map fst row)) ->
    insert_block ser_row types rows = Ok b -> write_block D rev b = Ok bytes ->
    (exists names, names <> [] /\ Forall (fun x => exists row, ser_row x types = Ok row /\ Permutation (map fst row) names) rows) \/
    Forall (gives_nothing types) rows.
  Proof.
    intros NT ND I W. pose proof I as I'. unfold insert_block in I. destruct (push_rows ser_row types rows []) as [m| |] eqn:P; try discriminate I.
    cbn [rbind] in I. apply Ok_inj in I. destruct (push_rows_spec ser_row types rows [] m P) as (C & N & F & K). specialize (N (NoDup_nil _)).
    destruct m as [|kv m0] eqn:EM.
    { right. subst b. apply (proj1 (marker_iff types rows _ I')). unfold no_columns. cbn [b_types b_data]. apply forallb_forall. reflexivity. }
    left. rewrite <- EM in *. exists (im_keys m). split; [rewrite EM; discriminate|].
    apply Forall_forall. intros x X.
    assert (LEN : forall k, In k (im_keys m) -> length (flat_map (fun r => of_key k (serialized ser_row types r)) rows) = length rows).
    { intros k IK. destruct (proj1 (K k) IK) as [[]|(y & Y & IN)]. apply in_map_iff in IN as ([k' v] & E & IN). cbn in E. subst k'.
      destruct (proj1 (Forall_forall _ _) F y Y) as [_ V]. destruct (proj1 (Forall_forall _ _) V _ IN) as (t & G & _). cbn [fst] in G.
      apply in_map_iff in IK as ([k' vs] & E & IK). cbn in E. subst k'. pose proof (im_get_in k m vs N IK) as GM.
      assert (L : lenN vs = b_rows b). { apply (write_block_lengths D rev b bytes) with (k := k) (t := t); subst b; cbn [b_types b_data]; auto using im_get_some_in. }
      subst b. cbn [b_rows] in L. pose proof (C k) as Ck. unfold col in Ck. cbn [im_get app] in Ck. rewrite GM in Ck. unfold lenN in L. rewrite <- Ck. lia. }
    assert (HAS : forall k, In k (im_keys m) -> In k (map fst (serialized ser_row types x))).
    { intros k IK. destruct (in_dec (list_eq_dec N.eq_dec) k (map fst (serialized ser_row types x))) as [J|J]; [exact J|exfalso].
      specialize (LEN k IK). apply in_split in X as (l1 & l2 & ->). rewrite flat_map_app, !app_length in LEN. cbn [flat_map length] in LEN.
      rewrite (of_key_none k _ J) in LEN. cbn [app] in LEN.
      assert (LE : forall l, (forall r, In r l -> NoDup (map fst (serialized ser_row types r))) ->
        (length (flat_map (fun r => of_key k (serialized ser_row types r)) l) <= length l)%nat).
      { induction l as [|r l IH]; intros Q; [cbn; lia|]. cbn [flat_map length]. rewrite app_length.
        pose proof (of_key_le1 k _ (Q r (or_introl eq_refl))). specialize (IH (fun r' H => Q r' (or_intror H))). lia. }
      assert (Q : forall r, In r (l1 ++ x :: l2) -> NoDup (map fst (serialized ser_row types r))).
      { intros r R. unfold serialized. destruct (ser_row r types) as [row| |] eqn:E; [exact (ND r row R E)|constructor|constructor]. }
      pose proof (LE l1 (fun r R => Q r (in_or_app l1 (x :: l2) r (or_introl R)))). pose proof (LE l2 (fun r R => Q r (in_or_app l1 (x :: l2) r (or_intror (or_intror R))))). lia. }
    destruct (ser_row x types) as [row|e|] eqn:S.
    - exists row. split; [reflexivity|]. assert (SR : serialized ser_row types x = row) by (unfold serialized; now rewrite S). rewrite SR in HAS.
      apply NoDup_Permutation; [exact (ND x row X S)|exact N|]. intros k. split; [|apply HAS].
      intros J. apply K. right. exists x. rewrite SR. auto.
    - exfalso. assert (IK : In (fst kv) (im_keys m)) by (rewrite EM; now left). specialize (HAS _ IK). unfold serialized in HAS. rewrite S in HAS. destruct HAS.
    - exfalso. destruct (proj1 (Forall_forall _ _) F x X) as [NP _]. now elim NP.
  Qed.
End Marker.

Lemma join_nothing types data : forallb (fun e => match im_get (fst e) data with Some _ => false | None => true end) types = true ->
  @join_columns types data = [].
Proof.
  induction types as [|[k t] types IH]; intros H; [reflexivity|]. cbn [forallb fst] in H. apply andb_prop in H as [H1 H2]. cbn [join_columns].
  assert (G : im_swap_remove k data = None).
  { destruct (im_get k data) eqn:E; [discriminate H1|]. clear - E. induction data as [|[k' a] data IH]; [reflexivity|]. cbn [im_get] in E. cbn [im_swap_remove].
    destruct (text_eqb k k'); [discriminate E|]. rewrite (IH E). reflexivity. }
  rewrite G. exact (IH H2).
Qed.
Lemma join_something types data k t vs : In (k, t) types -> im_get k data = Some vs -> NoDup (im_keys types) -> NoDup (im_keys data) -> @join_columns types data <> [].
Proof.
  revert data. induction types as [|[k' t'] types IH]; intros data I G NT ND; [destruct I|]. cbn [join_columns].
  pose proof (swap_remove_get k' data ND) as SG. destruct (im_swap_remove k' data) as [[a data']|] eqn:E; [discriminate|].
  destruct I as [I|I]; [injection I as -> ->; exfalso; rewrite SG in G; discriminate G|]. apply IH; auto. now inversion NT.
Qed.

(** What is on the wire for a block: the number of columns is the first count, and it is 0 exactly
    for blocks without columns. *)
Lemma wire_count D rev b bytes : NoDup (im_keys (b_types b)) -> NoDup (im_keys (b_data b)) -> write_block D rev b = Ok bytes ->
  exists n rest, bytes = (if 0 <? rev then write_info (b_info b) else []) ++ write_var_uint n ++ write_var_uint (b_rows b) ++ rest /\
    (n = 0 <-> no_columns b = true) /\ (n = 0 -> rest = []).
Proof.
  intros NT ND W. unfold write_block in W. destruct (mapM (write_column D (b_rows b)) (join_columns (b_types b) (b_data b))) as [cols| |] eqn:E; try discriminate W.
  cbn [rbind] in W. apply Ok_inj in W. subst bytes. exists (lenN (join_columns (b_types b) (b_data b))), (concat cols). split; [reflexivity|]. split.
  - split.
    + intros Z. destruct (no_columns b) eqn:NC; [reflexivity|exfalso]. unfold no_columns in NC.
      assert (J : exists e, In e (b_types b) /\ im_get (fst e) (b_data b) <> None).
      { clear - NC. induction (b_types b) as [|e l IH]; [discriminate NC|]. cbn [forallb] in NC. destruct (im_get (fst e) (b_data b)) eqn:G.
        - exists e. split; [now left|congruence].
        - destruct (IH NC) as (e' & I & H). exists e'. split; [now right|exact H]. }
      destruct J as ([k t] & I & H). cbn [fst] in H. destruct (im_get k (b_data b)) as [vs|] eqn:G; [|now elim H].
      apply (join_something _ _ k t vs I G NT ND). unfold lenN in Z. destruct (join_columns (b_types b) (b_data b)); [reflexivity|cbn in Z; lia].
    + intros NC. rewrite (join_nothing _ _ NC). reflexivity.
  - intros Z. unfold lenN in Z. destruct (join_columns (b_types b) (b_data b)); [|cbn in Z; lia]. cbn in E. apply Ok_inj in E. subst cols. reflexivity.
Qed.

Lemma marker_written D rev b : no_columns b = true ->
  write_block D rev b = Ok ((if 0 <? rev then write_info (b_info b) else []) ++ write_var_uint 0 ++ write_var_uint (b_rows b)).
Proof.
  intros NC. unfold write_block. rewrite (join_nothing _ _ NC). cbn [mapM rbind]. f_equal. f_equal. f_equal. cbn [concat]. apply app_nil_r.
Qed.

(** What of a sequence of blocks a server takes as the data of the insert: all up to the first one
    without columns. *)
Fixpoint taken (blocks : list block) : list block :=
  match blocks with [] => [] | b :: r => if no_columns b then [] else b :: taken r end.

Lemma taken_prefix {T} (ser_row : T -> imap ty -> res (list (text * value))) types before bad after blocks :
  insert_batches ser_row types (before ++ bad :: after) = (blocks, Ok tt) ->
  (forall rows, In rows before -> rows <> [] -> Exists (gives_something ser_row types) rows) ->
  bad <> [] -> Forall (gives_nothing ser_row types) bad ->
  Forall2 (fun rows b => insert_block ser_row types rows = Ok b) (filter (fun l => match l with [] => false | _ => true end) before) (taken blocks).
Proof.
  intros I S NE G. destruct (insert_batches_ok ser_row types _ _ I) as (data & -> & F). clear I. revert data F.
  induction before as [|rows before IH]; intros data F.
  - cbn [app filter] in F. destruct bad as [|x bad]; [now elim NE|]. inversion F as [|? b ? ? IB F' E1 E2]; subst. cbn [filter app taken].
    rewrite (proj2 (marker_iff ser_row types _ _ IB) G). constructor.
  - destruct rows as [|x rows].
    + cbn [app filter] in F |- *. apply IH; [|exact F]. intros r R. apply S. now right.
    + cbn [app filter] in F |- *. inversion F as [|? b ? data' IB F' E1 E2]; subst. cbn [app taken].
      assert (NM : no_columns b = false).
      { destruct (no_columns b) eqn:E; [exfalso|reflexivity]. pose proof (proj1 (marker_iff ser_row types _ _ IB) E) as G'.
        specialize (S _ (or_introl eq_refl)). assert (X : x :: rows <> []) by discriminate. apply S in X.
        apply Exists_exists in X as (y & Y & kv & row & H). destruct (proj1 (Forall_forall _ _) G' y Y) as [[e H']|H']; congruence. }
      rewrite NM. constructor; [exact IB|]. apply IH; [|exact F']. intros r R. apply S. now right.
Qed.

Lemma nothing_inserted {T} (ser_row : T -> imap ty -> res (list (text * value))) types batches :
  Forall (gives_nothing ser_row types) (concat batches) ->
  exists blocks, insert_batches ser_row types batches = (blocks, Ok tt) /\ taken blocks = [].
Proof.
  induction batches as [|rows batches IH]; intros F.
  - eexists. split; [reflexivity|]. reflexivity.
  - cbn [concat] in F. apply Forall_app in F as [F1 F2]. destruct (IH F2) as (bs & E & _). destruct rows as [|x rows].
    + cbn [insert_batches]. exact (IH F2).
    + cbn [insert_batches]. rewrite (nothing_block ser_row types (x :: rows) F1), E. eexists. split; [reflexivity|]. cbn [taken].
      assert (NM : no_columns {| b_info := default_info; b_rows := lenN (x :: rows); b_types := types; b_data := [] |} = true) by (apply forallb_forall; reflexivity).
      rewrite NM. reflexivity.
Qed.
