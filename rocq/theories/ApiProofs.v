From Verif Require Import Base Types Text IndexMap Block BlockSpec BlockProofs Progress Protocol Connection Api.
From Coq Require Import Lia.
Local Open Scope list_scope.

(* ---------------- results ---------------- *)
(** A block whose columns all have the announced length, with a type for every column, and fewer
    than 2^57 rows. *)
Definition proper (b : block) : Prop := full b /\ typed b /\ (b_data b = [] -> b_rows b = 0) /\ b_rows b < 2 ^ 57.
(** Row [i]: the [i]-th value of every column, with the column's name and type. *)
Definition row_of (b : block) (i : nat) : list (text * ty * value) :=
  map (fun e => (fst e, strip_low_cardinality (type_of b (fst e)), nth i (snd e) VNull)) (b_data b).
Definition rows_of (b : block) : list (list (text * ty * value)) := map (row_of b) (seq 0 (N.to_nat (b_rows b))).

Lemma item_rows_spec {T} (d : _ -> res T) b : proper b -> item_rows d (IBlock b) = map d (rows_of b).
Proof.
  intros (F & TY & Z & RM). unfold item_rows. destruct (b_data b) as [|c cs] eqn:D.
  - unfold take_iter_rows, rows_of. rewrite D, (Z eq_refl). reflexivity.
  - rewrite take_iter_spec by (congruence || assumption). unfold rows_of, row_of. rewrite D. f_equal.
    generalize (seq 0 (N.to_nat (b_rows b))). induction l as [|i l IH]; [reflexivity|]. cbn [map filter].
    match goal with |- (if ?c then _ else _) = _ => replace c with true by reflexivity end. f_equal. exact IH.
Qed.

Definition item_answer {T} (d : list (text * ty * value) -> res T) (i : item) : list (res T) :=
  match i with IBlock b => map d (rows_of b) | IError _ => [Err EServerException] end.
Definition proper_item (i : item) : Prop := match i with IBlock b => proper b | IError _ => True end.

Lemma query_spec {T} (d : _ -> res T) items : Forall proper_item items -> query d items = flat_map (item_answer d) items.
Proof.
  unfold query. induction 1 as [|i l H _ IH]; [reflexivity|]. cbn. rewrite IH. f_equal.
  destruct i as [b|e]; [now apply item_rows_spec|reflexivity].
Qed.

Lemma collect_ok {T} (s : list (res T)) out : collect s = Ok out <-> s = map Ok out.
Proof.
  revert out. induction s as [|[r|e|] s IH]; intros out; cbn.
  - split; [intros H; injection H as <-; reflexivity|now destruct out].
  - split.
    + destruct (collect s) as [o| |] eqn:E; cbn; intros H; try discriminate H. injection H as <-. cbn. f_equal. now apply IH.
    + destruct out as [|r' out]; [discriminate|]. cbn. intros H. injection H as -> H. rewrite (proj2 (IH out) H). reflexivity.
  - split; [discriminate|now destruct out].
  - split; [discriminate|now destruct out].
Qed.
Lemma collect_err {T} (s : list (res T)) e : collect s = Err e <-> exists rows rest, s = map Ok rows ++ Err e :: rest.
Proof.
  induction s as [|[r|e'|] s IH]; cbn.
  - split; [discriminate|]. intros (rows & rest & H). now destruct rows.
  - split.
    + destruct (collect s) as [o| |] eqn:E; cbn; intros H; try discriminate H. apply proj1 in IH. destruct (IH H) as (rows & rest & ->).
      now exists (r :: rows), rest.
    + intros (rows & rest & H). destruct rows as [|r' rows]; [discriminate H|]. cbn in H. injection H as -> H.
      rewrite (proj2 IH (ex_intro _ rows (ex_intro _ rest H))). reflexivity.
  - split.
    + intros H. injection H as ->. now exists [], s.
    + intros (rows & rest & H). destruct rows; cbn in H; [now injection H as ->|discriminate H].
  - split; [discriminate|]. intros (rows & rest & H). now destruct rows.
Qed.
Lemma collect_app_ok {T} (a : list T) s : collect (map Ok a ++ s) = match collect s with Ok o => Ok (a ++ o) | Err e => Err e | Panic => Panic end.
Proof. induction a as [|x a IH]; cbn; [now destruct (collect s)|]. rewrite IH. now destruct (collect s). Qed.

Definition is_error (i : item) : bool := match i with IError _ => true | _ => false end.
Lemma execute_spec items : Forall proper_item items ->
  execute items = if existsb is_error items then Err EServerException else Ok tt.
Proof.
  intros H. unfold execute, query_collect. rewrite query_spec by exact H. clear H.
  assert (E : match collect (flat_map (item_answer (fun row : list (text * ty * value) => Ok row)) items) with
              | Ok _ => existsb is_error items = false | Err e => existsb is_error items = true /\ e = EServerException | Panic => False end).
  { induction items as [|[b|e] items IH]; cbn; [reflexivity| |now split].
    rewrite collect_app_ok.
    destruct (collect (flat_map _ items)); exact IH. }
  destruct (collect _); cbn; [now rewrite E|now destruct E as [-> ->]|destruct E].
Qed.

(* ---------------- inserts ---------------- *)
Section Insert.
  Context {T : Type} (ser_row : T -> imap ty -> res (list (text * value))).

  Definition col (k : text) (m : imap (list value)) : list value := match im_get k m with Some vs => vs | None => [] end.
  (** The values of column [k] in a row. *)
  Definition of_key (k : text) (row : list (text * value)) : list value := map snd (filter (fun e => text_eqb k (fst e)) row).
  Definition serialized (types : imap ty) (r : T) : list (text * value) := match ser_row r types with Ok row => row | _ => [] end.

  Lemma im_get_insert {A} k k' (a : A) m : im_get k (im_insert k' a m) = if text_eqb k k' then Some a else im_get k m.
  Proof.
    induction m as [|[k2 a2] m IH]; cbn.
    - reflexivity.
    - destruct (text_eqb k' k2) eqn:E.
      + apply text_eqb_eq in E as ->. cbn. now destruct (text_eqb k k2).
      + cbn. rewrite IH. destruct (text_eqb k k2) eqn:E2; [|reflexivity]. apply text_eqb_eq in E2 as ->.
        destruct (text_eqb k2 k') eqn:E3; [|reflexivity]. apply text_eqb_eq in E3 as ->. rewrite text_eqb_refl in E. discriminate E.
  Qed.
  Lemma col_push k k' v m : col k (push_value k' v m) = col k m ++ (if text_eqb k k' then [v] else []).
  Proof.
    unfold push_value, col. destruct (im_get k' m) as [vs|] eqn:G; rewrite im_get_insert; destruct (text_eqb k k') eqn:E.
    - apply text_eqb_eq in E as ->. now rewrite G.
    - now rewrite app_nil_r.
    - apply text_eqb_eq in E as ->. now rewrite G.
    - now rewrite app_nil_r.
  Qed.
  Lemma nonempty_push k v m : Forall (fun e : text * list value => snd e <> []) m -> Forall (fun e : text * list value => snd e <> []) (push_value k v m).
  Proof.
    intros H. unfold push_value.
    assert (G : forall vs m, vs <> [] -> Forall (fun e : text * list value => snd e <> []) m -> Forall (fun e : text * list value => snd e <> []) (im_insert k vs m)).
    { intros vs. induction m0 as [|[k2 v2] m0 IH]; intros N F; cbn; [constructor; [exact N|constructor]|].
      destruct (text_eqb k k2); constructor; cbn; auto; try (exact (Forall_inv_tail F)); try (exact (Forall_inv F)).
      apply IH; [exact N|exact (Forall_inv_tail F)]. }
    destruct (im_get k m) as [vs|]; apply G; auto; try discriminate. now destruct vs.
  Qed.
  Lemma keys_insert {A} k (a : A) m : im_keys (im_insert k a m) = if existsb (text_eqb k) (im_keys m) then im_keys m else im_keys m ++ [k].
  Proof.
    induction m as [|[k2 a2] m IH]; cbn; [reflexivity|]. destruct (text_eqb k k2) eqn:E; cbn; [reflexivity|].
    unfold im_keys in *. rewrite IH. now destruct (existsb (text_eqb k) (map fst m)).
  Qed.
  Lemma existsb_text k l : existsb (text_eqb k) l = true <-> In k l.
  Proof.
    rewrite existsb_exists. split.
    - intros (x & H & E). apply text_eqb_eq in E as ->. exact H.
    - intros H. exists k. split; [exact H|apply text_eqb_refl].
  Qed.
  Lemma keys_push k v m : im_keys (push_value k v m) = if existsb (text_eqb k) (im_keys m) then im_keys m else im_keys m ++ [k].
  Proof. unfold push_value. destruct (im_get k m); apply keys_insert. Qed.
  Lemma nodup_push k v m : NoDup (im_keys m) -> NoDup (im_keys (push_value k v m)).
  Proof.
    intros H. rewrite keys_push. destruct (existsb (text_eqb k) (im_keys m)) eqn:E; [exact H|].
    assert (N : ~ In k (im_keys m)) by (intros I; apply existsb_text in I; congruence).
    clear E. revert N H. generalize (im_keys m). induction l as [|x l IH]; cbn; intros N H; [constructor; [easy|constructor]|].
    apply NoDup_cons_iff in H as [H1 H2]. constructor; [|apply IH; auto]. rewrite in_app_iff. cbn. intuition.
  Qed.

  Lemma push_row_spec types row : forall m m', push_row types row m = Ok m' ->
    (forall k, col k m' = col k m ++ of_key k row) /\ (NoDup (im_keys m) -> NoDup (im_keys m')) /\
    Forall (fun e => exists t, im_get (fst e) types = Some t /\ validate_value t (snd e) = Ok tt) row /\
    (forall k, In k (im_keys m') <-> In k (im_keys m) \/ In k (map fst row)).
  Proof.
    induction row as [|[k v] row IH]; intros m m' H; cbn [push_row] in H.
    - injection H as <-. split; [intros k; cbn; now rewrite app_nil_r|]. split; [auto|]. split; [constructor|]. intros k. cbn. tauto.
    - destruct (im_get k types) as [t|] eqn:G; [|discriminate H]. destruct (validate_value t v) as [[]| |] eqn:V; try discriminate H.
      cbn [rbind] in H. destruct (IH _ _ H) as (C & N & F & K). split; [|split; [|split]].
      + intros k'. rewrite C, col_push. unfold of_key. cbn [filter fst]. rewrite <- app_assoc. f_equal.
        destruct (text_eqb k' k); reflexivity.
      + intros ND. apply N. now apply nodup_push.
      + constructor; [exists t; now split|exact F].
      + intros k'. rewrite K, keys_push. cbn [map fst In]. destruct (existsb (text_eqb k) (im_keys m)) eqn:E.
        * apply existsb_text in E. intuition. subst. now left.
        * rewrite in_app_iff. cbn. intuition.
  Qed.
  Lemma push_rows_spec types rows : forall m m', push_rows ser_row types rows m = Ok m' ->
    (forall k, col k m' = col k m ++ flat_map (fun r => of_key k (serialized types r)) rows) /\
    (NoDup (im_keys m) -> NoDup (im_keys m')) /\
    Forall (fun r => ser_row r types <> Panic /\
      Forall (fun e => exists t, im_get (fst e) types = Some t /\ validate_value t (snd e) = Ok tt) (serialized types r)) rows /\
    (forall k, In k (im_keys m') <-> In k (im_keys m) \/ exists r, In r rows /\ In k (map fst (serialized types r))).
  Proof.
    induction rows as [|r rows IH]; intros m m' H; cbn [push_rows] in H.
    - injection H as <-. split; [intros k; cbn; now rewrite app_nil_r|]. split; [auto|]. split; [constructor|].
      intros k. split; [auto|]. intros [K|(r & [] & _)]. exact K.
    - destruct (ser_row r types) as [row|e|] eqn:S; [| |discriminate H].
      + destruct (push_row types row m) as [m1| |] eqn:P; cbn [rbind] in H; try discriminate H.
        destruct (push_row_spec types row m m1 P) as (C1 & N1 & F1 & K1). destruct (IH _ _ H) as (C & N & F & K).
        assert (SR : serialized types r = row) by (unfold serialized; now rewrite S).
        split; [|split; [|split]].
        * intros k. rewrite C, C1. cbn [flat_map]. now rewrite SR, <- app_assoc.
        * auto.
        * constructor; [split; [congruence|now rewrite SR]|exact F].
        * intros k. rewrite K, K1, <- SR. split.
          -- intros [[X|X]|(r' & X & Y)]; [now left|right; exists r; split; [now left|exact X]|right; exists r'; split; [now right|exact Y]].
          -- intros [X|(r' & [->|X] & Y)]; [auto|auto|right; eauto].
      + destruct (IH _ _ H) as (C & N & F & K).
        assert (SR : serialized types r = []) by (unfold serialized; now rewrite S).
        split; [|split; [|split]].
        * intros k. rewrite C. cbn [flat_map]. now rewrite SR.
        * auto.
        * constructor; [split; [congruence|rewrite SR; constructor]|exact F].
        * intros k. rewrite K. split.
          -- intros [X|(r' & X & Y)]; [now left|right; exists r'; split; [now right|exact Y]].
          -- intros [X|(r' & [<-|X] & Y)]; [auto|rewrite SR in Y; destruct Y|right; eauto].
  Qed.
End Insert.

Section Insert2.
  Context {T : Type} (ser_row : T -> imap ty -> res (list (text * value))).
  Let serialized := serialized ser_row.

  Definition add_key (ks : list text) (k : text) : list text := if existsb (text_eqb k) ks then ks else ks ++ [k].
  Lemma push_row_keys types row : forall m m', push_row types row m = Ok m' -> im_keys m' = fold_left add_key (map fst row) (im_keys m).
  Proof.
    induction row as [|[k v] row IH]; intros m m' H; cbn [push_row] in H; [now injection H as <-|].
    destruct (im_get k types) as [t|]; [|discriminate H]. destruct (validate_value t v) as [[]| |]; try discriminate H. cbn [rbind] in H.
    rewrite (IH _ _ H), keys_push. reflexivity.
  Qed.
  Lemma add_keys_known l ks : incl l ks -> fold_left add_key l ks = ks.
  Proof.
    revert ks. induction l as [|k l IH]; intros ks H; [reflexivity|]. cbn. unfold add_key at 2.
    rewrite (proj2 (existsb_text k ks)) by (apply H; now left). apply IH. intros x X. apply H. now right.
  Qed.
  Lemma add_keys_new l ks : NoDup (ks ++ l) -> fold_left add_key l ks = ks ++ l.
  Proof.
    revert ks. induction l as [|k l IH]; intros ks H; [now rewrite app_nil_r|]. cbn. unfold add_key at 2.
    destruct (existsb (text_eqb k) ks) eqn:E.
    - apply existsb_text in E. apply NoDup_remove_2 in H. exfalso. apply H. apply in_or_app. now left.
    - rewrite IH by (now rewrite <- app_assoc). now rewrite <- app_assoc.
  Qed.
  Lemma push_rows_keys types rows ks : NoDup ks ->
    (forall r, In r rows -> exists row, ser_row r types = Ok row /\ map fst row = ks) ->
    forall m m', push_rows ser_row types rows m = Ok m' -> im_keys m = ks \/ im_keys m = [] ->
    im_keys m' = match rows with [] => im_keys m | _ => ks end.
  Proof.
    intros ND. induction rows as [|r rows IH]; intros H m m' P K; cbn [push_rows] in P; [now injection P as <-|].
    destruct (H r (or_introl eq_refl)) as (row & S & KR). rewrite S in P.
    destruct (push_row types row m) as [m1| |] eqn:PR; cbn [rbind] in P; try discriminate P.
    assert (K1 : im_keys m1 = ks).
    { rewrite (push_row_keys types row m m1 PR), KR. destruct K as [->| ->]; [apply add_keys_known; apply incl_refl|now apply add_keys_new]. }
    rewrite (IH (fun r' X => H r' (or_intror X)) m1 m' P (or_introl K1)). destruct rows; [exact K1|reflexivity].
  Qed.

  Lemma of_key_one k v row : NoDup (map fst row) -> In (k, v) row -> of_key k row = [v].
  Proof.
    unfold of_key. induction row as [|[k2 v2] row IH]; intros ND I; [destruct I|]. cbn [filter fst]. cbn in ND.
    apply NoDup_cons_iff in ND as [N ND]. destruct (text_eqb k k2) eqn:E.
    - apply text_eqb_eq in E as ->. destruct I as [I|I]; [|apply (in_map fst) in I; contradiction]. injection I as ->. cbn. f_equal.
      assert (Z : filter (fun e : text * value => text_eqb k2 (fst e)) row = []).
      { clear IH. induction row as [|[k3 v3] row IH]; [reflexivity|]. cbn in *. destruct (text_eqb k2 k3) eqn:E.
        - apply text_eqb_eq in E as ->. exfalso. apply N. now left.
        - apply IH; [|now apply NoDup_cons_iff in ND]. auto. }
      now rewrite Z.
    - destruct I as [I|I]; [injection I as <- <-; rewrite text_eqb_refl in E; discriminate E|]. now apply IH.
  Qed.
  Lemma of_key_none k row : ~ In k (map fst row) -> of_key k row = [].
  Proof.
    unfold of_key. induction row as [|[k2 v2] row IH]; intros N; [reflexivity|]. cbn in *. destruct (text_eqb k k2) eqn:E.
    - apply text_eqb_eq in E as ->. exfalso. apply N. now left.
    - apply IH. auto.
  Qed.
  Definition val (k : text) (row : list (text * value)) : value := hd VNull (of_key k row).
  Lemma of_key_val k row : NoDup (map fst row) -> In k (map fst row) -> of_key k row = [val k row].
  Proof.
    intros ND I. apply in_map_iff in I as ([k2 v] & E & I). cbn in E. subst k2. unfold val. now rewrite (of_key_one k v row ND I).
  Qed.
  Lemma row_by_key row : NoDup (map fst row) -> row = map (fun k => (k, val k row)) (map fst row).
  Proof.
    intros ND. rewrite map_map. rewrite <- (map_id row) at 1. apply map_ext_in. intros [k v] I. cbn. unfold val.
    now rewrite (of_key_one k v row ND I).
  Qed.

  Lemma map_by_keys {A} (m : imap A) (d : A) : NoDup (im_keys m) -> m = map (fun k => (k, match im_get k m with Some a => a | None => d end)) (im_keys m).
  Proof.
    intros ND. unfold im_keys. rewrite map_map. rewrite <- (map_id m) at 1. apply map_ext_in. intros [k a] I. cbn.
    now rewrite (im_get_in k m a ND I).
  Qed.

  Theorem insert_block_rows types rows ks b : rows <> [] -> NoDup ks ->
    (forall r, In r rows -> exists row, ser_row r types = Ok row /\ map fst row = ks) ->
    insert_block ser_row types rows = Ok b ->
    b_rows b = lenN rows /\ b_types b = types /\ full b /\ typed b /\ iter_rows b = map (serialized types) rows /\
    Forall (fun e => Forall (fun v => exists t, im_get (fst e) types = Some t /\ validate_value t v = Ok tt) (snd e)) (b_data b).
  Proof.
    intros NE ND H I. unfold insert_block in I. destruct (push_rows ser_row types rows []) as [m| |] eqn:P; try discriminate I.
    cbn [rbind] in I. injection I as <-. destruct (push_rows_spec ser_row types rows [] m P) as (C & N & F & K).
    pose proof (push_rows_keys types rows ks ND H [] m P (or_intror eq_refl)) as KS.
    assert (KS' : im_keys m = ks) by (destruct rows; [contradiction|exact KS]). clear KS.
    assert (SR : forall r, In r rows -> ser_row r types = Ok (serialized types r) /\ map fst (serialized types r) = ks).
    { intros r R. destruct (H r R) as (row & S & KR). unfold serialized, ApiProofs.serialized. rewrite S. now split. }
    assert (COL : forall k, In k ks -> col k m = map (fun r => val k (serialized types r)) rows).
    { intros k IK. rewrite C. change (col k []) with (@nil value). cbn [app]. clear - SR ND IK.
      induction rows as [|r rows IH]; [reflexivity|]. cbn [flat_map map]. destruct (SR r (or_introl eq_refl)) as [_ KR].
      change (ApiProofs.serialized ser_row types r) with (serialized types r).
      rewrite (of_key_val k (serialized types r)) by (rewrite KR; assumption). cbn [app]. f_equal. apply IH. intros r' R'. apply SR. now right. }
    assert (M : m = map (fun k => (k, map (fun r => val k (serialized types r)) rows)) ks).
    { rewrite (map_by_keys m []) by (rewrite KS'; exact ND). rewrite KS'. apply map_ext_in. intros k IK. f_equal. exact (COL k IK). }
    assert (FU : full {| b_info := default_info; b_rows := lenN rows; b_types := types; b_data := m |}).
    { unfold full. cbn. rewrite M. apply Forall_forall. intros e E. apply in_map_iff in E as (k & <- & _). cbn. unfold lenN. now rewrite map_length. }
    split; [reflexivity|]. split; [reflexivity|]. split; [exact FU|]. split; [|split].
    - intros k IK. cbn in *. apply K in IK as [[]|(r & R & IK)]. rewrite Forall_forall in F. destruct (F r R) as [_ F'].
      apply in_map_iff in IK as ([k' v] & E & IK). cbn in E. subst k'. rewrite Forall_forall in F'. destruct (F' _ IK) as (t & G & _).
      cbn in G. congruence.
    - rewrite iter_rows_spec by exact FU. cbn [b_data b_rows]. rewrite M.
      assert (L : N.to_nat (lenN rows) = length rows) by (unfold lenN; lia). rewrite L.
      rewrite (map_ext_in _ (fun i => nth i (map (serialized types) rows) [])).
      + assert (G : forall l : list (list (text * value)), map (fun i => nth i l []) (seq 0 (length l)) = l).
        { induction l as [|x l IH]; [reflexivity|]. cbn. f_equal. rewrite <- seq_shift, map_map. exact IH. }
        rewrite <- (map_length (serialized types) rows). apply G.
      + intros i IN. apply in_seq in IN. destruct (nth_error rows i) as [r|] eqn:NR; [|apply nth_error_None in NR; lia].
        pose proof (nth_error_In _ _ NR) as R. destruct (SR r R) as [_ KR].
        assert (NS : nth i (map (serialized types) rows) [] = serialized types r).
        { apply nth_error_nth. now apply map_nth_error. }
        rewrite NS. rewrite (row_by_key (serialized types r)) by (rewrite KR; exact ND). rewrite KR, map_map. apply map_ext_in. intros k IK. cbn. f_equal.
        apply nth_error_nth. now rewrite (map_nth_error (fun r0 => val k (serialized types r0)) i rows NR).
    - cbn. apply Forall_forall. intros [k vs] E. cbn. apply Forall_forall. intros v V.
      pose proof (im_get_in k m vs (N (NoDup_nil _)) E) as G.
      assert (CV : In v (flat_map (fun r => of_key k (ApiProofs.serialized ser_row types r)) rows)).
      { pose proof (C k) as Ck. unfold col in Ck. cbn in Ck. rewrite G in Ck. rewrite <- Ck. exact V. }
      apply in_flat_map in CV as (r & R & CV). unfold of_key in CV. apply in_map_iff in CV as ([k' v'] & EQ & CV). cbn in EQ. subst v'.
      apply filter_In in CV as [CV EQ]. cbn in EQ. apply text_eqb_eq in EQ as <-.
      rewrite Forall_forall in F. destruct (F r R) as [_ F']. rewrite Forall_forall in F'. exact (F' _ CV).
  Qed.

  (** The block is built whenever every value is accepted. *)
  Theorem insert_block_succeeds types rows : 
    (forall r, In r rows -> ser_row r types <> Panic) ->
    (forall r k v, In r rows -> In (k, v) (serialized types r) -> exists t, im_get k types = Some t /\ validate_value t v = Ok tt) ->
    exists b, insert_block ser_row types rows = Ok b.
  Proof.
    intros NP V.
    assert (PR : forall row m, (forall k v, In (k, v) row -> exists t, im_get k types = Some t /\ validate_value t v = Ok tt) ->
      exists m', push_row types row m = Ok m').
    { induction row as [|[k v] row IH]; intros m H; [eexists; reflexivity|]. cbn [push_row].
      destruct (H k v (or_introl eq_refl)) as (t & -> & ->). cbn [rbind]. apply IH. intros k' v' I. apply H. now right. }
    assert (G : exists m', push_rows ser_row types rows [] = Ok m').
    { generalize (@nil (text * list value)). induction rows as [|r rows IH]; intros m; [eexists; reflexivity|]. cbn [push_rows].
      destruct (ser_row r types) as [row|e|] eqn:S.
      - destruct (PR row m) as [m1 ->].
        + intros k v I. apply (V r k v (or_introl eq_refl)). unfold serialized, ApiProofs.serialized. now rewrite S.
        + cbn [rbind]. apply IH; [intros r' R'; apply NP; now right|intros r' k v R'; apply V; now right].
      - apply IH; [intros r' R'; apply NP; now right|intros r' k v R'; apply V; now right].
      - elim (NP r (or_introl eq_refl) S). }
    destruct G as [m G]. unfold insert_block. rewrite G. eexists. reflexivity.
  Qed.

  (** Batches. *)
  Definition nonempty (l : list T) : bool := match l with [] => false | _ => true end.
  Theorem insert_batches_ok types batches bs : insert_batches ser_row types batches = (bs, Ok tt) ->
    exists data, bs = data ++ [empty_block] /\ Forall2 (fun rows b => insert_block ser_row types rows = Ok b) (filter nonempty batches) data.
  Proof.
    revert bs. induction batches as [|[|r rows] batches IH]; intros bs H; cbn [insert_batches] in H.
    - injection H as <-. exists []. split; [reflexivity|constructor].
    - cbn [filter nonempty]. auto.
    - destruct (insert_block ser_row types (r :: rows)) as [b| |] eqn:B; try discriminate H.
      destruct (insert_batches ser_row types batches) as [bs' r'] eqn:E. injection H as <- ->. destruct (IH bs' eq_refl) as (data & -> & F).
      exists (b :: data). split; [reflexivity|]. cbn [filter nonempty]. now constructor.
  Qed.
  Theorem insert_batches_fail types batches bs r : insert_batches ser_row types batches = (bs, r) -> r <> Ok tt ->
    exists done bad todo, filter nonempty batches = done ++ bad :: todo /\
      Forall2 (fun rows b => insert_block ser_row types rows = Ok b) done bs /\
      rmap (fun _ => tt) (insert_block ser_row types bad) = r.
  Proof.
    revert bs. induction batches as [|[|x rows] batches IH]; intros bs H NR; cbn [insert_batches] in H.
    - injection H as <- <-. now elim NR.
    - cbn [filter nonempty]. auto.
    - cbn [filter nonempty]. destruct (insert_block ser_row types (x :: rows)) as [b| |] eqn:B.
      + destruct (insert_batches ser_row types batches) as [bs' r'] eqn:E. injection H as <- ->. destruct (IH bs' eq_refl NR) as (done & bad & todo & -> & F & R).
        exists ((x :: rows) :: done), bad, todo. split; [reflexivity|]. split; [now constructor|exact R].
      + injection H as <- <-. exists [], (x :: rows), (filter nonempty batches). rewrite B. repeat split. constructor.
      + injection H as <- <-. exists [], (x :: rows), (filter nonempty batches). rewrite B. repeat split. constructor.
  Qed.

  (** A row that fails to serialize leaves the block short. *)
  Theorem skipped_row_short types rows b bad good k e : insert_block ser_row types rows = Ok b ->
    In bad rows -> ser_row bad types = Err e -> In good rows -> In k (map fst (serialized types good)) ->
    (forall r, In r rows -> NoDup (map fst (serialized types r))) ->
    exists vs t, im_get k (b_data b) = Some vs /\ im_get k types = Some t /\ lenN vs <> b_rows b.
  Proof.
    intros I B S G KG ND. unfold insert_block in I. destruct (push_rows ser_row types rows []) as [m| |] eqn:P; try discriminate I.
    cbn [rbind] in I. injection I as <-. cbn. destruct (push_rows_spec ser_row types rows [] m P) as (C & N & F & K).
    assert (IN : In k (im_keys m)) by (apply K; right; exists good; now split).
    apply in_map_iff in IN as ([k' vs] & E & IN). cbn in E. subst k'. pose proof (im_get_in k m vs (N (NoDup_nil _)) IN) as GM.
    exists vs. rewrite Forall_forall in F. destruct (F good G) as [_ FG]. apply in_map_iff in KG as ([k' v] & E & KG). cbn in E. subst k'.
    rewrite Forall_forall in FG. destruct (FG _ KG) as (t & TG & _). exists t. split; [exact GM|]. split; [exact TG|].
    pose proof (C k) as Ck. unfold col in Ck. cbn in Ck. rewrite GM in Ck. rewrite Ck. unfold lenN.
    assert (LE : forall l, (forall r, In r l -> NoDup (map fst (serialized types r))) ->
      (length (flat_map (fun r => of_key k (ApiProofs.serialized ser_row types r)) l) <= length l)%nat).
    { induction l as [|r l IH]; intros NDl; [cbn; lia|]. cbn [flat_map length]. rewrite app_length.
      assert (O : (length (of_key k (ApiProofs.serialized ser_row types r)) <= 1)%nat).
      { destruct (in_dec (list_eq_dec N.eq_dec) k (map fst (ApiProofs.serialized ser_row types r))) as [J|J].
        - rewrite (of_key_val k (ApiProofs.serialized ser_row types r) (NDl r (or_introl eq_refl)) J). cbn. lia.
        - rewrite (of_key_none k _ J). cbn. lia. }
      specialize (IH (fun r' X => NDl r' (or_intror X))). lia. }
    apply in_split in B as (l1 & l2 & ->). rewrite flat_map_app, !app_length. cbn [flat_map length].
    assert (Z : ApiProofs.serialized ser_row types bad = []) by (unfold ApiProofs.serialized; now rewrite S). rewrite Z. cbn [of_key filter map app].
    assert (L1 := LE l1 (fun r X => ND r (in_or_app l1 (bad :: l2) r (or_introl X)))).
    assert (L2 := LE l2 (fun r X => ND r (in_or_app l1 (bad :: l2) r (or_intror (or_intror X))))). cbn. lia.
  Qed.
End Insert2.
