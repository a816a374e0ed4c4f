(** Bounds on what decoding reserves. *)
From Coq Require Import Lia.
From Verif Require Import Base Io Types Ser Deser Text TypeText Block Compression Reserve ReserveSpec DecodeProofs DecodeProofs2 ColumnProofs BlockProofs DecodeTyped Utf8 ColumnRoundtrip.

(* ---------------- sizes ---------------- *)

Definition allowed (t : list N) (n : N) : Prop := n <= MAX_STRING_SIZE \/ In n t.
Notation within t l := (Forall (allowed t) l).

Lemma within_after {A} t (r : res (A * list N)) k : (forall a rest, r = Ok (a, rest) -> within t (k a rest)) -> within t (after r k).
Proof. intros H. destruct r as [[a rest]|e|]; cbn [after]; try constructor. now apply H. Qed.
Lemma within_each {A} t n (f : rd A) tr : (forall inp, within t (tr inp)) -> forall inp, within t (each n f tr inp).
Proof.
  intros H. induction n as [|n IH]; intros inp; cbn [each]; [constructor|]. apply Forall_app. split; [apply H|].
  apply within_after. intros. apply IH.
Qed.
Lemma within_refused t rows l : (rows <= MAX_STRING_SIZE -> within t l) -> within t (unless_refused rows l).
Proof. intros H. unfold unless_refused. destruct (N.ltb_spec MAX_STRING_SIZE rows); [constructor|auto]. Qed.
Lemma within_one t n : n <= MAX_STRING_SIZE -> within t [n].
Proof. intros H. repeat constructor. exact H. Qed.
Lemma within_string t inp : within t (string_reserved inp).
Proof.
  apply within_after. intros len rest _. destruct (N.ltb_spec MAX_STRING_SIZE len); [constructor|].
  destruct (len =? 0); [constructor|]. now apply within_one.
Qed.
Lemma within_float t rows inp : within t (float_reserved rows inp).
Proof. apply within_refused. apply within_one. Qed.
Lemma within_array t inner tr rows inp : rows <= MAX_STRING_SIZE -> (forall n inp, within t (tr n inp)) -> within t (array_reserved inner tr rows inp).
Proof.
  intros R H. unfold array_reserved. destruct (rows =? 0); [constructor|]. apply within_after. intros offs rest _.
  apply Forall_app. split; [apply H|]. apply within_after. intros. now apply within_one.
Qed.
Lemma within_point t rows inp : within t (point_reserved rows inp).
Proof.
  apply within_refused. intros R. apply Forall_app. split; [now apply within_one|]. apply Forall_app. split; [apply within_float|].
  apply within_after. intros. apply within_float.
Qed.
Lemma within_ring t rows inp : within t (ring_reserved rows inp).
Proof. apply within_refused. intros R. apply within_array; [exact R|]. intros. apply within_point. Qed.
Lemma within_polygon t rows inp : within t (polygon_reserved rows inp).
Proof. apply within_refused. intros R. apply within_array; [exact R|]. intros. apply within_ring. Qed.
Lemma within_multipolygon t rows inp : within t (multipolygon_reserved rows inp).
Proof. apply within_refused. intros R. apply within_array; [exact R|]. intros. apply within_polygon. Qed.
Lemma within_lc t inner tr nullable : (forall n inp, within t (tr n inp)) -> forall fuel limit st inp, within t (lc_reserved fuel inner tr nullable limit st inp).
Proof.
  intros H. induction fuel as [|f IH]; intros limit st inp; cbn [lc_reserved]; destruct (limit =? 0); try constructor.
  apply Forall_app. split.
  - destruct (num_pending st =? 0); [|constructor]. apply within_after. intros flags rest _. destruct (index_width flags); [|constructor].
    apply Forall_app. split.
    + destruct (_ && _); [|constructor]. apply within_after. auto.
    + apply within_after. intros. destruct (has_bit flags HAS_ADDITIONAL_KEYS_BIT); [|constructor]. apply within_after. auto.
  - apply within_after. intros st1 i1 _. apply Forall_app. split; [apply within_refused, within_one|].
    apply within_after. intros es i2 _. destruct (mapM _ es); try constructor. apply IH.
Qed.
Lemma within_weaken s t l : (forall n, In n s -> In n t) -> within s l -> within t l.
Proof. intros H. apply Forall_impl. intros n [A|A]; [now left|right; auto]. Qed.

Definition tuple_reserved (rows : N) : list ty -> list N -> list N :=
  fix go ts inp := match ts with
                   | [] => []
                   | t1 :: ts' => reserved t1 rows inp ++ after (deser t1 rows inp) (fun _ rest => go ts' rest)
                   end.
Lemma reserved_tuple ts rows inp : reserved (TTuple ts) rows inp = unless_refused rows ([lenN ts; rows] ++ tuple_reserved rows ts inp).
Proof. reflexivity. Qed.
Lemma reserved_lc t rows inp : reserved (TLowCard t) rows inp =
  unless_refused rows (lc_reserved (S (length inp)) (deser (strip_null t)) (reserved (strip_null t)) (is_nullable t) rows lc_init inp).
Proof. destruct t; reflexivity. Qed.

Lemma reserved_within t : forall rows inp, within (stated t) (reserved t rows inp).
Proof.
  induction t as [t Hl|t IH IHs|t IH|ts IH|t IH|k v IHk IHv] using ty_ind_strip; intros rows inp.
  - destruct t; try discriminate Hl; cbn [reserved stated]; apply within_refused; intros R;
      try (now apply within_one); try apply within_ring; try apply within_polygon; try apply within_multipolygon; try apply within_point;
      (apply Forall_app; split; [now apply within_one|]); apply within_each.
    + intros i. apply within_string.
    + intros i. constructor; [|constructor]. right. now left.
  - rewrite reserved_lc. apply within_refused. intros R. apply within_lc. intros n i. apply (within_weaken (stated (strip_null t))); [|apply IHs].
    now destruct t.
  - apply within_refused. intros R. apply within_array; [exact R|]. exact IH.
  - rewrite reserved_tuple. apply within_refused. intros R. cbn [stated]. constructor; [right; now left|]. constructor; [now left|].
    apply (within_weaken (flat_map stated ts)); [intros n I; now right|].
    revert inp. induction IH as [|t ts Ht _ IHts]; intros inp; cbn [tuple_reserved flat_map]; fold (tuple_reserved rows); [constructor|].
    apply Forall_app. split.
    + eapply within_weaken; [|apply Ht]. intros n I. apply in_or_app. now left.
    + apply within_after. intros. eapply within_weaken; [|apply IHts]. intros n I. apply in_or_app. now right.
  - cbn [reserved stated]. apply within_refused. intros R. constructor; [now left|]. apply within_after. intros. apply IH.
  - cbn [reserved stated]. apply within_refused. intros R. destruct (rows =? 0); [constructor|]. constructor; [now left|].
    apply within_after. intros offs r1 _. apply Forall_app. split; [eapply within_weaken; [|apply IHk]; intros; apply in_or_app; now left|].
    apply within_after. intros ks r2 _. destruct (negb _); [constructor|]. apply Forall_app. split; [eapply within_weaken; [|apply IHv]; intros; apply in_or_app; now right|].
    apply within_after. intros vs r3 _. destruct (negb _); [constructor|]. now apply within_one.
Qed.

(* ---------------- how many ---------------- *)

Definition spent {A} (inp : list N) (r : res (A * list N)) : nat :=
  match r with Ok (_, rest) => length inp - length rest | _ => length inp end%nat.
Definition meters {A} (k : nat) (r : rd A) (tr : list N -> list N) : Prop :=
  forall inp, (grabs (tr inp) <= k * (1 + spent inp (r inp)))%nat.

Lemma grabs_app a b : grabs (a ++ b) = (grabs a + grabs b)%nat.
Proof. unfold grabs. now rewrite filter_app, app_length. Qed.
Lemma grabs_one n : (grabs [n] <= 1)%nat.
Proof. unfold grabs. cbn [filter]. destruct (negb _); cbn [length]; lia. Qed.
Lemma grabs_nil : grabs [] = O. Proof. reflexivity. Qed.
Lemma spent_bind {A B} (r : rd A) (f : A -> rd B) inp a rest : uses 0 r -> uses 0 (f a) -> r inp = Ok (a, rest) ->
  spent inp (rdbind r f inp) = (spent inp (r inp) + spent rest (f a rest))%nat.
Proof.
  intros U V E. unfold rdbind. rewrite E. cbn [rbind]. pose proof (U _ _ _ E) as L. cbn [spent].
  destruct (f a rest) as [[b r2]|e|] eqn:F; cbn [spent]; [|lia|lia]. pose proof (V _ _ _ F). lia.
Qed.
Lemma spent_fails {A B} (r : rd A) (f : A -> rd B) inp : is_ok (r inp) = false -> spent inp (rdbind r f inp) = length inp /\ spent inp (r inp) = length inp.
Proof. intros E. unfold rdbind. destruct (r inp) as [[a rest]|e|]; [discriminate|split; reflexivity|split; reflexivity]. Qed.

Lemma meters_bind {A B} j k (r : rd A) (f : A -> rd B) tr tr2 : uses 0 r -> (forall a, uses 0 (f a)) -> meters j r tr -> (forall a, meters k (f a) (tr2 a)) ->
  meters (j + k) (rdbind r f) (fun inp => tr inp ++ after (r inp) tr2).
Proof.
  intros U V M M2 inp. rewrite grabs_app. specialize (M inp). destruct (r inp) as [[a rest]|e|] eqn:E; cbn [after].
  - rewrite (spent_bind r f inp a rest U (V a) E), E. specialize (M2 a rest). nia.
  - destruct (spent_fails r f inp) as [S _]; [now rewrite E|]. rewrite S. cbn [spent] in M. rewrite grabs_nil. nia.
  - destruct (spent_fails r f inp) as [S _]; [now rewrite E|]. rewrite S. cbn [spent] in M. rewrite grabs_nil. nia.
Qed.
Lemma meters_then {A B} k (r : rd A) (f : A -> rd B) tr2 : uses 0 r -> (forall a, uses 0 (f a)) -> (forall a, meters k (f a) (tr2 a)) ->
  meters k (rdbind r f) (fun inp => after (r inp) tr2).
Proof. intros U V M. apply (meters_bind 0 k r f (fun _ => []) tr2 U V); [intros inp; rewrite grabs_nil; lia|exact M]. Qed.
Lemma meters_pre {A} j k (r : rd A) tr n : meters k r tr -> (1 <= j)%nat -> meters (k + j) r (fun inp => [n] ++ tr inp).
Proof. intros M J inp. rewrite grabs_app. specialize (M inp). pose proof (grabs_one n). nia. Qed.
Lemma meters_more {A} j k (r : rd A) tr : meters j r tr -> (j <= k)%nat -> meters k r tr.
Proof. intros M J inp. specialize (M inp). nia. Qed.
Lemma meters_one {A} (r : rd A) n : meters 1 r (fun _ => [n]).
Proof. intros inp. pose proof (grabs_one n). nia. Qed.
Lemma meters_none {A} k (r : rd A) : meters k r (fun _ => []).
Proof. intros inp. rewrite grabs_nil. lia. Qed.
Lemma meters_check {A} k rows (r : rd A) tr : meters k r tr -> meters k (check_rows rows r) (fun inp => unless_refused rows (tr inp)).
Proof. intros M inp. unfold check_rows, unless_refused. destruct (_ <? _); [rewrite grabs_nil; lia|apply M]. Qed.

(** Readings in a row, each reserving no more than it reads. *)
Definition tight {A} (r : rd A) (tr : list N -> list N) : Prop :=
  forall inp, (grabs (tr inp) <= spent inp (r inp) + (if is_ok (r inp) then 0 else 1))%nat.
Lemma each_fine {A} (r : rd A) tr n : uses 0 r -> tight r tr -> tight (read_n n r) (each n r tr).
Proof.
  intros U T. induction n as [|n IH]; intros inp; cbn [each read_n]; [rewrite grabs_nil; lia|]. rewrite grabs_app. specialize (T inp).
  assert (V : uses 0 (read_n n r)) by (replace O with (n * 0)%nat by lia; now apply uses_read_n).
  assert (W : forall x : A, uses 0 (xs <~ read_n n r ;;; rret (x :: xs))).
  { intros x i v rest H. unfold rdbind in H. destruct (read_n n r i) as [[xs j]|e|] eqn:E; cbn [rbind] in H; try discriminate. injection H as <- <-. now apply V in E. }
  destruct (r inp) as [[a rest]|e|] eqn:E; cbn [after].
  - rewrite (spent_bind r _ inp a rest U (W a) E), E. specialize (IH rest). unfold rdbind. rewrite E. cbn [rbind is_ok] in *.
    destruct (read_n n r rest) as [[xs i2]|e|] eqn:F; cbn [rbind rret is_ok spent] in *; lia.
  - unfold rdbind. rewrite E. cbn [rbind is_ok spent] in *. rewrite grabs_nil. lia.
  - unfold rdbind. rewrite E. cbn [rbind is_ok spent] in *. rewrite grabs_nil. lia.
Qed.
Lemma tight_meters {A} (r : rd A) tr : tight r tr -> meters 1 r tr.
Proof. intros T inp. specialize (T inp). destruct (is_ok (r inp)); lia. Qed.

Lemma ok_inj_ {A} (a b : A) : Ok a = Ok b -> a = b.
Proof. now intros [= ->]. Qed.
Lemma uses_var : uses 1 read_var_uint.
Proof.
  intros inp v rest H. unfold read_var_uint in H. cbn [read_var_uint_go] in H. destruct inp as [|b t]; [discriminate|].
  assert (G : forall k i out l v rest, read_var_uint_go k i out l = Ok (v, rest) -> (length rest <= length l)%nat).
  { induction k as [|k IH]; intros i out l w r; cbn [read_var_uint_go]; [intros [= <- <-]; lia|]. destruct l as [|c l]; [discriminate|].
    destruct (N.land c 128 =? 0); [intros E; apply ok_inj_, pair_equal_spec in E as [_ <-]; cbn [length]; lia|]. intros E. apply IH in E. cbn [length]. lia. }
  cbn [length]. destruct (N.land b 128 =? 0); [apply ok_inj_, pair_equal_spec in H as [_ <-]; lia|]. apply (G 8%nat) in H. lia.
Qed.
Lemma tight_string : tight read_string string_reserved.
Proof.
  intros inp. unfold string_reserved, read_string, rdbind. destruct (read_var_uint inp) as [[len rest]|e|] eqn:E; cbn [after rbind]; [|rewrite grabs_nil; lia|rewrite grabs_nil; lia].
  pose proof (uses_var _ _ _ E) as U. destruct (MAX_STRING_SIZE <? len); [rewrite grabs_nil; lia|]. destruct (len =? 0); [rewrite grabs_nil; lia|].
  pose proof (grabs_one len) as G. destruct (read_exact len rest) as [[bs r2]|e|] eqn:F; cbn [is_ok spent]; [|lia|lia].
  apply uses_exact in F. lia.
Qed.
Lemma tight_fixed n : tight (dec_string (TFixedString n)) (fun _ => [n]).
Proof.
  intros inp. cbn [dec_string]. pose proof (grabs_one n) as G. destruct (ISIZE_MAX <? n); [cbn [is_ok rpanic]; unfold rpanic; cbn [is_ok]; lia|].
  unfold rdbind. destruct (read_exact n inp) as [[bs rest]|e|] eqn:E; cbn [rbind rret is_ok spent]; [|lia|lia].
  unfold rret. cbn [is_ok spent]. apply uses_exact in E. unfold grabs in *. cbn [filter] in *. destruct (N.eqb_spec n 0); cbn [negb length] in *; lia.
Qed.

(** The same with a factor. *)
Definition sharp {A} (c : nat) (r : rd A) (tr : list N -> list N) : Prop :=
  forall inp, (grabs (tr inp) <= c * (spent inp (r inp) + (if is_ok (r inp) then 0 else 1)))%nat.
Lemma sharp_meters {A} c (r : rd A) tr : sharp c r tr -> meters c r tr.
Proof. intros T inp. specialize (T inp). destruct (is_ok (r inp)); nia. Qed.
Lemma sharp_none {A} c (r : rd A) : sharp c r (fun _ => []).
Proof. intros inp. rewrite grabs_nil. lia. Qed.
Lemma sharp_more {A} j k (r : rd A) tr : sharp j r tr -> (j <= k)%nat -> sharp k r tr.
Proof. intros M J inp. specialize (M inp). nia. Qed.
Lemma sharp_bind {A B} c (r : rd A) (f : A -> rd B) tr tr2 : uses 0 r -> (forall a, uses 0 (f a)) -> sharp c r tr -> (forall a, sharp c (f a) (tr2 a)) ->
  sharp c (rdbind r f) (fun inp => tr inp ++ after (r inp) tr2).
Proof.
  intros U V M M2 inp. rewrite grabs_app. specialize (M inp). destruct (r inp) as [[a rest]|e|] eqn:E; cbn [after].
  - rewrite (spent_bind r f inp a rest U (V a) E), E. specialize (M2 a rest).
    replace (is_ok (rdbind r f inp)) with (is_ok (f a rest)) by (unfold rdbind; now rewrite E). cbn [is_ok] in M. nia.
  - destruct (spent_fails r f inp) as [S _]; [now rewrite E|]. rewrite S. cbn [spent is_ok] in M. rewrite grabs_nil. unfold rdbind. rewrite E. cbn [rbind is_ok]. nia.
  - destruct (spent_fails r f inp) as [S _]; [now rewrite E|]. rewrite S. cbn [spent is_ok] in M. rewrite grabs_nil. unfold rdbind. rewrite E. cbn [rbind is_ok]. nia.
Qed.
Lemma uses_weak {A} a b (r : rd A) : uses a r -> (b <= a)%nat -> uses b r.
Proof. intros U L inp v rest E. apply U in E. lia. Qed.
(** A reader whose first step reads something. *)
Lemma meters_sharp {A B} c (r : rd A) (f : A -> rd B) tr2 : uses 1 r -> (forall a, uses 0 (f a)) -> (forall a, meters c (f a) (tr2 a)) ->
  sharp c (rdbind r f) (fun inp => after (r inp) tr2).
Proof.
  intros U V M inp. destruct (r inp) as [[a rest]|e|] eqn:E; cbn [after]; [|rewrite grabs_nil; lia|rewrite grabs_nil; lia].
  rewrite (spent_bind r f inp a rest (uses_weak 1 0 r U ltac:(lia)) (V a) E). pose proof (U _ _ _ E) as L. specialize (M a rest). rewrite E. cbn [spent]. nia.
Qed.
Lemma tight_sharp {A} (r : rd A) tr : tight r tr -> sharp 1 r tr.
Proof. intros T inp. specialize (T inp). lia. Qed.

Section Dictionary.
  Context (inner : N -> rd (list value)) (tr : N -> list N -> list N) (k : nat) (nullable : bool).
  Hypothesis HL : forall n, local (inner n).
  Hypothesis HM : forall n, meters k (inner n) (tr n).

  Lemma uses_inner n : uses 0 (inner n). Proof. apply local_uses0, HL. Qed.
  Lemma meters_dict : meters k (n <~ read_le 8 ;;; d <~ inner n ;;; rret (Some d)) (fun inp => after (read_le 8 inp) tr).
  Proof.
    apply meters_then.
    - apply (uses_weak 8); [apply uses_le|lia].
    - intros n. replace O with (0 + 0)%nat by lia. apply uses_bind; [apply uses_inner|intros d inp v rest [= <- <-]; lia].
    - intros n inp. pose proof (HM n inp) as M. unfold rdbind. destruct (inner n inp) as [[d rest]|e|]; exact M.
  Qed.
  Lemma sharp_header st : sharp (2 * k) (lc_header inner st) (header_reserved inner tr st).
  Proof.
    unfold lc_header, header_reserved. apply meters_sharp.
    - apply (uses_weak 8); [apply uses_le|lia].
    - intros flags. apply local_uses0. destruct (index_width flags); [|apply local_err]. apply local_bind.
      { destruct (_ && _); [|apply local_ret]. apply local_bind; [apply local_le|]. intros n. apply local_bind; [apply HL|intros; apply local_ret]. }
      intros gd. apply local_bind.
      { destruct (has_bit flags HAS_ADDITIONAL_KEYS_BIT); [|apply local_ret]. apply local_bind; [apply local_le|]. intros n. apply local_bind; [apply HL|intros; apply local_ret]. }
      intros ad. apply local_bind; [apply local_le|intros; apply local_ret].
    - intros flags. destruct (index_width flags) as [it|]; [|apply meters_none].
      replace (2 * k)%nat with (k + k)%nat by lia.
      set (own := has_bit flags NEED_GLOBAL_DICTIONARY_BIT && (match gdict st with None => true | Some _ => false end || has_bit flags NEED_UPDATE_DICTIONARY_BIT)).
      assert (L1 : local (if own then n <~ read_le 8 ;;; d <~ inner n ;;; rret (Some d) else rret (gdict st))).
      { destruct own; [|apply local_ret]. apply local_bind; [apply local_le|]. intros n. apply local_bind; [apply HL|intros; apply local_ret]. }
      assert (L2 : local (if has_bit flags HAS_ADDITIONAL_KEYS_BIT then n <~ read_le 8 ;;; d <~ inner n ;;; rret (Some d) else rret (adict st))).
      { destruct (has_bit flags HAS_ADDITIONAL_KEYS_BIT); [|apply local_ret]. apply local_bind; [apply local_le|]. intros n. apply local_bind; [apply HL|intros; apply local_ret]. }
      apply (meters_bind k k _ _ (fun inp => if own then after (read_le 8 inp) tr else []) (fun _ inp => if has_bit flags HAS_ADDITIONAL_KEYS_BIT then after (read_le 8 inp) tr else [])).
      + now apply local_uses0.
      + intros gd. apply local_uses0. apply local_bind; [exact L2|]. intros ad. apply local_bind; [apply local_le|intros; apply local_ret].
      + destruct own; [apply meters_dict|apply meters_none].
      + intros gd. intros inp.
        pose proof (meters_bind k 0 _ (fun ad => pend <~ read_le 8 ;;; rret {| num_pending := pend; indexed := it; gdict := gd; adict := ad;
              needs_global := has_bit flags NEED_GLOBAL_DICTIONARY_BIT; has_additional := has_bit flags HAS_ADDITIONAL_KEYS_BIT |})
          (fun inp => if has_bit flags HAS_ADDITIONAL_KEYS_BIT then after (read_le 8 inp) tr else []) (fun _ _ => []) (local_uses0 _ L2)) as M.
        specialize (M (fun ad => local_uses0 _ (local_bind _ _ (local_le 8) (fun _ => local_ret _)))).
        assert (M1 : meters k (if has_bit flags HAS_ADDITIONAL_KEYS_BIT then n <~ read_le 8 ;;; d <~ inner n ;;; rret (Some d) else rret (adict st))
          (fun inp => if has_bit flags HAS_ADDITIONAL_KEYS_BIT then after (read_le 8 inp) tr else [])).
        { destruct (has_bit flags HAS_ADDITIONAL_KEYS_BIT); [apply meters_dict|apply meters_none]. }
        specialize (M M1 (fun ad => meters_none 0 _) inp). cbn beta in M. rewrite grabs_app in M. rewrite Nat.add_0_r in M.
        etransitivity; [|exact M]. lia.
  Qed.

  Definition iter_reserved (limit : N) (st : lc_state) (inp : list N) : list N :=
    (if num_pending st =? 0 then header_reserved inner tr st inp else []) ++
    after ((if num_pending st =? 0 then lc_header inner st else rret st) inp) (fun st inp =>
      unless_refused (N.min limit (num_pending st)) [N.min limit (num_pending st)]).
  Lemma lc_reserved_iter f limit st inp : lc_reserved (S f) inner tr nullable limit st inp =
    if limit =? 0 then [] else
    iter_reserved limit st inp ++ after (lc_iter inner nullable limit st inp) (fun p inp' => lc_reserved f inner tr nullable (limit - snd (fst p)) (fst (fst p)) inp').
  Proof.
    cbn [lc_reserved]. destruct (limit =? 0); [reflexivity|]. unfold iter_reserved, lc_iter, rdbind. rewrite <- app_assoc. f_equal.
    replace ((if num_pending st =? 0 then lc_header inner st else rret st) inp) with (if num_pending st =? 0 then lc_header inner st inp else Ok (st, inp)) by (destruct (num_pending st =? 0); reflexivity).
    destruct (if num_pending st =? 0 then lc_header inner st inp else Ok (st, inp)) as [[st1 i1]|e|]; cbn [after rbind]; try reflexivity. f_equal.
    destruct (check_rows _ _ i1) as [[es i2]|e|]; cbn [after rbind]; try reflexivity.
    destruct (mapM _ es); reflexivity.
  Qed.
  Lemma sharp_iter limit st : sharp (2 * k + 1) (lc_iter inner nullable limit st) (iter_reserved limit st).
  Proof.
    unfold lc_iter, iter_reserved.
    apply (sharp_bind (2 * k + 1) _ _ (fun inp => if num_pending st =? 0 then header_reserved inner tr st inp else [])
             (fun st inp => unless_refused (N.min limit (num_pending st)) [N.min limit (num_pending st)])).
    - apply local_uses0. destruct (num_pending st =? 0); [now apply local_header|apply local_ret].
    - intros st1. apply local_uses0. apply local_bind; [apply local_check, local_n, local_le|]. intros es.
      apply local_pure. apply (pure_map (mapM _ es) (fun vals => (_, _, vals))).
    - destruct (num_pending st =? 0); [|apply sharp_none]. apply (sharp_more (2 * k)); [apply sharp_header|lia].
    - intros st1. apply (sharp_more 1); [|lia]. intros inp. set (reading := N.min limit (num_pending st1)). unfold unless_refused, check_rows.
      destruct (MAX_STRING_SIZE <? reading); [rewrite grabs_nil; lia|]. unfold rdbind.
      destruct (read_n (N.to_nat reading) (read_le (ibytes (indexed st1))) inp) as [[es i2]|e|] eqn:E; cbn [rbind is_ok spent];
        [|pose proof (grabs_one reading); lia|pose proof (grabs_one reading); lia].
      apply (uses_read_n _ _ _ (uses_le _)) in E. pose proof (ibytes_pos (indexed st1)) as IB.
      assert (G : (grabs [reading] <= length inp - length i2)%nat).
      { unfold grabs. cbn [filter]. destruct (N.eqb_spec reading 0) as [Z|Z]; cbn [negb length]; [lia|]. assert (1 <= N.to_nat reading)%nat by lia. nia. }
      destruct (mapM _ es) as [vals|e|]; cbn [rbind is_ok spent]; lia.
  Qed.
  Lemma sharp_loop fuel : forall limit st out, sharp (2 * k + 1) (fun inp => lc_loop fuel inner nullable limit st out inp) (lc_reserved fuel inner tr nullable limit st).
  Proof.
    induction fuel as [|f IH]; intros limit st out inp.
    - cbn [lc_reserved]. destruct (limit =? 0); rewrite grabs_nil; lia.
    - rewrite lc_reserved_iter, lc_loop_iter. destruct (limit =? 0); [rewrite grabs_nil; lia|].
      rewrite grabs_app. pose proof (sharp_iter limit st inp) as S. pose proof (local_uses0 _ (local_iter inner nullable limit st HL)) as U.
      destruct (lc_iter inner nullable limit st inp) as [[[[st1 reading] vals] i1]|e|] eqn:E; cbn [after rbind fst snd]; [|cbn [is_ok spent] in *; rewrite grabs_nil; lia|cbn [is_ok spent] in *; rewrite grabs_nil; lia].
      apply U in E. specialize (IH (limit - reading) st1 (out ++ concat vals) i1). cbn [is_ok spent] in S.
      destruct (lc_loop f inner nullable (limit - reading) st1 (out ++ concat vals) i1) as [[vs rest]|e|] eqn:F; cbn [is_ok spent] in *.
      + assert (length rest <= length i1)%nat; [|nia].
        destruct (lc_loop_local inner nullable HL _ _ _ _ _ _ _ F) as (u & -> & _). rewrite app_length. lia.
      + nia.
      + nia.
  Qed.
End Dictionary.

Lemma meters_array {A} inner (im : value -> res A) iv tr k rows : (forall n, local (inner n)) -> (forall n, meters k (inner n) (tr n)) ->
  meters (k + 1) (deser_array_generic inner im iv rows) (array_reserved inner tr rows).
Proof.
  intros HL HM. unfold deser_array_generic. unfold array_reserved. destruct (rows =? 0); [apply meters_none|].
  apply meters_then.
  - apply local_uses0, local_n, local_le.
  - intros offs. apply local_uses0. apply local_bind; [apply HL|]. intros items. intros inp v rest E. exists [].
    destruct (mapM im items) as [items'|e|]; cbn [rbind] in E |- *; try discriminate. destruct (split_offsets 0 offs items') as [o|e|]; cbn [rbind] in E |- *; try discriminate.
    apply ok_inj_, pair_equal_spec in E as [<- <-]. split; [reflexivity|]. intros ext. reflexivity.
  - intros offs. apply (meters_bind k 1 _ _ (tr (last offs 0)) (fun _ _ => [rows])); [apply local_uses0, HL| |apply HM|intros a; apply meters_one].
    intros items inp v rest E. destruct (mapM im items) as [items'|e|]; cbn [rbind] in E; try discriminate. destruct (split_offsets 0 offs items') as [o|e|]; cbn [rbind] in E; try discriminate.
    apply ok_inj_, pair_equal_spec in E as [_ <-]. lia.
Qed.
Lemma meters_point rows : meters 3 (deser_point rows) (point_reserved rows).
Proof.
  apply meters_check. apply (meters_pre 1 2); [|lia].
  assert (F : meters 1 (deser_float64 rows) (float_reserved rows)) by (apply meters_check; apply meters_one).
  assert (L : local (deser_float64 rows)) by (apply (deser_local TFloat64)).
  assert (T : forall xs ys : list value, uses 0 (fun inp => xs' <- mapM unwrap_float xs ;; ys' <- mapM unwrap_float ys ;; Ok (map VPoint (combine xs' ys'), inp))).
  { intros xs ys inp v rest E. destruct (mapM unwrap_float xs) as [a|e|]; cbn [rbind] in E; try discriminate. destruct (mapM unwrap_float ys) as [b|e|]; cbn [rbind] in E; try discriminate.
    apply ok_inj_, pair_equal_spec in E as [_ <-]. lia. }
  apply (meters_bind 1 1 _ _ (float_reserved rows) (fun _ => float_reserved rows)).
  - now apply local_uses0.
  - intros xs. replace O with (0 + 0)%nat by lia. apply uses_bind; [now apply local_uses0|apply T].
  - exact F.
  - intros xs inp. pose proof (meters_bind 1 0 _ (fun ys => fun inp => xs' <- mapM unwrap_float xs ;; ys' <- mapM unwrap_float ys ;; Ok (map VPoint (combine xs' ys'), inp))
      (float_reserved rows) (fun _ _ => []) (local_uses0 _ L) (T xs) F (fun _ => meters_none 0 _) inp) as M. cbn beta in M. rewrite grabs_app in M. unfold rdbind in *. lia.
Qed.
Lemma meters_ring rows : meters 4 (deser_ring rows) (ring_reserved rows).
Proof. apply meters_check. apply (meters_array _ _ _ _ 3); [intros n; apply local_point|apply meters_point]. Qed.
Lemma meters_polygon rows : meters 5 (deser_polygon rows) (polygon_reserved rows).
Proof. apply meters_check. apply (meters_array _ _ _ _ 4); [intros n; apply local_ring|apply meters_ring]. Qed.
Lemma meters_multi rows : meters 6 (deser_multipolygon rows) (multipolygon_reserved rows).
Proof. apply meters_check. apply (meters_array _ _ _ _ 5); [intros n; apply local_polygon|apply meters_polygon]. Qed.

Lemma weight_strip t : (weight (strip_null t) <= weight t)%nat.
Proof. destruct t; cbn [strip_null weight]; lia. Qed.

Lemma meters_ext {A} k (r r' : rd A) tr tr' : (forall inp, r inp = r' inp) -> (forall inp, tr inp = tr' inp) -> meters k r tr -> meters k r' tr'.
Proof. intros H H' M inp. rewrite <- H, <- H'. apply M. Qed.

Lemma reserved_meters t : forall rows, meters (weight t) (deser t rows) (reserved t rows).
Proof.
  induction t as [t Hl|t IH IHs|t IH|ts IH|t IH|k v IHk IHv] using ty_ind_strip; intros rows.
  - destruct t; try discriminate Hl; cbn [reserved deser weight]; try (apply meters_check, meters_one).
    + apply meters_check. apply (meters_pre 1 1); [|lia]. apply tight_meters. unfold deser_string. apply each_fine; [apply local_uses0, local_dec_string|].
      intros inp. pose proof (tight_string inp) as T. cbn [dec_string]. unfold rdbind. destruct (read_string inp) as [[a r]|e|]; exact T.
    + apply meters_check. apply (meters_pre 1 1); [|lia]. apply tight_meters. unfold deser_string. apply each_fine; [apply local_uses0, local_dec_string|apply tight_fixed].
    + apply meters_check, (meters_more 3); [apply meters_point|lia].
    + apply meters_check, (meters_more 4); [apply meters_ring|lia].
    + apply meters_check, (meters_more 5); [apply meters_polygon|lia].
    + apply meters_check, (meters_more 6); [apply meters_multi|lia].
  - rewrite deser_lc_eq. eapply meters_ext; [reflexivity|intros inp; symmetry; apply reserved_lc|]. apply meters_check.
    intros inp. unfold deser_low_card. cbn [weight].
    pose proof (sharp_meters _ _ _ (sharp_loop (deser (strip_null t)) (reserved (strip_null t)) (weight (strip_null t)) (is_nullable t) (deser_local _) IHs (S (length inp)) rows lc_init []) inp) as M.
    cbn beta in M. pose proof (weight_strip t). nia.
  - cbn [deser weight]. apply (meters_check (weight t + 1) rows _ (array_reserved (deser t) (reserved t) rows)).
    apply meters_array; [apply deser_local|exact IH].
  - rewrite deser_tuple_eq. eapply meters_ext; [reflexivity|intros inp; symmetry; apply reserved_tuple|].
    apply (meters_check (weight (TTuple ts)) rows _ (fun inp => [lenN ts; rows] ++ tuple_reserved rows ts inp)).
    assert (G : forall acc, meters (fold_right (fun t n => weight t + n) 0 ts)%nat (deser_cols rows ts acc) (tuple_reserved rows ts)).
    { induction IH as [|t ts Ht _ IHts]; intros acc; cbn [deser_cols tuple_reserved fold_right]; fold (deser_cols rows) (tuple_reserved rows); [apply meters_none|].
      apply (meters_bind (weight t) _ _ _ (reserved t rows) (fun _ rest => tuple_reserved rows ts rest)).
      - apply local_uses0, deser_local.
      - intros col inp v rest E. destruct (push_column acc col) as [acc'|e|]; cbn [rbind] in E; try discriminate.
        assert (L : local (deser_cols rows ts acc')) by (apply local_cols, Forall_forall; intros; apply deser_local). now apply (local_uses0 _ L) in E.
      - apply Ht.
      - intros col inp. destruct (push_column acc col) as [acc'|e|]; cbn [rbind]; [apply IHts|cbn [spent]|cbn [spent]].
        + pose proof (IHts [] inp) as M. etransitivity; [exact M|]. apply Nat.mul_le_mono_l. unfold spent. destruct (deser_cols rows ts [] inp) as [[a r]|e'|]; lia.
        + pose proof (IHts [] inp) as M. etransitivity; [exact M|]. apply Nat.mul_le_mono_l. unfold spent. destruct (deser_cols rows ts [] inp) as [[a r]|e'|]; lia. }
    intros inp. rewrite grabs_app. specialize (G (repeat [] (N.to_nat rows)) inp). cbn [weight].
    pose proof (grabs_one (lenN ts)). pose proof (grabs_one rows). change (grabs [lenN ts; rows]) with (grabs ([lenN ts] ++ [rows])). rewrite grabs_app.
    assert (S : spent inp ((tuples <~ deser_cols rows ts (repeat [] (N.to_nat rows)) ;;; rret (map VTuple tuples)) inp) = spent inp (deser_cols rows ts (repeat [] (N.to_nat rows)) inp)).
    { unfold rdbind. destruct (deser_cols rows ts (repeat [] (N.to_nat rows)) inp) as [[a r]|e|]; reflexivity. }
    rewrite S. nia.
  - cbn [deser weight]. apply (meters_check (weight t + 1) rows _ (fun inp => [rows] ++ after (read_exact rows inp) (fun _ rest => reserved t rows rest))).
    apply meters_pre; [|lia]. apply meters_then.
    + apply local_uses0, local_exact.
    + intros mask. replace O with (0 + 0)%nat by lia. apply uses_bind; [apply local_uses0, deser_local|].
      intros out inp v rest E. destruct (apply_mask mask out) as [o|e|]; cbn [rbind] in E; try discriminate. apply ok_inj_, pair_equal_spec in E as [_ <-]. lia.
    + intros mask inp. pose proof (IH rows inp) as M. etransitivity; [exact M|]. apply Nat.mul_le_mono_l. unfold rdbind. pose proof (local_uses0 _ (deser_local t rows)) as U.
      destruct (deser t rows inp) as [[o r]|e|] eqn:E; cbn [rbind spent]; [|lia|lia]. apply U in E. destruct (apply_mask mask o); cbn [rbind spent]; lia.
  - cbn [deser weight].
    apply (meters_check (weight k + weight v + 2) rows _ (fun inp => if rows =? 0 then [] else
      [rows] ++ after (read_n (N.to_nat rows) (read_le 8) inp) (fun offs rest =>
        reserved k (last offs 0) rest ++ after (deser k (last offs 0) rest) (fun ks rest =>
          if negb (lenN ks =? last offs 0) then [] else
          reserved v (last offs 0) rest ++ after (deser v (last offs 0) rest) (fun vs _ =>
            if negb (lenN vs =? last offs 0) then [] else [rows]))))).
    destruct (rows =? 0); [apply meters_none|]. replace (weight k + weight v + 2)%nat with ((weight k + (weight v + 1)) + 1)%nat by lia.
    apply meters_pre; [|lia].
    assert (T : forall offs ks vs : list _, uses 0 (fun inp => r <- split_map 0 offs ks vs ;; Ok (r, inp))).
    { intros offs ks vs inp o rest E. destruct (split_map 0 offs ks vs) as [x|e|]; cbn [rbind] in E; try discriminate. apply ok_inj_, pair_equal_spec in E as [_ <-]. lia. }
    assert (P : forall A, uses 0 (@rpanic A)) by (intros A inp o rest E; discriminate E).
    assert (T2 : forall offs ks, uses 0 (vs <~ deser v (last offs 0) ;;; (if negb (lenN vs =? last offs 0) then rpanic else fun inp => r <- split_map 0 offs ks vs ;; Ok (r, inp)))).
    { intros offs ks. replace O with (0 + 0)%nat by lia. apply uses_bind; [apply local_uses0, deser_local|]. intros vs. destruct (negb _); [apply P|apply T]. }
    assert (T3 : forall offs, uses 0 (ks <~ deser k (last offs 0) ;;; if negb (lenN ks =? last offs 0) then rpanic else
       vs <~ deser v (last offs 0) ;;; (if negb (lenN vs =? last offs 0) then rpanic else fun inp => r <- split_map 0 offs ks vs ;; Ok (r, inp)))).
    { intros offs. replace O with (0 + 0)%nat by lia. apply uses_bind; [apply local_uses0, deser_local|]. intros ks. destruct (negb _); [apply P|apply T2]. }
    apply meters_then; [apply local_uses0, local_n, local_le|exact T3|]. intros offs.
    apply (meters_bind (weight k) (weight v + 1) _ _ (reserved k (last offs 0)) (fun ks rest =>
          if negb (lenN ks =? last offs 0) then [] else
          reserved v (last offs 0) rest ++ after (deser v (last offs 0) rest) (fun vs _ =>
            if negb (lenN vs =? last offs 0) then [] else [rows]))); [apply local_uses0, deser_local| |apply IHk|].
    + intros ks. destruct (negb _); [apply P|apply T2].
    + intros ks. destruct (negb (lenN ks =? last offs 0)); [apply meters_none|].
      apply (meters_bind (weight v) 1 _ _ (reserved v (last offs 0)) (fun vs _ => if negb (lenN vs =? last offs 0) then [] else [rows])); [apply local_uses0, deser_local| |apply IHv|].
      * intros vs. destruct (negb _); [apply P|apply T].
      * intros vs. destruct (negb (lenN vs =? last offs 0)); [apply meters_none|apply meters_one].
Qed.

(* ---------------- blocks and frames ---------------- *)

Definition announced (U : unicode) (D : tzdb) (inp : list N) (n : N) : Prop :=
  n <= MAX_STRING_SIZE \/ exists t, announces U D inp t /\ In n (stated t).
Lemma announces_app U D before inp behind t : announces U D inp t -> announces U D (before ++ inp ++ behind) t.
Proof.
  intros (a & bs & name & b & -> & E & P). exists (before ++ a), bs, name, (b ++ behind). rewrite <- !app_assoc. auto.
Qed.
Lemma announced_later U D used rest l : Forall (announced U D rest) l -> Forall (announced U D (used ++ rest)) l.
Proof.
  apply Forall_impl. intros n [L|(t & A & I)]; [now left|right]. exists t. split; [|exact I].
  apply (announces_app U D used rest []) in A. now rewrite app_nil_r in A.
Qed.
Lemma after_announced {A} U D (r : rd A) inp k : local r -> (forall a rest, r inp = Ok (a, rest) -> Forall (announced U D rest) (k a rest)) ->
  Forall (announced U D inp) (after (r inp) k).
Proof.
  intros L H. destruct (r inp) as [[a rest]|e|] eqn:E; cbn [after]; try constructor. destruct (L _ _ _ E) as (used & -> & _).
  apply announced_later. now apply H.
Qed.
Lemma read_string_bytes inp bs rest : read_string inp = Ok (bs, rest) -> exists len, inp = len ++ bs ++ rest.
Proof.
  unfold read_string, rdbind. destruct (read_var_uint inp) as [[n r1]|e|] eqn:E; cbn [rbind]; try discriminate.
  destruct (local_var _ _ _ E) as (u & -> & _). destruct (MAX_STRING_SIZE <? n); [discriminate|]. destruct (n =? 0).
  - intros H. apply ok_inj_, pair_equal_spec in H as [<- <-]. exists u. reflexivity.
  - intros H. apply read_exact_ok in H as [-> _]. exists u. reflexivity.
Qed.
Lemma string_announced U D inp : Forall (announced U D inp) (string_reserved inp).
Proof. eapply Forall_impl; [|apply (within_string [])]. intros n [L|[]]. now left. Qed.

Lemma column_announced U D rows inp : Forall (announced U D inp) (column_reserved U D rows inp).
Proof.
  unfold column_reserved. apply Forall_app. split; [apply string_announced|]. apply after_announced; [apply local_utf8|]. intros name r1 _.
  apply Forall_app. split; [apply string_announced|].
  destruct (read_utf8_string r1) as [[tname r2]|e|] eqn:E; cbn [after]; try constructor.
  unfold lift. destruct (parse_ty U D tname) as [t|e|] eqn:P; cbn [rbind after]; try constructor. destruct (0 <? rows); [|constructor].
  destruct (deser_prefix t r2) as [[x r3]|e|]; cbn [after]; try constructor.
  eapply Forall_impl; [|apply reserved_within]. intros n [L|I]; [now left|]. right. exists t. split; [|exact I].
  unfold read_utf8_string, rdbind in E. destruct (read_string r1) as [[bs r4]|e|] eqn:S; cbn [rbind] in E; try discriminate.
  destruct (utf8_decode bs) as [s|] eqn:UD; [|discriminate]. apply ok_inj_, pair_equal_spec in E as [<- <-].
  destruct (read_string_bytes _ _ _ S) as (len & ->). exists len, bs, s, r4. auto.
Qed.
Lemma local_column U D rows : local (read_column U D rows).
Proof.
  unfold read_column. apply local_bind; [apply local_utf8|]. intros name. apply local_bind; [apply local_utf8|]. intros tname.
  apply local_bind; [apply local_lift|]. intros t. apply local_bind; [|intros; apply local_ret].
  destruct (0 <? rows); [|apply local_ret]. apply local_bind; [apply prefix_local|]. intros. apply deser_local.
Qed.
Lemma block_announced U D revision inp : Forall (announced U D inp) (block_reserved U D revision inp).
Proof.
  unfold block_reserved. apply after_announced; [destruct (0 <? revision); [apply local_info|apply local_ret]|]. intros info r1 _.
  apply after_announced; [apply local_var|]. intros columns r2 _. apply after_announced; [apply local_var|]. intros rows r3 _.
  generalize (N.to_nat columns) as n. intros n. revert r3. induction n as [|n IH]; intros r3; cbn [each]; [constructor|].
  apply Forall_app. split; [apply column_announced|]. apply after_announced; [apply local_column|]. intros. apply IH.
Qed.

Lemma le_small n inp v rest : bytes_ok inp -> read_le n inp = Ok (v, rest) -> v < 256 ^ N.of_nat n /\ bytes_ok rest.
Proof. intros B E. exact (gv_le n inp v rest B E). Qed.
Lemma blob_bounded K inp : bytes_ok inp -> Forall (fun n => n <= 2 ^ 32) (blob_reserved K inp).
Proof.
  intros B. unfold blob_reserved.
  destruct (read_le 8 inp) as [[hi i1]|e|] eqn:E1; cbn [after]; try constructor. apply (le_small _ _ _ _ B) in E1 as [_ B1].
  destruct (read_le 8 i1) as [[lo i2]|e|] eqn:E2; cbn [after]; try constructor. apply (le_small _ _ _ _ B1) in E2 as [_ B2].
  destruct (read_le 1 i2) as [[tb i3]|e|] eqn:E3; cbn [after]; try constructor. apply (le_small _ _ _ _ B2) in E3 as [_ B3].
  destruct (negb (tb =? LZ4_BYTE)); [constructor|].
  destruct (read_le 4 i3) as [[cs i4]|e|] eqn:E4; cbn [after]; try constructor. apply (le_small _ _ _ _ B3) in E4 as [L4 B4].
  destruct (MAX_COMPRESSION_SIZE <? cs); [constructor|]. destruct (cs <? 9); [constructor|].
  destruct (read_le 4 i4) as [[ds i5]|e|] eqn:E5; cbn [after]; try constructor; apply (le_small _ _ _ _ B4) in E5 as [L5 B5];
    change (256 ^ N.of_nat 4) with (2 ^ 32) in L4, L5.
  - lia.
  - apply Forall_forall. intros n I. destruct (read_exact (cs - 9) i5) as [[data r]|e|]; cbn [after] in I; try contradiction I.
    destruct (negb _); [contradiction I|]. destruct I as [<-|[]]. lia.
Qed.
