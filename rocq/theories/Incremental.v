(** Reading from a stream that is still arriving: on a prefix of the bytes a decoder either
    lacks bytes ([Err EIo]) or has already reached the outcome it reaches on the whole. *)
From Verif Require Import Base Io IoProofs Types Text TypeText TypeTextProofs2 Utf8 Ser Deser ColumnSpec ColumnProofs ColumnRoundtrip LowCardProofs
  DecodeProofs Block BlockSpec BlockProofs.

Definition extend {A} (r : res (A * list N)) (q : list N) : res (A * list N) :=
  match r with Ok (v, rest) => Ok (v, rest ++ q) | Err e => Err e | Panic => Panic end.
Definition incremental {A} (r : rd A) : Prop := forall p q, r p = Err EIo \/ r (p ++ q) = extend (r p) q.

Lemma inc_ret {A} (a : A) : incremental (rret a). Proof. intros p q. now right. Qed.
Lemma inc_err {A} e : incremental (@rerr A e). Proof. intros p q. now right. Qed.
Lemma inc_panic {A} : incremental (@rpanic A). Proof. intros p q. now right. Qed.
Lemma inc_bind {A B} (r : rd A) (f : A -> rd B) : incremental r -> (forall a, incremental (f a)) -> incremental (rdbind r f).
Proof.
  intros Hr Hf p q. unfold rdbind. destruct (Hr p q) as [E|E].
  - left. now rewrite E.
  - rewrite E. destruct (r p) as [[a i]|e|]; cbn [extend rbind]; [apply Hf|now right|now right].
Qed.
Lemma inc_pure {A} (r : rd A) : pure_rd r -> incremental r.
Proof.
  intros [x Hx] p q. right. rewrite !Hx. destruct x; reflexivity.
Qed.
Lemma inc_exact n : incremental (read_exact n).
Proof.
  intros p q. revert n; induction p as [|b p IH]; intros n; unfold read_exact in *; cbn [read_exact_go app].
  - destruct (N.eqb_spec n 0) as [->|]; [|now left]. right. rewrite read_exact_go_0. reflexivity.
  - destruct (n =? 0); [now right|]. destruct (IH (N.pred n)) as [E|E]; [left; now rewrite E|].
    right. rewrite E. destruct (read_exact_go (N.pred n) p) as [[bs i]|e|]; reflexivity.
Qed.
Lemma inc_le n : incremental (read_le n).
Proof. apply inc_bind; [apply inc_exact|intros; apply inc_ret]. Qed.
Lemma inc_var_go k : forall i out p q, read_var_uint_go k i out p = Err EIo \/
  read_var_uint_go k i out (p ++ q) = extend (read_var_uint_go k i out p) q.
Proof.
  induction k as [|k IH]; intros i out p q; cbn [read_var_uint_go]; [now right|].
  destruct p as [|b p]; [now left|]. cbn [app]. destruct (N.land b 128 =? 0); [now right|apply IH].
Qed.
Lemma inc_var : incremental read_var_uint. Proof. intros p q. apply inc_var_go. Qed.
Lemma inc_string : incremental read_string.
Proof.
  apply inc_bind; [apply inc_var|]. intros n. destruct (_ <? _); [apply inc_err|].
  destruct (_ =? _); [apply inc_ret|apply inc_exact].
Qed.
Lemma inc_n {A} n (r : rd A) : incremental r -> incremental (read_n n r).
Proof. intros H. induction n as [|n IH]; [apply inc_ret|]. cbn [read_n]. repeat (apply inc_bind; [assumption|intros]). apply inc_ret. Qed.
Lemma inc_check {A} n (r : rd A) : incremental r -> incremental (check_rows n r).
Proof. intros H. unfold check_rows. destruct (_ <? _); [apply inc_err|exact H]. Qed.
Lemma inc_dec_sized t : incremental (dec_sized t).
Proof.
  destruct t; cbn [dec_sized]; unfold read_signed, read_256;
    repeat first [apply inc_ret | apply inc_le | apply inc_exact | apply inc_panic | apply inc_bind; [|intros]].
Qed.
Lemma inc_dec_string t : incremental (dec_string t).
Proof.
  destruct t; cbn [dec_string]; try (destruct (ISIZE_MAX <? n); [apply inc_panic|]); (apply inc_bind; [apply inc_string || apply inc_exact|intros; apply inc_ret]).
Qed.
Lemma inc_array {A} (inner : N -> rd (list value)) (im : value -> res A) mk rows :
  (forall n, incremental (inner n)) -> incremental (deser_array_generic inner im mk rows).
Proof.
  intros H. unfold deser_array_generic. destruct (rows =? 0); [apply inc_ret|].
  apply inc_bind; [apply inc_n, inc_le|]. intros offs. apply inc_bind; [apply H|]. intros items.
  apply inc_pure, pure_array.
Qed.
Lemma inc_float n : incremental (deser_float64 n).
Proof. apply inc_check, inc_n. exact (inc_dec_sized TFloat64). Qed.
Lemma inc_point n : incremental (deser_point n).
Proof.
  apply inc_check. apply inc_bind; [apply inc_float|]. intros xs. apply inc_bind; [apply inc_float|]. intros ys.
  apply inc_pure. exists (xs' <- mapM unwrap_float xs ;; ys' <- mapM unwrap_float ys ;; Ok (map VPoint (combine xs' ys'))).
  intros inp. destruct (mapM unwrap_float xs); try reflexivity. cbn [rbind].
  destruct (mapM unwrap_float ys); reflexivity.
Qed.
Lemma inc_ring n : incremental (deser_ring n).
Proof. apply inc_check, inc_array, inc_point. Qed.
Lemma inc_polygon n : incremental (deser_polygon n).
Proof. apply inc_check, inc_array, inc_ring. Qed.
Lemma inc_multi n : incremental (deser_multipolygon n).
Proof. apply inc_check, inc_array, inc_polygon. Qed.

Lemma inc_header inner st : (forall n, incremental (inner n)) -> incremental (lc_header inner st).
Proof.
  intros H. unfold lc_header. apply inc_bind; [apply inc_le|]. intros flags.
  destruct (index_width flags); [|apply inc_err].
  apply inc_bind.
  { destruct (_ && _); [|apply inc_ret]. apply inc_bind; [apply inc_le|]. intros n. apply inc_bind; [apply H|intros; apply inc_ret]. }
  intros gd. apply inc_bind.
  { destruct (has_bit flags HAS_ADDITIONAL_KEYS_BIT); [|apply inc_ret]. apply inc_bind; [apply inc_le|]. intros n. apply inc_bind; [apply H|intros; apply inc_ret]. }
  intros ad. apply inc_bind; [apply inc_le|intros; apply inc_ret].
Qed.
Lemma inc_iter inner nullable limit st : (forall n, incremental (inner n)) -> incremental (lc_iter inner nullable limit st).
Proof.
  intros H. unfold lc_iter. apply inc_bind.
  { destruct (_ =? 0); [now apply inc_header|apply inc_ret]. }
  intros st1. apply inc_bind; [apply inc_check, inc_n, inc_le|]. intros es.
  apply inc_pure. apply (pure_map (mapM _ es) (fun vals => (_, _, vals))).
Qed.
Lemma inc_loop inner nullable : (forall n, local (inner n)) -> (forall n, incremental (inner n)) ->
  forall f f' limit st out p q, (length p < f)%nat -> (length (p ++ q) < f')%nat ->
  lc_loop f inner nullable limit st out p = Err EIo \/
  lc_loop f' inner nullable limit st out (p ++ q) = extend (lc_loop f inner nullable limit st out p) q.
Proof.
  intros Hl Hi. induction f as [|f IH]; intros f' limit st out p q H1 H2; [lia|].
  destruct f' as [|f']; [lia|]. rewrite !lc_loop_iter. destruct (N.eqb_spec limit 0) as [|Hlim]; [now right|].
  destruct (inc_iter inner nullable limit st Hi p q) as [E|E]; [left; now rewrite E|]. rewrite E.
  destruct (lc_iter inner nullable limit st p) as [[[[st1 rd1] vals] i1]|e|] eqn:E1; cbn [extend rbind]; [|now right|now right].
  apply (uses_iter inner nullable limit st Hl Hlim) in E1. apply IH; rewrite ?app_length in *; lia.
Qed.
Lemma inc_cols rows ts : Forall (fun t => forall n, incremental (deser t n)) ts -> forall acc, incremental (deser_cols rows ts acc).
Proof.
  induction 1 as [|t ts Ht _ IH]; intros acc; [apply inc_ret|]. cbn [deser_cols]. fold (deser_cols rows).
  apply inc_bind; [apply Ht|]. intros col p q. destruct (push_column acc col) as [a|e|]; cbn [rbind]; [apply IH|now right|now right].
Qed.

Lemma deser_incremental t : forall rows, incremental (deser t rows).
Proof.
  induction t as [t Hl|t IH IHs|t IH|ts IH|t IH|k v IHk IHv] using ty_ind_strip; intros rows.
  - destruct t; try discriminate Hl; apply inc_check;
      first [ apply inc_point | apply inc_ring | apply inc_polygon | apply inc_multi
            | apply inc_n; apply inc_dec_string | apply inc_n; apply inc_dec_sized ].
  - rewrite deser_lc_eq. apply inc_check. intros p q. unfold deser_low_card. apply inc_loop; [apply deser_local|apply IHs|lia|lia].
  - cbn [deser]. apply inc_check, inc_array, IH.
  - rewrite deser_tuple_eq. apply inc_check, inc_bind; [now apply inc_cols|intros; apply inc_ret].
  - cbn [deser]. apply inc_check, inc_bind; [apply inc_exact|]. intros mask.
    apply inc_bind; [apply IH|]. intros out. apply inc_pure. exists (apply_mask mask out). reflexivity.
  - cbn [deser]. apply inc_check. destruct (rows =? 0); [apply inc_ret|].
    apply inc_bind; [apply inc_n, inc_le|]. intros offs. apply inc_bind; [apply IHk|]. intros ks.
    destruct (negb _); [apply inc_panic|]. apply inc_bind; [apply IHv|]. intros vs.
    destruct (negb _); [apply inc_panic|]. apply inc_pure. exists (split_map 0 offs ks vs). reflexivity.
Qed.

Lemma inc_lift {A} (r : res A) : incremental (lift r).
Proof. apply inc_pure. exists r. reflexivity. Qed.
Lemma inc_utf8 : incremental read_utf8_string.
Proof. apply inc_bind; [apply inc_string|]. intros bs. destruct (utf8_decode bs); [apply inc_ret|apply inc_err]. Qed.
Lemma inc_info_loop f : forall f' i p q, (length p < f)%nat -> (length (p ++ q) < f')%nat ->
  info_loop f i p = Err EIo \/ info_loop f' i (p ++ q) = extend (info_loop f i p) q.
Proof.
  induction f as [|f IH]; intros f' i p q H1 H2; [lia|]. destruct f' as [|f']; [lia|]. cbn [info_loop].
  destruct (inc_var p q) as [E|E]; [left; now rewrite E|]. rewrite E.
  destruct (read_var_uint p) as [[field i1]|e|] eqn:E1; cbn [extend rbind]; [|now right|now right].
  apply var_uses in E1. destruct (field =? 0); [now right|].
  assert (K : forall n (g : N -> block_info), (b <- read_le n i1 ;; let '(x, i2) := b in info_loop f (g x) i2) = Err EIo \/
     (b <- read_le n (i1 ++ q) ;; let '(x, i2) := b in info_loop f' (g x) i2) =
     extend (b <- read_le n i1 ;; let '(x, i2) := b in info_loop f (g x) i2) q).
  { intros n g. destruct (inc_le n i1 q) as [E2|E2]; [left; now rewrite E2|]. rewrite E2.
    destruct (read_le n i1) as [[x i2]|e|] eqn:E3; cbn [extend rbind]; [|now right|now right].
    apply uses_le in E3. apply IH; rewrite ?app_length in *; lia. }
  destruct (field =? 1); [apply (K 1%nat)|]. destruct (field =? 2); [apply (K 4%nat)|now right].
Qed.
Lemma inc_info : incremental read_info.
Proof. intros p q. apply inc_info_loop; lia. Qed.
Lemma prefix_incremental t : incremental (deser_prefix t).
Proof.
  induction t as [t Hl|t IH|t IH|ts IH|t IH|k v IHk IHv] using ty_ind_leaf; cbn [deser_prefix]; try assumption.
  - destruct t; try discriminate Hl; apply inc_ret.
  - apply inc_bind; [apply inc_le|]. intros v. destruct (v =? _); [apply inc_ret|apply inc_err].
  - induction IH as [|t ts Ht _ IH]; [apply inc_ret|]. apply inc_bind; [exact Ht|]. intros _. exact IH.
  - apply inc_bind; [exact IHk|]. intros _. apply inc_bind; [exact IHv|]. intros _. apply inc_ret.
Qed.
Lemma block_incremental U D rev : incremental (read_block U D rev).
Proof.
  apply inc_bind; [destruct (0 <? rev); [apply inc_info|apply inc_ret]|]. intros info.
  apply inc_bind; [apply inc_var|]. intros columns. apply inc_bind; [apply inc_var|]. intros rows.
  apply inc_bind; [|intros; apply inc_ret]. apply inc_n.
  apply inc_bind; [apply inc_utf8|]. intros name. apply inc_bind; [apply inc_utf8|]. intros tn.
  apply inc_bind; [apply inc_lift|]. intros t. apply inc_bind; [|intros; apply inc_ret].
  destruct (0 <? rows); [|apply inc_ret]. apply inc_bind; [apply prefix_incremental|intros _; apply deser_incremental].
Qed.

(** A strict prefix of what is needed is reported as missing input, nothing else. *)
Lemma truncated_eio {A} (r : rd A) : local r -> incremental r -> forall used p q rest v,
  r (used ++ rest) = Ok (v, rest) -> used = p ++ q -> q <> [] -> r p = Err EIo.
Proof.
  intros Hl Hi used p q rest v H Hu Hq. pose proof (local_prefix_fails r Hl used p q rest v H Hu Hq) as F. subst used.
  destruct (Hi p (q ++ rest)) as [E|E]; [exact E|]. rewrite app_assoc, H in E. destruct (r p) as [[? ?]| |]; discriminate.
Qed.
