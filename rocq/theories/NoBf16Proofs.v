(** Proofs for C88. *)
From Coq Require Import String Lia.
From Verif Require Import Base Io Types Ser Deser Text TypeText Utf8 Block IndexMap ColumnRoundtrip DecodeProofs BlockProofs ReserveSpec ReserveProofs NoBf16 NoBf16Spec.
Local Open Scope list_scope.
Local Open Scope N_scope.

(* ---------------- the parser ---------------- *)

(** The two parsers give the same answer, except that the one without the feature may refuse; it does so
    exactly for the types with BFloat16 in them. *)
Definition agree {A} (free : A -> bool) (off on : res A) : Prop :=
  (off = on \/ off = Err ETypeParse) /\ (forall a, on = Ok a -> off = if free a then Ok a else Err ETypeParse).
Lemma agree_err {A} (free : A -> bool) e : agree free (Err e) (Err e).
Proof. split; [now left|discriminate]. Qed.
Lemma agree_panic {A} (free : A -> bool) : agree free Panic Panic.
Proof. split; [now left|discriminate]. Qed.
Lemma agree_ok {A} (free : A -> bool) a : free a = true -> agree free (Ok a) (Ok a).
Proof. intros F. split; [now left|]. intros x [= <-]. now rewrite F. Qed.
Lemma agree_same {A} (free : A -> bool) r : (forall a, r = Ok a -> free a = true) -> agree free r r.
Proof. intros H. destruct r; [apply agree_ok; now apply H|apply agree_err|apply agree_panic]. Qed.
Lemma agree_bind {A B} (fa : A -> bool) (fb : B -> bool) off on (f g : A -> res B) : agree fa off on ->
  (forall a, fa a = true -> agree fb (f a) (g a)) -> (forall a b, fa a = false -> g a = Ok b -> fb b = false) ->
  agree fb (rbind off f) (rbind on g).
Proof.
  intros [S X] H F. destruct on as [a|e|].
  - specialize (X a eq_refl). destruct (fa a) eqn:E; rewrite X; cbn [rbind]; [now apply H|].
    split; [now right|]. intros b G. now rewrite (F a b E G).
  - destruct S as [->| ->]; cbn [rbind]; (split; [auto|discriminate]).
  - destruct S as [->| ->]; cbn [rbind]; (split; [auto|discriminate]).
Qed.
Lemma agree_rmap {A B} (fa : A -> bool) (fb : B -> bool) (c : A -> B) off on : (forall a, fb (c a) = fa a) -> agree fa off on ->
  agree fb (rmap c off) (rmap c on).
Proof.
  intros E H. change (rmap c off) with (rbind off (fun a => Ok (c a))). change (rmap c on) with (rbind on (fun a => Ok (c a))).
  apply (agree_bind fa); [exact H| |].
  - intros a F. apply agree_ok. now rewrite E.
  - intros a b F [= <-]. now rewrite E.
Qed.
Lemma agree_mapM {A} (free : ty -> bool) (f g : A -> res ty) l : (forall a, agree free (f a) (g a)) -> agree (forallb free) (mapM f l) (mapM g l).
Proof.
  intros H. induction l as [|a l IH]; cbn [mapM]; [now apply agree_ok|].
  apply (agree_bind free); [apply H| |].
  - intros t F. apply (agree_bind (forallb free)); [exact IH| |].
    + intros ts G. apply agree_ok. cbn [forallb]. now rewrite F, G.
    + intros ts b G [= <-]. cbn [forallb]. now rewrite F, G.
  - intros t b F E. apply rbind_ok in E as (ts & _ & [= <-]). cbn [forallb]. now rewrite F.
Qed.

Lemma lookup_in {A} k (l : list (text * A)) a : lookup k l = Some a -> exists k', In (k', a) l /\ text_eqb k k' = true.
Proof.
  induction l as [|[k' a'] l IH]; cbn [lookup]; [discriminate|]. destruct (text_eqb k k') eqn:E.
  - intros [= <-]. exists k'. split; [now left|exact E].
  - intros H. destruct (IH H) as (k2 & I & T). exists k2. split; [now right|exact T].
Qed.
Lemma plain_agree ident : agree bf_free (plain_off ident) (or_err (lookup ident plain_table)).
Proof.
  unfold plain_off. destruct (text_eqb ident (txt "BFloat16")) eqn:E.
  - apply text_eqb_eq in E. subst ident. split; [now right|]. intros a H. vm_compute in H. injection H as <-. reflexivity.
  - apply agree_same. intros t H. destruct (lookup ident plain_table) as [t'|] eqn:L; [|discriminate H]. apply ok_inj_ in H. subst t'.
    destruct (lookup_in _ _ _ L) as (k & I & T). apply text_eqb_eq in T. subst k. cbn [plain_table In] in I.
    repeat (destruct I as [I|I]; [apply pair_equal_spec in I as [<- <-]; first [reflexivity|discriminate E]|]). contradiction I.
Qed.
Lemma head_agree U D off on h args : (forall s, agree bf_free (off s) (on s)) -> agree bf_free (apply_head U D off h args) (apply_head U D on h args).
Proof.
  intros H.
  assert (SC : forall mk : N -> ty, (forall n, bf_free (mk n) = true) -> agree bf_free (rmap mk (scale args)) (rmap mk (scale args))).
  { intros mk F. apply agree_same. intros t E. destruct (scale args); try discriminate E. injection E as <-. apply F. }
  assert (ONE : forall mk : ty -> ty, (forall t, bf_free (mk t) = bf_free t) -> agree bf_free (a <- one_arg args ;; rmap mk (off a)) (a <- one_arg args ;; rmap mk (on a))).
  { intros mk F. destruct (one_arg args) as [a|e|]; cbn [rbind]; [|apply agree_err|apply agree_panic]. now apply (agree_rmap bf_free). }
  destruct h; cbn [apply_head]; try (apply SC; reflexivity); try (apply ONE; reflexivity).
  - apply agree_same. intros t E. destruct args as [|a [|b [|c l]]]; try discriminate E.
    apply rbind_ok in E as (p & _ & E). apply rbind_ok in E as (sc & _ & E).
    destruct (p <=? 9); [now injection E as <-|]. destruct (p <=? 18); [now injection E as <-|]. destruct (p <=? 38); [now injection E as <-|].
    destruct (p <=? 76); [now injection E as <-|discriminate E].
  - apply agree_same. intros t E. apply rbind_ok in E as (p & _ & E). destruct (parse_tz D p); try discriminate E. now injection E as <-.
  - apply agree_same. intros t E. destruct args as [|a [|b [|c l]]]; try discriminate E.
    + apply rbind_ok in E as (p & _ & E). now injection E as <-.
    + destruct (_ || _); [discriminate E|]. apply rbind_ok in E as (p & _ & E). apply rbind_ok in E as (z & _ & E). now injection E as <-.
  - apply agree_same. intros t E. destruct (mapM _ args); try discriminate E. now injection E as <-.
  - apply agree_same. intros t E. destruct (mapM _ args); try discriminate E. now injection E as <-.
  - apply (agree_rmap (forallb bf_free)); [reflexivity|]. apply agree_mapM. intros a. apply H.
  - destruct args as [|a [|b [|c l]]]; try apply agree_err.
    apply (agree_bind bf_free); [apply H| |].
    + intros k F. apply (agree_bind bf_free); [apply H| |].
      * intros v G. apply agree_ok. cbn [bf_free]. now rewrite F, G.
      * intros v b' G [= <-]. cbn [bf_free]. now rewrite F, G.
    + intros k b' F E. apply rbind_ok in E as (v & _ & [= <-]). cbn [bf_free]. now rewrite F.
Qed.
Lemma go_agree U D fuel : forall s, agree bf_free (parse_go_off U D fuel s) (parse_go U D fuel s).
Proof.
  induction fuel as [|f IH]; intros s; cbn [parse_go parse_go_off]; [apply agree_err|].
  destruct (eat_identifier U true s) as [ident following]. destruct ident as [|c ident]; [apply agree_err|].
  destruct (trim U following) as [|c' fol]; [apply plain_agree|].
  destruct (parse_args U (c' :: fol)) as [args|e|]; cbn [rbind]; [|apply agree_err|apply agree_panic].
  destruct (lookup (c :: ident) head_table) as [h|]; [|apply agree_err]. apply head_agree, IH.
Qed.
Lemma parse_agree U D s : agree bf_free (parse_off U D s) (parse_ty U D s).
Proof. apply go_agree. Qed.
Lemma parse_off_free U D s t : parse_off U D s = Ok t -> parse_ty U D s = Ok t /\ bf_free t = true.
Proof.
  intros E. destruct (parse_agree U D s) as [[S|S] X]; rewrite S in E; [|discriminate E]. split; [exact E|].
  rewrite S in X. specialize (X t E). rewrite E in X. destruct (bf_free t); [reflexivity|discriminate X].
Qed.

(* ---------------- columns ---------------- *)

Definition same {A} (r r' : rd A) : Prop := forall inp, r inp = r' inp.
Lemma same_bind {A B} (r r' : rd A) (f f' : A -> rd B) : same r r' -> (forall a, same (f a) (f' a)) -> same (rdbind r f) (rdbind r' f').
Proof. intros R F inp. unfold rdbind. rewrite R. destruct (r' inp) as [[a i]|e|]; cbn [rbind]; [apply F|reflexivity|reflexivity]. Qed.
Lemma same_refl {A} (r : rd A) : same r r.
Proof. now intros inp. Qed.
Lemma same_n {A} (r r' : rd A) n : same r r' -> same (read_n n r) (read_n n r').
Proof.
  intros H. induction n as [|n IH]; [apply same_refl|]. cbn [read_n]. apply same_bind; [exact H|]. intros x.
  apply same_bind; [exact IH|]. intros. apply same_refl.
Qed.
Lemma same_check {A} rows (r r' : rd A) : same r r' -> same (check_rows rows r) (check_rows rows r').
Proof. intros H inp. unfold check_rows. destruct (_ <? _); [reflexivity|apply H]. Qed.
Lemma same_array {A} inner inner' (im : value -> res A) iv rows : (forall n, same (inner n) (inner' n)) ->
  same (deser_array_generic inner im iv rows) (deser_array_generic inner' im iv rows).
Proof.
  intros H. unfold deser_array_generic. destruct (rows =? 0); [apply same_refl|]. apply same_bind; [apply same_refl|]. intros offs.
  apply same_bind; [apply H|]. intros. apply same_refl.
Qed.
Lemma same_header inner inner' st : (forall n, same (inner n) (inner' n)) -> same (lc_header inner st) (lc_header inner' st).
Proof.
  intros H. assert (DI : same (n <~ read_le 8 ;;; d <~ inner n ;;; rret (Some d)) (n <~ read_le 8 ;;; d <~ inner' n ;;; rret (Some d))).
  { apply same_bind; [apply same_refl|]. intros n. apply same_bind; [apply H|]. intros. apply same_refl. }
  unfold lc_header. apply same_bind; [apply same_refl|]. intros flags. destruct (index_width flags); [|apply same_refl].
  apply same_bind; [destruct (_ && _); [exact DI|apply same_refl]|]. intros gd.
  apply same_bind; [destruct (has_bit _ _); [exact DI|apply same_refl]|]. intros ad. apply same_refl.
Qed.
Lemma same_loop inner inner' nullable fuel : (forall n, same (inner n) (inner' n)) -> forall limit st out inp,
  lc_loop fuel inner nullable limit st out inp = lc_loop fuel inner' nullable limit st out inp.
Proof.
  intros H. induction fuel as [|f IH]; intros limit st out inp; cbn [lc_loop]; [reflexivity|]. destruct (limit =? 0); [reflexivity|].
  destruct (num_pending st =? 0).
  - rewrite (same_header inner inner' st H inp). destruct (lc_header inner' st inp) as [[st' i]|e|]; cbn [rbind]; try reflexivity.
    destruct (check_rows _ _ i) as [[es i']|e|]; cbn [rbind]; try reflexivity. destruct (mapM _ es); cbn [rbind]; try reflexivity. apply IH.
  - cbn [rbind]. destruct (check_rows _ _ inp) as [[es i']|e|]; cbn [rbind]; try reflexivity. destruct (mapM _ es); cbn [rbind]; try reflexivity. apply IH.
Qed.
Lemma same_lc inner inner' nullable rows : (forall n, same (inner n) (inner' n)) ->
  same (deser_low_card nullable inner rows) (deser_low_card nullable inner' rows).
Proof. intros H inp. unfold deser_low_card. now apply same_loop. Qed.

Definition cols_off (rows : N) :=
  fix go (ts : list ty) (tuples : list (list value)) : rd (list (list value)) :=
    match ts with
    | [] => rret tuples
    | t1 :: ts' => col <~ deser_off t1 rows ;;; fun inp => tuples' <- push_column tuples col ;; go ts' tuples' inp
    end.
Lemma deser_off_tuple ts rows : deser_off (TTuple ts) rows =
  check_rows rows (tuples <~ cols_off rows ts (repeat [] (N.to_nat rows)) ;;; rret (map VTuple tuples)).
Proof. reflexivity. Qed.
Lemma deser_off_lc t rows : deser_off (TLowCard t) rows =
  check_rows rows (deser_low_card (is_nullable t) (deser_off (strip_null t)) rows).
Proof. destruct t; reflexivity. Qed.
Lemma strip_free t : bf_free (strip_null t) = bf_free t.
Proof. destruct t; reflexivity. Qed.

Lemma deser_same t : bf_free t = true -> forall rows, same (deser_off t rows) (deser t rows).
Proof.
  induction t as [t Hl|t IH IHs|t IH|ts IH|t IH|k v IHk IHv] using ty_ind_strip; intros F rows.
  - destruct t; try discriminate Hl; try discriminate F; apply same_refl.
  - rewrite deser_lc_eq, deser_off_lc. apply same_check, same_lc. intros n. apply IHs. now rewrite strip_free.
  - cbn [deser deser_off]. apply same_check, same_array. intros n. now apply IH.
  - rewrite deser_tuple_eq, deser_off_tuple. apply same_check, same_bind; [|intros; apply same_refl].
    generalize (repeat (@nil value) (N.to_nat rows)). cbn [bf_free] in F.
    induction IH as [|t ts Ht _ IHts]; intros acc; [apply same_refl|]. cbn [forallb] in F. apply andb_true_iff in F as [F1 F2].
    cbn [deser_cols cols_off]. apply same_bind; [now apply Ht|]. intros col inp. destruct (push_column acc col); cbn [rbind]; try reflexivity.
    now apply IHts.
  - cbn [deser deser_off]. apply same_check, same_bind; [apply same_refl|]. intros mask. apply same_bind; [now apply IH|]. intros. apply same_refl.
  - cbn [bf_free] in F. apply andb_true_iff in F as [F1 F2]. cbn [deser deser_off]. apply same_check. destruct (rows =? 0); [apply same_refl|].
    apply same_bind; [apply same_refl|]. intros offs. apply same_bind; [now apply IHk|]. intros ks. destruct (negb _); [apply same_refl|].
    apply same_bind; [now apply IHv|]. intros. apply same_refl.
Qed.

(* ---------------- blocks ---------------- *)

(** As [agree], for readers; and a refusal is due to a type that is announced, unless the other build fails too. *)
Definition follows {A} (U : unicode) (D : tzdb) (free : A -> bool) (off on : rd A) : Prop := forall inp,
  (off inp = on inp \/
   off inp = Err ETypeParse /\ (is_ok (on inp) = false \/ exists t, announces U D inp t /\ bf_free t = false)) /\
  (forall a rest, on inp = Ok (a, rest) -> off inp = if free a then Ok (a, rest) else Err ETypeParse).
Lemma announces_later U D used rest t : announces U D rest t -> announces U D (used ++ rest) t.
Proof. intros A. apply (announces_app U D used rest []) in A. now rewrite app_nil_r in A. Qed.
Lemma follows_bind {A B} U D (fa : A -> bool) (fb : B -> bool) (off on : rd A) f g : local on -> follows U D fa off on ->
  (forall a, fa a = true -> follows U D fb (f a) (g a)) -> (forall a i b r, fa a = false -> g a i = Ok (b, r) -> fb b = false) ->
  follows U D fb (rdbind off f) (rdbind on g).
Proof.
  intros L R F G inp. destruct (R inp) as [S X]. unfold rdbind. destruct (on inp) as [[a i]|e|] eqn:E.
  - destruct (L _ _ _ E) as (used & Eu & _). specialize (X a i eq_refl). destruct (fa a) eqn:FA.
    + rewrite X. cbn [rbind]. destruct (F a FA i) as [[Y|[Y Z]] W]; (split; [|exact W]); [now left|]. right. split; [exact Y|].
      destruct Z as [Z|(t & T & N)]; [now left|right]. exists t. split; [|exact N]. subst inp. now apply announces_later.
    + assert (AN : exists t, announces U D inp t /\ bf_free t = false).
      { destruct S as [S|[_ [S|S]]]; [rewrite X in S; discriminate S|discriminate S|exact S]. }
      rewrite X. cbn [rbind]. split; [right; split; [reflexivity|now right]|]. intros b r Gb. now rewrite (G a i b r FA Gb).
  - destruct S as [->|[-> _]]; cbn [rbind]; (split; [auto|discriminate]).
  - destruct S as [->|[-> _]]; cbn [rbind]; (split; [auto|discriminate]).
Qed.
Lemma follows_same {A} U D (free : A -> bool) r r' : same r r' -> (forall inp a rest, r' inp = Ok (a, rest) -> free a = true) -> follows U D free r r'.
Proof.
  intros S F inp. split; [left; apply S|]. intros a rest E. rewrite (F _ _ _ E), S. exact E.
Qed.
Definition any {A} (a : A) : bool := true.

Definition col_free (c : text * ty * list value) : bool := bf_free (snd (fst c)).
Definition rest_off (U : unicode) (D : tzdb) (rows : N) (name tname : text) : rd (text * ty * list value) :=
  t <~ lift (parse_off U D tname) ;;; data <~ (if 0 <? rows then _ <~ deser_prefix t ;;; deser_off t rows else rret []) ;;; rret (name, t, data).
Definition rest_on (U : unicode) (D : tzdb) (rows : N) (name tname : text) : rd (text * ty * list value) :=
  t <~ lift (parse_ty U D tname) ;;; data <~ (if 0 <? rows then _ <~ deser_prefix t ;;; deser t rows else rret []) ;;; rret (name, t, data).
Lemma column_follows U D rows : follows U D col_free (read_column_off U D rows) (read_column U D rows).
Proof.
  unfold read_column_off, read_column. apply (follows_bind U D any); [apply local_utf8|apply follows_same; [apply same_refl|reflexivity]| |discriminate].
  intros name _ inp.
  match goal with |- (?x = ?y \/ _) /\ _ => change x with (rdbind read_utf8_string (rest_off U D rows name) inp); change y with (rdbind read_utf8_string (rest_on U D rows name) inp) end.
  unfold rdbind. destruct (read_utf8_string inp) as [[tname i]|e|] eqn:E; cbn [rbind].
  2,3: (split; [now left|intros ? ? X; discriminate X]).
  assert (AN : forall t, parse_ty U D tname = Ok t -> announces U D inp t).
  { intros t P. unfold read_utf8_string, rdbind in E. destruct (read_string inp) as [[bs r4]|e|] eqn:S; cbn [rbind] in E; try discriminate.
    destruct (utf8_decode bs) as [s|] eqn:UD; [|discriminate]. apply ok_inj_, pair_equal_spec in E as [<- <-].
    destruct (read_string_bytes _ _ _ S) as (len & ->). exists len, bs, s, r4. auto. }
  clear E.
  assert (Q : (rest_off U D rows name tname i = rest_on U D rows name tname i /\ (forall t, parse_ty U D tname = Ok t -> bf_free t = true)) \/
            (rest_off U D rows name tname i = Err ETypeParse /\ forall t, parse_ty U D tname = Ok t -> bf_free t = false)).
  { unfold rest_off, rest_on. destruct (parse_agree U D tname) as [S X]. unfold rdbind at 1 4 7, lift. destruct (parse_ty U D tname) as [t|e|] eqn:P.
    - specialize (X t eq_refl). destruct (bf_free t) eqn:F; rewrite X; cbn [rbind].
      + left. split; [|intros ? [= <-]; exact F]. apply same_bind; [|intros; apply same_refl].
        destruct (0 <? rows); [|apply same_refl]. apply same_bind; [apply same_refl|]. intros. now apply deser_same.
      + right. split; [reflexivity|]. intros ? [= <-]. exact F.
    - destruct S as [->| ->]; [left; split; [reflexivity|discriminate]|right; split; [reflexivity|discriminate]].
    - destruct S as [->| ->]; [left; split; [reflexivity|discriminate]|right; split; [reflexivity|discriminate]]. }
  assert (CF : forall a rest, rest_on U D rows name tname i = Ok (a, rest) -> exists t, parse_ty U D tname = Ok t /\ col_free a = bf_free t).
  { intros a rest H. unfold rest_on, rdbind, lift in H. destruct (parse_ty U D tname) as [t|e|]; try discriminate H. cbn [rbind] in H.
    apply rbind_ok in H as ([d r] & _ & H). apply ok_inj_, pair_equal_spec in H as [<- _]. now exists t. }
  destruct Q as [[Q F]|[Q F]].
  - split; [left; exact Q|]. intros a rest H. destruct (CF _ _ H) as (t & P & C). etransitivity; [exact Q|]. rewrite C, (F t P). exact H.
  - split.
    + right. split; [exact Q|]. destruct (parse_ty U D tname) as [t|e|] eqn:P.
      * right; exists t; split; [now apply AN|now apply F].
      * left. unfold rest_on, rdbind, lift. rewrite P. reflexivity.
      * left. unfold rest_on, rdbind, lift. rewrite P. reflexivity.
    + intros a rest H. destruct (CF _ _ H) as (t & P & C). rewrite C, (F t P). exact Q.
Qed.
Lemma columns_follow U D rows n : follows U D (forallb col_free) (read_n n (read_column_off U D rows)) (read_n n (read_column U D rows)).
Proof.
  induction n as [|n IH]; cbn [read_n].
  - apply follows_same; [apply same_refl|]. intros inp a rest H. injection H as <- <-. reflexivity.
  - apply (follows_bind U D col_free); [apply local_column|apply column_follows| |].
    + intros c C. apply (follows_bind U D (forallb col_free)); [apply local_n, local_column|exact IH| |].
      * intros cs CS. apply follows_same; [apply same_refl|]. intros inp a rest H. injection H as <- <-. cbn [forallb]. now rewrite C, CS.
      * intros cs i b r CS H. injection H as <- <-. cbn [forallb]. now rewrite C, CS.
    + intros c i b r C H. unfold rdbind in H. apply rbind_ok in H as ([cs r'] & _ & H). injection H as <- <-. cbn [forallb]. now rewrite C.
Qed.

Lemma insert_in {A} k (a : A) m k' a' : In (k', a') (im_insert k a m) -> a' = a \/ In (k', a') m.
Proof.
  induction m as [|[k2 a2] m IH]; cbn [im_insert]; [intros [H|[]]; injection H; auto|].
  destruct (text_eqb k k2).
  - intros [H|H]; [injection H; auto|right; now right].
  - intros [H|H]; [right; now left|]. destruct (IH H) as [X|X]; [now left|right; now right].
Qed.
Lemma types_from cols : forall b k t, In (k, t) (b_types (fold_left add_column cols b)) -> In t (map (fun c => snd (fst c)) cols) \/ In (k, t) (b_types b).
Proof.
  induction cols as [|[[n t1] d] cols IH]; intros b k t H; cbn [fold_left] in H; [now right|].
  destruct (IH _ _ _ H) as [I|I]; [left; now right|]. cbn [add_column b_types] in I. apply insert_in in I as [->|I]; [left; now left|now right].
Qed.

Section Block.
  Context (U : unicode) (D : tzdb) (revision : N).
  Lemma block_parts inp :
    (exists r, is_ok r = false /\ read_block U D revision inp = r /\ read_block_off U D revision inp = r) \/
    (exists info rows n used rest, inp = used ++ rest /\
      let mk cols := fold_left add_column cols {| b_info := info; b_rows := rows; b_types := []; b_data := [] |} in
      read_block U D revision inp = ('(cols, i) <- read_n n (read_column U D rows) rest ;; Ok (mk cols, i)) /\
      read_block_off U D revision inp = ('(cols, i) <- read_n n (read_column_off U D rows) rest ;; Ok (mk cols, i))).
  Proof.
    unfold read_block, read_block_off, rdbind.
    destruct ((if 0 <? revision then read_info else rret default_info) inp) as [[info i1]|e|] eqn:E1; cbn [rbind].
    2:{ left. exists (Err e). repeat split. } 2:{ left. exists Panic. repeat split. }
    assert (L1 : local (if 0 <? revision then read_info else rret default_info)) by (destruct (0 <? revision); [apply local_info|apply local_ret]).
    destruct (L1 _ _ _ E1) as (u1 & -> & _).
    destruct (read_var_uint i1) as [[columns i2]|e|] eqn:E2; cbn [rbind].
    2:{ left. exists (Err e). repeat split. } 2:{ left. exists Panic. repeat split. }
    destruct (local_var _ _ _ E2) as (u2 & -> & _).
    destruct (read_var_uint i2) as [[rows i3]|e|] eqn:E3; cbn [rbind].
    2:{ left. exists (Err e). repeat split. } 2:{ left. exists Panic. repeat split. }
    destruct (local_var _ _ _ E3) as (u3 & -> & _). right.
    exists info, rows, (N.to_nat columns), (u1 ++ u2 ++ u3), i3. split; [now rewrite !app_assoc|]. cbv zeta. split.
    - destruct (read_n _ _ i3) as [[cols i]|e|]; reflexivity.
    - destruct (read_n _ _ i3) as [[cols i]|e|]; reflexivity.
  Qed.
  Lemma block_off inp :
    read_block_off U D revision inp = read_block U D revision inp \/
    read_block_off U D revision inp = Err ETypeParse /\
      (is_ok (read_block U D revision inp) = false \/ exists t, announces U D inp t /\ bf_free t = false).
  Proof.
    destruct (block_parts inp) as [(r & _ & -> & ->)|(info & rows & n & used & rest & Ei & H)]; [now left|]. cbv zeta in H. destruct H as [-> ->].
    destruct (columns_follow U D rows n rest) as [[->|[-> [F|(t & A & N)]]] _]; [now left| |].
    - right. split; [reflexivity|]. left. destruct (read_n _ _ rest) as [[? ?]|e|]; [discriminate F|reflexivity|reflexivity].
    - right. split; [reflexivity|]. right. exists t. split; [|exact N]. subst inp. now apply announces_later.
  Qed.
  Lemma block_off_types inp b rest : read_block_off U D revision inp = Ok (b, rest) ->
    read_block U D revision inp = Ok (b, rest) /\ Forall (fun kt => bf_free (snd kt) = true) (b_types b).
  Proof.
    intros H. destruct (block_off inp) as [E|[E _]]; rewrite E in H; [|discriminate H]. split; [exact H|].
    destruct (block_parts inp) as [(r & F & E1 & E2)|(info & rows & n & used & rest' & Ei & X)].
    - rewrite E1 in H. subst r. discriminate F.
    - cbv zeta in X. destruct X as [X Y]. rewrite <- E, Y in H. destruct (read_n n (read_column_off U D rows) rest') as [[cols i]|e|] eqn:C; cbn [rbind] in H; try discriminate H.
      apply ok_inj_, pair_equal_spec in H as [<- <-]. apply Forall_forall. intros [k t] I. apply types_from in I as [I|[]]. cbn [snd].
      destruct (columns_follow U D rows n rest') as [S Z].
      assert (ON : read_n n (read_column U D rows) rest' = Ok (cols, i)) by (destruct S as [S|[S _]]; congruence).
      specialize (Z _ _ ON). rewrite C in Z. destruct (forallb col_free cols) eqn:FC; [|discriminate Z].
      apply in_map_iff in I as (c & <- & I). exact (proj1 (forallb_forall _ _) FC c I).
  Qed.
  Lemma block_refused inp b rest k t : read_block U D revision inp = Ok (b, rest) -> In (k, t) (b_types b) -> bf_free t = false ->
    read_block_off U D revision inp = Err ETypeParse.
  Proof.
    intros H I F. destruct (block_off inp) as [E|[E _]]; [|exact E]. rewrite H in E.
    destruct (block_off_types inp b rest E) as [_ A]. pose proof (proj1 (Forall_forall _ _) A _ I) as X. cbn [snd] in X. congruence.
  Qed.
End Block.

(* ---------------- writing ---------------- *)

Definition cell (t : ty) (v : value) : Prop := v = VNull \/ inner_validate t v = true.
Lemma mapM_ext {A B} (f g : A -> res B) l : (forall a, In a l -> f a = g a) -> mapM f l = mapM g l.
Proof.
  induction l as [|a l IH]; intros H; cbn [mapM]; [reflexivity|]. rewrite (H a) by now left. rewrite IH by (intros; apply H; now right). reflexivity.
Qed.
Lemma sized_same t vs : bf_free t = true -> ty_leaf t = true -> Forall (cell t) vs -> ser_sized_off t vs = ser_sized t vs.
Proof.
  intros F L H. unfold ser_sized_off, ser_sized. f_equal. apply mapM_ext. intros v I. pose proof (proj1 (Forall_forall _ _) H v I) as [->|V].
  - unfold justify_null. cbn [is_null]. destruct t; try discriminate F; try discriminate L; reflexivity.
  - unfold justify_null. destruct (is_null v) eqn:NV; [destruct v; try discriminate NV; destruct t; try discriminate L; try discriminate V; destruct w; discriminate V|].
    destruct v; try reflexivity. destruct t; try discriminate F; try discriminate L; try discriminate V; destruct w; discriminate V.
Qed.

Lemma array_same (f g : list value -> res (list N)) (unwrap : value -> res (list value)) vs :
  (forall ls, mapM unwrap vs = Ok ls -> f (concat ls) = g (concat ls)) -> ser_array_generic unwrap f vs = ser_array_generic unwrap g vs.
Proof. intros H. unfold ser_array_generic. destruct (mapM unwrap vs) as [ls|e|]; cbn [rbind]; [|reflexivity|reflexivity]. now rewrite H. Qed.
Lemma insert_keys_sub v keys x : In x (index_insert keys v) -> x = v \/ In x keys.
Proof. unfold index_insert. destruct (existsb _ _); [now right|]. intros I. apply in_app_or in I as [I|[I|[]]]; auto. Qed.
Lemma keys_sub vs : forall keys x, In x (fold_left index_insert vs keys) -> In x vs \/ In x keys.
Proof.
  induction vs as [|v vs IH]; intros keys x I; cbn [fold_left] in I; [now right|]. destruct (IH _ _ I) as [J|J]; [left; now right|].
  apply insert_keys_sub in J as [->|J]; [left; now left|now right].
Qed.
Definition cols_ser (s : ty -> list value -> res (list N)) := fix go (ts : list ty) (rows : list (list value)) : res (list N) :=
  match ts with [] => Ok [] | t1 :: ts' => b <- s t1 (heads rows) ;; bs <- go ts' (tails rows) ;; Ok (b ++ bs) end.
Lemma ser_tuple_eq ts vs : ser (TTuple ts) vs = (rows <- mapM unwrap_tuple vs ;;
  if existsb (fun r => lenN ts <? lenN r) rows then Panic else cols_ser ser ts rows).
Proof. reflexivity. Qed.
Lemma ser_off_tuple_eq ts vs : ser_off (TTuple ts) vs = (rows <- mapM unwrap_tuple vs ;;
  if existsb (fun r => lenN ts <? lenN r) rows then Panic else cols_ser ser_off ts rows).
Proof. reflexivity. Qed.
Lemma ser_lc_eq t vs : ser (TLowCard t) vs = ser_low_card (is_nullable t) (ser (strip_null t)) vs.
Proof. destruct t; reflexivity. Qed.
Lemma ser_off_lc_eq t vs : ser_off (TLowCard t) vs = ser_low_card (is_nullable t) (ser_off (strip_null t)) vs.
Proof. destruct t; reflexivity. Qed.
Lemma mapM_in {A B} (f : A -> res B) l bs b : mapM f l = Ok bs -> In b bs -> exists a, In a l /\ f a = Ok b.
Proof.
  revert bs; induction l as [|a l IH]; intros bs H I; cbn [mapM] in H.
  - injection H as <-. contradiction I.
  - apply rbind_ok in H as (y & E & H). apply rbind_ok in H as (ys & E' & H). injection H as <-.
    destruct I as [<-|I]; [exists a; split; [now left|exact E]|]. destruct (IH ys E' I) as (a' & J & F). exists a'. split; [now right|exact F].
Qed.
Lemma cell_strip t v : cell t v -> cell (strip_null t) v.
Proof.
  destruct t; try (intros H; exact H). cbn [strip_null]. intros [->|V]; [now left|]. cbn [inner_validate] in V.
  destruct v; try (right; exact V). now left.
Qed.
Lemma ser_same t : bf_free t = true -> forall vs, Forall (cell t) vs -> ser_off t vs = ser t vs.
Proof.
  induction t as [t Hl|t IH IHs|t IH|ts IH|t IH|k v IHk IHv] using ty_ind_strip; intros F vs H.
  - destruct t; try discriminate Hl; try discriminate F; try reflexivity; now apply sized_same.
  - rewrite ser_lc_eq, ser_off_lc_eq. unfold ser_low_card. destruct vs as [|v0 vs']; [reflexivity|]. remember (v0 :: vs') as vs eqn:EV. clear EV v0 vs'.
    rewrite IHs; [reflexivity|now rewrite strip_free|]. apply Forall_forall. intros x I. apply keys_sub in I as [I|I].
    + apply cell_strip. pose proof (proj1 (Forall_forall _ _) H x I) as [->|V]; [now left|right]. exact V.
    + destruct (is_nullable t); [|contradiction I]. destruct I as [<-|[]]. now left.
  - cbn [ser ser_off]. apply array_same. intros ls E. apply IH; [exact F|]. apply Forall_forall. intros x I. apply in_concat in I as (l & L & I).
    destruct (mapM_in _ _ _ _ E L) as (v & J & U). destruct v; try discriminate U. injection U as ->.
    pose proof (proj1 (Forall_forall _ _) H _ J) as [V|V]; [discriminate V|]. cbn [inner_validate] in V. right. exact (proj1 (forallb_forall _ _) V x I).
  - rewrite ser_tuple_eq, ser_off_tuple_eq. destruct (mapM unwrap_tuple vs) as [rows|e|] eqn:E; cbn [rbind]; [|reflexivity|reflexivity].
    destruct (existsb _ rows); [reflexivity|].
    assert (R : Forall (fun r => zip_all inner_validate ts r = true) rows).
    { apply Forall_forall. intros r I. destruct (mapM_in _ _ _ _ E I) as (v & J & U). destruct v; try discriminate U. injection U as ->.
      pose proof (proj1 (Forall_forall _ _) H _ J) as [V|V]; [discriminate V|exact V]. }
    clear H E vs. cbn [bf_free] in F. revert rows R. induction IH as [|t ts Ht _ IHts]; intros rows R; [reflexivity|].
    cbn [forallb] in F. apply andb_true_iff in F as [F1 F2]. cbn [cols_ser]. rewrite Ht; [|exact F1|].
    + rewrite IHts; [reflexivity|exact F2|]. unfold tails. apply Forall_forall. intros r I. apply in_map_iff in I as (r' & <- & I).
      pose proof (proj1 (Forall_forall _ _) R _ I) as V. destruct r' as [|x r']; [destruct ts; reflexivity|]. cbn [zip_all] in V. now apply andb_true_iff in V as [_ V].
    + apply Forall_forall. intros x I. unfold heads in I. apply in_flat_map in I as (r & J & I). destruct r as [|y r]; [contradiction I|]. destruct I as [<-|[]].
      pose proof (proj1 (Forall_forall _ _) R _ J) as V. cbn [zip_all] in V. apply andb_true_iff in V as [V _]. now right.
  - cbn [ser ser_off]. rewrite IH; [reflexivity|exact F|]. eapply Forall_impl; [|exact H]. intros v C. apply (cell_strip (TNullable t)). exact C.
  - cbn [bf_free] in F. apply andb_true_iff in F as [F1 F2]. cbn [ser ser_off]. destruct (mapM unwrap_map vs) as [kvs|e|] eqn:E; cbn [rbind]; [|reflexivity|reflexivity].
    assert (R : forall kv, In kv kvs -> forallb (inner_validate k) (fst kv) = true /\ forallb (inner_validate v) (snd kv) = true).
    { intros [ks ws] I. destruct (mapM_in _ _ _ _ E I) as (x & J & U). destruct x; try discriminate U. cbn [unwrap_map] in U. destruct (_ =? _); [|discriminate U].
      injection U as -> ->. pose proof (proj1 (Forall_forall _ _) H _ J) as [V|V]; [discriminate V|]. cbn [inner_validate] in V. now apply andb_true_iff in V. }
    rewrite IHk, IHv; [reflexivity|exact F2| |exact F1|].
    + apply Forall_forall. intros x I. apply in_concat in I as (l & L & I). apply in_map_iff in L as (kv & <- & L). right.
      exact (proj1 (forallb_forall _ _) (proj2 (R kv L)) x I).
    + apply Forall_forall. intros x I. apply in_concat in I as (l & L & I). apply in_map_iff in L as (kv & <- & L). right.
      exact (proj1 (forallb_forall _ _) (proj1 (R kv L)) x I).
Qed.
