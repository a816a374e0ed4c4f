(** Column round trip: [deser] inverts [ser] up to [normal]. *)
From Verif Require Import Base Io IoProofs Types Ser Deser ColumnSpec.

(* ---------- lists ---------- *)
Lemma takeN_firstn {A} n (l : list A) : takeN n l = firstn (N.to_nat n) l.
Proof.
  revert n; induction l as [|x t IH]; intros n; cbn [takeN]; [now rewrite firstn_nil|].
  destruct (N.eqb_spec n 0) as [->|E]; [reflexivity|].
  replace (N.to_nat n) with (S (N.to_nat (N.pred n))) by lia. cbn [firstn]. now rewrite IH.
Qed.
Lemma dropN_skipn {A} n (l : list A) : dropN n l = skipn (N.to_nat n) l.
Proof.
  revert n; induction l as [|x t IH]; intros n; cbn [dropN]; [now rewrite skipn_nil|].
  destruct (N.eqb_spec n 0) as [->|E]; [reflexivity|].
  replace (N.to_nat n) with (S (N.to_nat (N.pred n))) by lia. cbn [skipn]. now rewrite IH.
Qed.
Lemma nthN_nth {A} n (l : list A) : nthN l n = nth_error l (N.to_nat n).
Proof.
  revert n; induction l as [|x t IH]; intros n; cbn [nthN]; [now destruct (N.to_nat n)|].
  destruct (N.eqb_spec n 0) as [->|E]; [reflexivity|].
  replace (N.to_nat n) with (S (N.to_nat (N.pred n))) by lia. cbn [nth_error]. now rewrite IH.
Qed.
Lemma cut_nul_until l : until_nul l = cut_nul l.
Proof. induction l as [|b t IH]; cbn; [reflexivity|now rewrite IH]. Qed.
Lemma flat_map_concat_map' {A B} (f : A -> list B) l : flat_map f l = concat (map f l).
Proof. apply flat_map_concat_map. Qed.
Lemma takeN_app_len {A} (l m : list A) : takeN (lenN l) (l ++ m) = l.
Proof. rewrite takeN_firstn. unfold lenN. rewrite Nat2N.id, firstn_app, firstn_all, Nat.sub_diag. cbn. apply app_nil_r. Qed.
Lemma dropN_app_len {A} (l m : list A) : dropN (lenN l) (l ++ m) = m.
Proof. rewrite dropN_skipn. unfold lenN. rewrite Nat2N.id, skipn_app, skipn_all, Nat.sub_diag. reflexivity. Qed.

(* ---------- element-wise columns ---------- *)

(** [enc] and [dec] agree on [v], which comes back as [g v]. *)
Definition codec_ok {A B} (enc : A -> res (list N)) (dec : rd B) (g : A -> B) (v : A) : Prop :=
  exists bs, enc v = Ok bs /\ bytes_ok bs /\ forall rest, dec (bs ++ rest) = Ok (g v, rest).

Lemma column_codec {A B} (enc : A -> res (list N)) (dec : rd B) g vs :
  Forall (codec_ok enc dec g) vs ->
  exists bs, rmap (@concat N) (mapM enc vs) = Ok bs /\ bytes_ok bs /\
    forall rest, read_n (N.to_nat (lenN vs)) dec (bs ++ rest) = Ok (map g vs, rest).
Proof.
  unfold lenN. rewrite Nat2N.id.
  induction 1 as [|v vs (b & E & B1 & D) _ (bs & EM & B2 & DM)].
  - exists []. repeat split; try constructor. 
  - destruct (mapM enc vs) as [bss| |] eqn:EMM; cbn in EM; try discriminate. injection EM as <-.
    exists (b ++ concat bss). cbn [mapM]. rewrite E, EMM. cbn. repeat split.
    + now apply Forall_app.
    + intros rest. rewrite <- app_assoc. unfold rdbind. rewrite D. cbn. rewrite DM. reflexivity.
Qed.

Lemma forallb_bytes l : forallb byteb l = true -> bytes_ok l.
Proof. intros H. apply Forall_forall. intros x Hx. rewrite forallb_forall in H. specialize (H x Hx). unfold byteb, byte_ok in *. lia. Qed.

Lemma signedb_spec w x : signedb w x = true -> in_signed w x.
Proof. unfold signedb, in_signed. lia. Qed.

Lemma enc_dec_le n x (k : N -> value) (rest : list N) : x < 256 ^ N.of_nat n ->
  (y <~ read_le n ;;; rret (k y)) (le_bytes n x ++ rest) = Ok (k x, rest).
Proof. intros H. unfold rdbind. rewrite read_le_app by assumption. reflexivity. Qed.

Lemma ibits_pos w : 0 < ibits w. Proof. destruct w; reflexivity. Qed.
Lemma ibits_pow w : 2 ^ ibits w = 256 ^ N.of_nat (ibytes w).
Proof. now rewrite pow256_2. Qed.

Lemma enc_dec_signed w x (k : Z -> value) (rest : list N) : in_signed (ibits w) x ->
  (y <~ read_signed w ;;; rret (k y)) (le_bytes (ibytes w) (s2u (ibits w) x) ++ rest) = Ok (k x, rest).
Proof.
  intros H. unfold read_signed, rdbind. rewrite read_le_app.
  - cbn. unfold rret. rewrite u2s_s2u; [reflexivity|apply ibits_pos|assumption].
  - rewrite <- ibits_pow. apply s2u_bound.
Qed.

Lemma bytes_of_len_spec n l : bytes_of_len n l = true -> lenN l = n /\ bytes_ok l.
Proof. unfold bytes_of_len. intros H. apply andb_true_iff in H as [H1 H2]. split; [lia|now apply forallb_bytes]. Qed.

Lemma lenN_rev {A} (l : list A) : lenN (rev l) = lenN l.
Proof. unfold lenN; now rewrite rev_length. Qed.

Lemma enc_dec_256 be (k : list N -> value) (rest : list N) : lenN be = 32 ->
  (y <~ read_256 ;;; rret (k y)) (rev be ++ rest) = Ok (k be, rest).
Proof.
  intros H. unfold read_256, rdbind. rewrite read_exact_app' by (now rewrite lenN_rev).
  cbn. unfold rret. now rewrite rev_involutive.
Qed.

(** The fixed-width types. *)
Definition sized (t : ty) : bool :=
  match t with
  | TString | TFixedString _ | TArray _ | TTuple _ | TPoint | TRing | TPolygon | TMultiPolygon
  | TNullable _ | TMap _ _ | TLowCard _ => false
  | _ => true
  end.

Lemma ser_sized_eq t vs : sized t = true -> ser t vs = ser_sized t vs.
Proof. destruct t; try discriminate; reflexivity. Qed.
Lemma deser_sized_eq t rows : sized t = true -> deser t rows = check_rows rows (deser_sized t rows).
Proof. destruct t; try discriminate; reflexivity. Qed.

(** NULL inside a Nullable column is stored as the type's default. *)
Definition normal_null (t : ty) (v : value) : value :=
  if is_null v then normal t (default_value t) else normal t v.

Lemma codec_le w n x (k : N -> value) (g : value -> value) v :
  enc_sized v = Ok (le_bytes n x) -> w =? 8 * N.of_nat n = true -> x <? 2 ^ w = true -> g v = k x ->
  codec_ok enc_sized (y <~ read_le n ;;; rret (k y)) g v.
Proof.
  intros E Hw H G. apply N.eqb_eq in Hw as ->. rewrite <- pow256_2 in H. exists (le_bytes n x). split; [assumption|]. split; [apply le_bytes_ok|].
  intros rest. rewrite G. apply enc_dec_le. lia.
Qed.
Lemma codec_signed w x (k : Z -> value) (g : value -> value) v :
  enc_sized v = Ok (le_bytes (ibytes w) (s2u (ibits w) x)) -> signedb (ibits w) x = true -> g v = k x ->
  codec_ok enc_sized (y <~ read_signed w ;;; rret (k y)) g v.
Proof.
  intros E H G. eexists. split; [exact E|]. split; [apply le_bytes_ok|].
  intros rest. rewrite G. apply enc_dec_signed. now apply signedb_spec.
Qed.
Lemma codec_256 be (k : list N -> value) (g : value -> value) v :
  enc_sized v = Ok (rev be) -> bytes_of_len 32 be = true -> g v = k be ->
  codec_ok enc_sized (y <~ read_256 ;;; rret (k y)) g v.
Proof.
  intros E H G. apply bytes_of_len_spec in H as [L B]. exists (rev be). split; [assumption|].
  split; [now apply Forall_rev|]. intros rest. rewrite G. now apply enc_dec_256.
Qed.

Lemma iw_eqb_eq a b : iw_eqb a b = true -> a = b.
Proof. destruct a, b; (discriminate || reflexivity). Qed.

Lemma sized_codec t v :
  sized t = true -> representable v = true -> inner_validate t v = true ->
  codec_ok enc_sized (dec_sized t) (normal t) v.
Proof.
  intros Ht Hr Hv.
  destruct t as [w| |w| | | | |s|s|s|s| |n| | |z|p z| | | | | | |l|l| | | | |];
    try discriminate Ht; destruct v; try discriminate Hv; try (destruct w; discriminate Hv);
    cbn [inner_validate] in Hv; cbn [representable] in Hr; cbn [dec_sized].
  - assert (w = w0) as <- by (destruct w, w0; (discriminate Hv || reflexivity)).
    eapply codec_signed; [reflexivity|exact Hr|now destruct w].
  - (* Int8 column, UInt8 value *)
    destruct w; try discriminate Hv. destruct w0; try discriminate Hv.
    eexists. split; [reflexivity|]. split; [apply le_bytes_ok|]. intros rest.
    cbn [enc_sized ibytes]. unfold read_signed, rdbind. cbn [ibytes].
    apply N.ltb_lt in Hr. unfold ibits in Hr. rewrite <- pow256_2 in Hr. rewrite read_le_app by exact Hr. reflexivity.
  - eapply codec_256; [reflexivity|exact Hr|reflexivity].
  - apply iw_eqb_eq in Hv as <-. eapply codec_le; [reflexivity| |exact Hr|now destruct w]. apply N.eqb_refl.
  - eapply codec_256; [reflexivity|exact Hr|reflexivity].
  - eapply codec_le; [reflexivity| |exact Hr|reflexivity]; reflexivity.
  - eapply codec_le; [reflexivity| |exact Hr|reflexivity]; reflexivity.
  - eapply codec_le; [reflexivity| |exact Hr|reflexivity]; reflexivity.
  - apply N.eqb_eq in Hv as <-. eapply (codec_signed I32); [reflexivity|exact Hr|reflexivity].
  - apply N.eqb_eq in Hv as <-. eapply (codec_signed I64); [reflexivity|exact Hr|reflexivity].
  - apply N.eqb_eq in Hv as <-. eapply (codec_signed I128); [reflexivity|exact Hr|reflexivity].
  - apply N.eqb_eq in Hv as <-. eapply codec_256; [reflexivity|exact Hr|reflexivity].
  - (* Uuid *)
    apply N.ltb_lt in Hr.
    assert (H1 : N.shiftr n 64 < 256 ^ N.of_nat 8).
    { rewrite N.shiftr_div_pow2, pow256_2. apply N.div_lt_upper_bound; [discriminate|].
      rewrite <- N.pow_add_r. change (64 + 8 * N.of_nat 8) with 128. exact Hr. }
    assert (H2' : n mod 2 ^ 64 < 2 ^ 64) by (apply N.mod_lt; discriminate).
    assert (H2 : n mod 2 ^ 64 < 256 ^ N.of_nat 8).
    { rewrite pow256_2. change (8 * N.of_nat 8) with 64. exact H2'. }
    eexists. split; [reflexivity|]. split; [apply Forall_app; split; apply le_bytes_ok|].
    intros rest. rewrite <- app_assoc. unfold rdbind. rewrite read_le_app by exact H1. cbn [rbind].
    rewrite read_le_app by exact H2. cbn [rbind]. unfold rret. do 2 f_equal. cbn [normal]. f_equal.
    rewrite N.lor_comm. rewrite lor_shiftl_add by exact H2'. rewrite N.shiftr_div_pow2.
    rewrite N.add_comm, N.mul_comm. symmetry. exact (N.div_mod n (2 ^ 64) ltac:(discriminate)).
  - eapply codec_le; [reflexivity| |exact Hr|reflexivity]; reflexivity.
  - apply N.eqb_eq in Hv as <-. eapply codec_le; [reflexivity| |exact Hr|reflexivity]; reflexivity.
  - apply andb_true_iff in Hv as [H1 H2]. apply N.eqb_eq in H1 as <-. apply N.eqb_eq in H2 as <-.
    eapply codec_le; [reflexivity| |exact Hr|reflexivity]; reflexivity.
  - eapply codec_le; [reflexivity| |exact Hr|reflexivity]; reflexivity.
  - apply bytes_of_len_spec in Hr as [L B]. exists octets. split; [reflexivity|]. split; [assumption|].
    intros rest. unfold rdbind. rewrite read_exact_app' by (now symmetry). reflexivity.
  - eapply (codec_signed I8); [reflexivity|exact Hr|reflexivity].
  - eapply (codec_signed I16); [reflexivity|exact Hr|reflexivity].
Qed.

(* ---------- strings ---------- *)

Lemma byte_values items :
  forallb is_byte_value items = true -> forallb representable items = true ->
  mapM byte_of_value items = Ok (map spec_byte items) /\ bytes_ok (map spec_byte items).
Proof.
  induction items as [|x t IH]; intros H R; [split; [reflexivity|constructor]|].
  cbn [forallb] in H, R. apply andb_true_iff in H as [Hx Ht]. apply andb_true_iff in R as [Rx Rt].
  destruct (IH Ht Rt) as [E B]. cbn [mapM map].
  destruct x as [w x| |w x| | | | | | | | | | | | | | | | | | | | | | | | |]; try discriminate Hx;
    destruct w; try discriminate Hx; cbn [byte_of_value spec_byte rbind]; rewrite E; cbn [rbind];
    (split; [reflexivity|]); constructor; try assumption.
  - pose proof (s2u_bound 8 x). exact H.
  - cbn [representable] in Rx. unfold byte_ok. apply N.ltb_lt in Rx. exact Rx.
Qed.

Lemma emit_fixed n bs : lenN (emit_bytes (TFixedString n) bs) = n.
Proof.
  cbn [emit_bytes]. destruct (N.leb_spec n (lenN bs)) as [H|H].
  - rewrite takeN_firstn. unfold lenN in *. rewrite firstn_length. lia.
  - rewrite lenN_app. unfold lenN at 2. rewrite repeat_length. lia.
Qed.

Lemma cut_nul_app_zeros bs k : cut_nul (bs ++ repeat 0 k) = cut_nul bs.
Proof.
  induction bs as [|b t IH]; cbn [app cut_nul].
  - destruct k; reflexivity.
  - destruct (b =? 0); [reflexivity|now rewrite IH].
Qed.

Lemma emit_fixed_view n bs : cut_nul (emit_bytes (TFixedString n) bs) = fixed_view n bs.
Proof.
  unfold fixed_view. cbn [emit_bytes]. destruct (N.leb_spec n (lenN bs)) as [H|H].
  - now rewrite takeN_firstn.
  - rewrite cut_nul_app_zeros. rewrite firstn_all2 by (unfold lenN in H; lia). reflexivity.
Qed.

Lemma emit_bytes_ok t bs : bytes_ok bs -> bytes_ok (emit_bytes t bs).
Proof.
  intros H. destruct t; try (apply Forall_app; split; [apply write_var_uint_bytes|assumption]).
  cbn [emit_bytes]. destruct (_ <=? _).
  - rewrite takeN_firstn. now apply Forall_firstn.
  - apply Forall_app. split; [assumption|]. apply Forall_forall. intros x Hx.
    apply repeat_spec in Hx as ->. reflexivity.
Qed.

Definition stringy (t : ty) : bool := match t with TString | TFixedString _ => true | _ => false end.

Lemma dec_emit t bs rest :
  stringy t = true -> string_room t (VString bs) ->
  dec_string t (emit_bytes t bs ++ rest)
  = Ok (VString (match t with TFixedString n => fixed_view n bs | _ => bs end), rest).
Proof.
  intros Ht Hf. destruct t; try discriminate Ht.
  - cbn [string_room str_len] in Hf. cbn [dec_string emit_bytes]. unfold rdbind.
    rewrite read_write_string by exact Hf. reflexivity.
  - cbn [dec_string]. cbn [string_room] in Hf. unfold ISIZE_MAX. destruct (N.ltb_spec (2 ^ 63 - 1) n); [lia|].
    unfold rdbind. rewrite read_exact_app' by (now rewrite emit_fixed).
    cbn [rbind]. unfold rret. rewrite cut_nul_until, emit_fixed_view. reflexivity.
Qed.

Lemma string_codec t v :
  stringy t = true -> representable v = true -> inner_validate t v = true ->
  string_room t v ->
  codec_ok (enc_string t) (dec_string t) (normal t) v.
Proof.
  intros Ht Hr Hv Hf.
  destruct v; try (destruct t; discriminate).
  - (* VString *)
    exists (emit_bytes t bs). split; [reflexivity|].
    split; [apply emit_bytes_ok, forallb_bytes, Hr|].
    intros rest. rewrite dec_emit by assumption. destruct t; try discriminate Ht; reflexivity.
  - (* VArray *)
    assert (Hb : forallb is_byte_value l = true) by (destruct t; try discriminate Ht; exact Hv).
    destruct (byte_values l Hb Hr) as [E B].
    exists (emit_bytes t (map spec_byte l)). split.
    { unfold enc_string, justify_null. cbn [is_null]. rewrite E. reflexivity. }
    split; [now apply emit_bytes_ok|].
    intros rest. rewrite dec_emit; [|assumption|destruct t; try discriminate Ht; cbn [string_room str_len] in *; now rewrite ?lenN_map].
    destruct t; try discriminate Ht; reflexivity.
Qed.

(* ---------- leaf types, with NULLs already replaced ---------- *)

Definition plain (t : ty) : bool := sized t || stringy t.

Definition enc_leaf (t : ty) (v : value) : res (list N) :=
  if sized t then enc_sized (justify_null t v) else enc_string t v.
Definition dec_leaf (t : ty) : rd value := if sized t then dec_sized t else dec_string t.

Lemma ser_plain t vs : plain t = true -> ser t vs = rmap (@concat N) (mapM (enc_leaf t) vs).
Proof. destruct t; try discriminate; reflexivity. Qed.
Lemma deser_plain t rows : plain t = true ->
  deser t rows = check_rows rows (read_n (N.to_nat rows) (dec_leaf t)).
Proof. destruct t; try discriminate; reflexivity. Qed.

Lemma not_null_plain t v : plain t = true -> inner_validate t v = true -> is_null v = false.
Proof. destruct v; try reflexivity. intros Ht Hv. destruct t; try discriminate Ht; try discriminate Hv; destruct w; discriminate Hv. Qed.

Lemma default_plain t : plain t = true -> string_room t (VString []) ->
  codec_ok (enc_leaf t) (dec_leaf t) (fun _ => normal t (default_value t)) VNull.
Proof.
  intros Ht Hroom. destruct (sized t) eqn:Hs.
  - assert (H : codec_ok enc_sized (dec_sized t) (normal t) (default_value t)).
    { destruct t; try discriminate Hs;
        try (apply sized_codec; [assumption|try reflexivity|]; cbn [default_value inner_validate]; rewrite ?N.eqb_refl; reflexivity).
      - apply sized_codec; [reflexivity|destruct w; reflexivity|destruct w; reflexivity].
      - apply sized_codec; [reflexivity|destruct w; reflexivity|destruct w; reflexivity].
      - eapply (codec_signed I8); reflexivity.
      - eapply (codec_signed I16); reflexivity. }
    destruct H as (bs & E & B & D). exists bs. unfold enc_leaf, dec_leaf. rewrite Hs.
    split; [exact E|]. split; [assumption|exact D].
  - unfold plain in Ht. rewrite Hs in Ht. cbn in Ht.
    assert (H : codec_ok (enc_string t) (dec_string t) (normal t) (VString [])).
    { apply string_codec; [assumption|reflexivity|destruct t; (discriminate||reflexivity)|exact Hroom]. }
    destruct H as (bs & E & B & D). exists bs. unfold enc_leaf, dec_leaf. rewrite Hs.
    destruct t; try discriminate Ht; (split; [exact E|]; split; [assumption|exact D]).
Qed.

(** A column entry of a leaf type: NULL or a valid value. *)
Definition leaf_entry (t : ty) (v : value) : Prop :=
  representable v = true /\ (is_null v = true \/ inner_validate t v = true)
  /\ string_room t v.
Lemma room_null t v : string_room t v -> string_room t VNull.
Proof. destruct t; cbn [string_room]; auto. intros _. unfold within. cbn. discriminate. Qed.
Lemma fits_room t vs : plain t = true -> fits t vs -> Forall (string_room t) vs.
Proof.
  intros P F. destruct t; try discriminate P; try (apply Forall_forall; intros; exact Logic.I); exact (proj2 F).
Qed.
Lemma lengths_room t v : lengths_ok t = true -> within (str_len v) -> string_room t v.
Proof. destruct t; cbn [string_room lengths_ok]; auto. intros H _. now apply N.ltb_lt. Qed.
Lemma room_default t v : string_room t v -> string_room t (VString []).
Proof. destruct t; cbn [string_room]; auto. intros _. unfold within. cbn. discriminate. Qed.

Lemma leaf_codec t v : plain t = true -> leaf_entry t v ->
  codec_ok (enc_leaf t) (dec_leaf t) (normal_null t) v.
Proof.
  intros Ht (Hr & Hv & Hf).
  destruct (is_null v) eqn:Hn.
  - destruct v; try discriminate Hn. destruct (default_plain t Ht (room_default _ _ Hf)) as (bs & E & B & D).
    exists bs. split; [assumption|]. split; [assumption|exact D].
  - destruct Hv as [C|Hv]; [discriminate|].
    destruct (sized t) eqn:Hs.
    + destruct (sized_codec t v Hs Hr Hv) as (bs & E & B & D). exists bs.
      unfold enc_leaf, dec_leaf, normal_null, justify_null. rewrite Hs, Hn. auto.
    + unfold plain in Ht. rewrite Hs in Ht. cbn in Ht.
      destruct (string_codec t v Ht Hr Hv Hf) as (bs & E & B & D).
      exists bs. unfold enc_leaf, dec_leaf, normal_null. rewrite Hs, Hn. auto.
Qed.

Lemma check_rows_ok {A} rows (r : rd A) : within rows -> check_rows rows r = r.
Proof.
  unfold within, check_rows, MAX_STRING_SIZE. intros H.
  destruct (N.ltb_spec (2 ^ 30) rows); [lia|reflexivity].
Qed.

(** The statement of the round trip for one column, used in the induction. *)
Definition col_ok (t : ty) (g : value -> value) (vs : list value) : Prop :=
  exists bs, ser t vs = Ok bs /\ bytes_ok bs /\
    forall rest, deser t (lenN vs) (bs ++ rest) = Ok (map g vs, rest).

Lemma leaf_column t vs : plain t = true -> within (lenN vs) -> Forall (leaf_entry t) vs ->
  col_ok t (normal_null t) vs.
Proof.
  intros Ht Hl Hvs.
  destruct (column_codec (enc_leaf t) (dec_leaf t) (normal_null t) vs) as (bs & E & B & D).
  { eapply Forall_impl; [|exact Hvs]. intros v. now apply leaf_codec. }
  exists bs. rewrite ser_plain by assumption. split; [exact E|]. split; [assumption|].
  intros rest. rewrite deser_plain by assumption. rewrite check_rows_ok by assumption. apply D.
Qed.

(* ---------- offsets ---------- *)

Lemma u64s_app a b : u64s (a ++ b) = u64s a ++ u64s b.
Proof. unfold u64s. now rewrite map_app, concat_app. Qed.
Lemma u64s_ok l : bytes_ok (u64s l).
Proof. induction l as [|x t IH]; [constructor|]. apply Forall_app. split; [apply le_bytes_ok|exact IH]. Qed.

Lemma read_u64s l rest : Forall (fun x => x < 2 ^ 64) l ->
  read_n (length l) (read_le 8) (u64s l ++ rest) = Ok (l, rest).
Proof.
  induction 1 as [|x t Hx _ IH]; [reflexivity|].
  change (u64s (x :: t)) with (le_bytes 8 x ++ u64s t).
  cbn [length read_n]. unfold rdbind. rewrite <- app_assoc.
  rewrite read_le_app by (rewrite pow256_2; exact Hx). cbn [rbind]. rewrite IH. reflexivity.
Qed.

Lemma offsets_length acc l : length (offsets_from acc l) = length l.
Proof. revert acc; induction l as [|n t IH]; intros acc; cbn; [reflexivity|now rewrite IH]. Qed.

Lemma offsets_bound {A} acc (ls : list (list A)) :
  Forall (fun x => x <= acc + lenN (concat ls)) (offsets_from acc (map lenN ls)).
Proof.
  revert acc; induction ls as [|l t IH]; intros acc; cbn [map offsets_from concat]; constructor.
  - rewrite lenN_app. lia.
  - eapply Forall_impl; [|apply IH]. cbn. intros a. rewrite lenN_app. lia.
Qed.

Lemma offsets_last {A} acc (ls : list (list A)) :
  ls <> [] -> last (offsets_from acc (map lenN ls)) 0 = acc + lenN (concat ls).
Proof.
  revert acc; induction ls as [|l t IH]; intros acc H; [congruence|].
  cbn [map offsets_from concat]. rewrite lenN_app.
  destruct t as [|m t].
  - cbn. unfold lenN at 3. cbn. lia.
  - cbn [map offsets_from]. cbn [map offsets_from] in IH.
    change (last (acc + lenN l :: acc + lenN l + lenN m :: offsets_from (acc + lenN l + lenN m) (map lenN t)) 0)
      with (last (acc + lenN l + lenN m :: offsets_from (acc + lenN l + lenN m) (map lenN t)) 0).
    rewrite IH by congruence. lia.
Qed.

Lemma split_offsets_ok {A} p (ls : list (list A)) :
  split_offsets p (offsets_from p (map lenN ls)) (concat ls) = Ok ls.
Proof.
  revert p; induction ls as [|l t IH]; intros p; [reflexivity|].
  cbn [map offsets_from concat split_offsets].
  destruct (N.ltb_spec (p + lenN l) p) as [C|_]; [lia|].
  replace (p + lenN l - p) with (lenN l) by lia.
  rewrite dropN_app_len, takeN_app_len, IH. reflexivity.
Qed.

Lemma map_lenN_map {A B} (h : A -> B) (ls : list (list A)) : map lenN (map (map h) ls) = map lenN ls.
Proof. rewrite map_map. apply map_ext. intros l. apply lenN_map. Qed.

Lemma lenN_nonzero {A} (l : list A) : l <> [] -> (lenN l =? 0) = false.
Proof. destruct l; [congruence|]. intros _. rewrite lenN_cons. lia. Qed.

(** Arrays of any kind: [ls] are the rows' elements, [hs] what they come back as. *)
Lemma array_generic_ok {A} unwrap iser ider (im : value -> res A) (mk : list A -> value)
    vs ls items (hs : list (list A)) :
  mapM unwrap vs = Ok ls ->
  within (lenN (concat ls)) ->
  (exists body, iser (concat ls) = Ok body /\ bytes_ok body /\
     forall rest, ider (lenN (concat ls)) (body ++ rest) = Ok (items, rest)) ->
  iser [] = Ok [] ->
  mapM im items = Ok (concat hs) -> map lenN hs = map lenN ls ->
  exists bs, ser_array_generic unwrap iser vs = Ok bs /\ bytes_ok bs /\
    forall rest, deser_array_generic ider im mk (lenN vs) (bs ++ rest) = Ok (map mk hs, rest).
Proof.
  intros Hu Hw (body & E & B & D) Hnil Him HLs.
  unfold ser_array_generic. rewrite Hu. cbn [rbind]. rewrite E. cbn [rbind].
  eexists. split; [reflexivity|]. split; [apply Forall_app; split; [apply u64s_ok|assumption]|].
  intros rest. unfold deser_array_generic.
  pose proof (mapM_ok_length _ _ _ Hu) as HL.
  destruct vs as [|v vs'].
  { destruct ls; [|discriminate]. destruct hs; [|discriminate].
    cbn [concat] in *. rewrite Hnil in E. injection E as <-. reflexivity. }
  assert (Hne : ls <> []) by (intros ->; discriminate).
  rewrite lenN_nonzero by discriminate.
  unfold rdbind. rewrite <- app_assoc.
  replace (N.to_nat (lenN (v :: vs'))) with (length (offsets_from 0 (map lenN ls)))
    by (rewrite offsets_length, map_length, HL; unfold lenN; lia).
  rewrite read_u64s.
  2:{ eapply Forall_impl; [|apply offsets_bound]. cbn. intros a Ha. unfold within in Hw. lia. }
  cbn [rbind]. rewrite offsets_last, N.add_0_l by assumption. rewrite D. cbn [rbind].
  rewrite Him. cbn [rbind]. rewrite <- HLs, split_offsets_ok. reflexivity.
Qed.

(* ---------- empty columns write nothing ---------- *)
Definition ser_cols (f : ty -> list value -> res (list N)) :=
  fix go (ts : list ty) (rows : list (list value)) : res (list N) :=
    match ts with
    | [] => Ok []
    | t1 :: ts' => b <- f t1 (heads rows) ;; bs <- go ts' (tails rows) ;; Ok (b ++ bs)
    end.

Lemma ser_tuple_eq ts vs : ser (TTuple ts) vs =
  (rows <- mapM unwrap_tuple vs ;;
   if existsb (fun r => lenN ts <? lenN r) rows then Panic else ser_cols ser ts rows).
Proof. reflexivity. Qed.

Lemma ser_nil t : ser t [] = Ok [].
Proof.
  induction t as [t Hl|t IH|t IH|ts IH|t IH|k v IHk IHv] using ty_ind_leaf.
  - destruct t; try discriminate Hl; reflexivity.
  - destruct t; reflexivity.
  - cbn [ser]. unfold ser_array_generic. cbn [mapM rbind concat]. rewrite IH. reflexivity.
  - rewrite ser_tuple_eq. cbn [mapM rbind existsb].
    induction IH as [|t1 ts H1 _ IHts]; [reflexivity|].
    cbn [ser_cols heads tails flat_map map]. rewrite H1. cbn [rbind].
    change (map (tl (A:=value)) []) with (@nil (list value)) . 
    unfold tails. cbn [map]. rewrite IHts. reflexivity.
  - cbn [ser map]. rewrite IH. reflexivity.
  - cbn [ser mapM rbind map concat]. rewrite IHk. cbn [rbind]. rewrite IHv. reflexivity.
Qed.

(* ---------- geo ---------- *)

Lemma float_column xs : within (lenN xs) -> Forall (fun x => x < 2 ^ 64) xs ->
  exists bs, ser_sized TFloat64 (map VFloat64 xs) = Ok bs /\ bytes_ok bs /\
    forall rest, deser_float64 (lenN xs) (bs ++ rest) = Ok (map VFloat64 xs, rest).
Proof.
  intros Hw Hx.
  destruct (leaf_column TFloat64 (map VFloat64 xs)) as (bs & E & B & D).
  - reflexivity.
  - rewrite lenN_map. assumption.
  - apply Forall_forall. intros v Hv. apply in_map_iff in Hv as (x & <- & Hin).
    rewrite Forall_forall in Hx. specialize (Hx x Hin).
    split; [cbn [representable]; now apply N.ltb_lt|]. split; [right; reflexivity|exact Logic.I].
  - exists bs. split; [exact E|]. split; [assumption|]. intros rest. specialize (D rest).
    rewrite lenN_map in D. rewrite map_map in D.
    change (deser TFloat64 (lenN xs)) with (deser_float64 (lenN xs)) in D. rewrite D.
    reflexivity.
Qed.

Lemma mapM_unwrap_float xs : mapM unwrap_float (map VFloat64 xs) = Ok xs.
Proof. induction xs as [|x t IH]; [reflexivity|]. cbn [map mapM unwrap_float rbind]. now rewrite IH. Qed.

Lemma point_column ps : within (lenN ps) -> forallb pointb ps = true ->
  exists bs, ser_point (map VPoint ps) = Ok bs /\ bytes_ok bs /\
    forall rest, deser_point (lenN ps) (bs ++ rest) = Ok (map VPoint ps, rest).
Proof.
  intros Hw Hp.
  assert (Hf : Forall (fun x => x < 2 ^ 64) (map fst ps) /\ Forall (fun x => x < 2 ^ 64) (map snd ps)).
  { clear Hw. induction ps as [|[x y] t IH]; [split; constructor|].
    cbn [forallb] in Hp. apply andb_true_iff in Hp as [Hxy Ht]. unfold pointb in Hxy. cbn [fst snd] in Hxy.
    apply andb_true_iff in Hxy as [Hx Hy]. apply N.ltb_lt in Hx. apply N.ltb_lt in Hy.
    destruct (IH Ht). split; constructor; assumption. }
  destruct Hf as [Hx Hy].
  destruct (float_column (map fst ps)) as (bx & Ex & Bx & Dx); [now rewrite lenN_map|assumption|].
  destruct (float_column (map snd ps)) as (by_ & Ey & By & Dy); [now rewrite lenN_map|assumption|].
  assert (HM : mapM unwrap_point (map VPoint ps) = Ok ps).
  { clear. induction ps as [|x t IH]; [reflexivity|]. cbn [map mapM unwrap_point rbind]. now rewrite IH. }
  exists (bx ++ by_). split.
  { unfold ser_point. rewrite HM. cbn [rbind].
    rewrite map_map in Ex. rewrite Ex. cbn [rbind]. rewrite map_map in Ey. rewrite Ey. reflexivity. }
  split; [now apply Forall_app|].
  intros rest. unfold deser_point. rewrite check_rows_ok by assumption. unfold rdbind.
  rewrite <- app_assoc. rewrite lenN_map in Dx, Dy. rewrite Dx. cbn [rbind]. rewrite Dy. cbn [rbind].
  rewrite !mapM_unwrap_float. cbn [rbind]. f_equal. f_equal. f_equal.
  clear. induction ps as [|[x y] t IH]; [reflexivity|]. cbn. now rewrite IH.
Qed.

(** One level of geo nesting above another. *)
Lemma geo_level {A} (iser : list value -> res (list N)) (ider : N -> rd (list value))
   unwrap (im : value -> res A) (VI : A -> value) (VO : list A -> value) (xs : list (list A)) :
  (forall l, unwrap (VO l) = Ok (map VI l)) -> (forall a, im (VI a) = Ok a) -> iser [] = Ok [] ->
  within (lenN xs) -> within (lenN (concat xs)) ->
  (exists bs, iser (map VI (concat xs)) = Ok bs /\ bytes_ok bs /\
     forall rest, ider (lenN (concat xs)) (bs ++ rest) = Ok (map VI (concat xs), rest)) ->
  exists bs, ser_array_generic unwrap iser (map VO xs) = Ok bs /\ bytes_ok bs /\
    forall rest, check_rows (lenN xs) (deser_array_generic ider im VO (lenN xs)) (bs ++ rest) = Ok (map VO xs, rest).
Proof.
  intros Hun Him Hnil Hw Hwc Hin.
  destruct (array_generic_ok unwrap iser ider im VO (map VO xs) (map (map VI) xs) (map VI (concat xs)) xs)
    as (bs & E & B & D).
  - clear -Hun. induction xs as [|x t IH]; [reflexivity|]. cbn [map mapM]. rewrite Hun. cbn [rbind].
    now rewrite IH.
  - now rewrite <- concat_map, lenN_map.
  - rewrite <- concat_map, lenN_map. exact Hin.
  - exact Hnil.
  - clear -Him. induction (concat xs) as [|x t IH]; [reflexivity|]. cbn [map mapM]. rewrite Him. cbn [rbind].
    now rewrite IH.
  - now rewrite map_lenN_map.
  - exists bs. split; [exact E|]. split; [assumption|]. intros rest.
    rewrite check_rows_ok by assumption. rewrite lenN_map in D. apply D.
Qed.

Lemma forallb_concat {A} (f : A -> bool) ls : forallb (forallb f) ls = forallb f (concat ls).
Proof. induction ls as [|l t IH]; [reflexivity|]. cbn [forallb concat]. now rewrite forallb_app, IH. Qed.

Lemma ring_column xs : within (lenN xs) -> ring_fits xs -> forallb (forallb pointb) xs = true ->
  exists bs, ser_ring (map VRing xs) = Ok bs /\ bytes_ok bs /\
    forall rest, deser_ring (lenN xs) (bs ++ rest) = Ok (map VRing xs, rest).
Proof.
  intros Hw Hf Hp. unfold ser_ring, deser_ring.
  apply (geo_level ser_point deser_point unwrap_ring as_point VPoint VRing xs); try reflexivity; try assumption.
  apply point_column; [assumption|now rewrite <- forallb_concat].
Qed.

Lemma polygon_column xs : within (lenN xs) -> polygon_fits xs -> forallb (forallb (forallb pointb)) xs = true ->
  exists bs, ser_polygon (map VPolygon xs) = Ok bs /\ bytes_ok bs /\
    forall rest, deser_polygon (lenN xs) (bs ++ rest) = Ok (map VPolygon xs, rest).
Proof.
  intros Hw [Hf1 Hf2] Hp. unfold ser_polygon, deser_polygon.
  apply (geo_level ser_ring deser_ring unwrap_polygon as_ring VRing VPolygon xs); try reflexivity; try assumption.
  apply ring_column; [assumption|assumption|now rewrite <- forallb_concat].
Qed.

Lemma multipolygon_column xs : within (lenN xs) -> multi_fits xs ->
  forallb (forallb (forallb (forallb pointb))) xs = true ->
  exists bs, ser_multipolygon (map VMultiPolygon xs) = Ok bs /\ bytes_ok bs /\
    forall rest, deser_multipolygon (lenN xs) (bs ++ rest) = Ok (map VMultiPolygon xs, rest).
Proof.
  intros Hw [Hf1 Hf2] Hp. unfold ser_multipolygon, deser_multipolygon.
  apply (geo_level ser_polygon deser_polygon unwrap_multipolygon as_polygon VPolygon VMultiPolygon xs);
    try reflexivity; try assumption.
  apply polygon_column; [assumption|assumption|now rewrite <- forallb_concat].
Qed.
