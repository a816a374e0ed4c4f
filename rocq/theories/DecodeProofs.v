(** What the column decoder does on arbitrary bytes: locality, termination, row
    counts, limits, panics. *)
From Verif Require Import Base Io IoProofs Types Ser Deser ColumnSpec ColumnProofs ColumnRoundtrip LowCardProofs.

(* ---------- locality ---------- *)
Definition local {A} (r : rd A) : Prop := forall inp v rest, r inp = Ok (v, rest) ->
  exists used, inp = used ++ rest /\ forall ext, r (used ++ ext) = Ok (v, ext).

Lemma local_ret {A} (a : A) : local (rret a).
Proof. intros inp v rest H. injection H as <- <-. exists []. now split. Qed.
Lemma local_err {A} e : local (@rerr A e).
Proof. intros inp v rest H. discriminate. Qed.
Lemma local_panic {A} : local (@rpanic A).
Proof. intros inp v rest H. discriminate. Qed.
Lemma local_bind {A B} (r : rd A) (f : A -> rd B) : local r -> (forall a, local (f a)) -> local (rdbind r f).
Proof.
  intros Hr Hf inp v rest H. unfold rdbind in H. inv_bind H. destruct a as [a inp1].
  destruct (Hr _ _ _ E) as (u1 & -> & D1). destruct (Hf a _ _ _ H) as (u2 & -> & D2).
  exists (u1 ++ u2). rewrite app_assoc. split; [reflexivity|]. intros ext. unfold rdbind.
  rewrite <- app_assoc, D1. cbn [rbind]. apply D2.
Qed.
Lemma local_exact n : local (read_exact n).
Proof.
  intros inp v rest H. apply read_exact_ok in H as [-> <-]. exists v. split; [reflexivity|].
  intros ext. apply read_exact_app.
Qed.
Lemma local_le n : local (read_le n).
Proof. apply local_bind; [apply local_exact|intros; apply local_ret]. Qed.
Lemma local_var : local read_var_uint.
Proof.
  intros inp v rest H. destruct (read_var_go_local _ _ _ _ _ _ H) as (u & -> & _ & D). exists u. split; [reflexivity|exact D].
Qed.
Lemma local_string : local read_string.
Proof.
  apply local_bind; [apply local_var|]. intros n. destruct (_ <? _); [apply local_err|].
  destruct (_ =? _); [apply local_ret|apply local_exact].
Qed.
Lemma local_n {A} n (r : rd A) : local r -> local (read_n n r).
Proof. intros H. induction n as [|n IH]; [apply local_ret|]. cbn [read_n]. repeat (apply local_bind; [assumption|intros]). apply local_ret. Qed.
Lemma local_check {A} n (r : rd A) : local r -> local (check_rows n r).
Proof. intros H. unfold check_rows. destruct (_ <? _); [apply local_err|exact H]. Qed.

(** Work that does not touch the stream. *)
Definition pure_rd {A} (r : rd A) : Prop := exists x : res A, forall inp, r inp = (a <- x ;; Ok (a, inp)).
Lemma local_pure {A} (r : rd A) : pure_rd r -> local r.
Proof.
  intros [x Hx] inp v rest H. rewrite Hx in H. destruct x as [a| |]; cbn in H; try discriminate H.
  injection H as <- <-. exists []. split; [reflexivity|]. intros ext. now rewrite Hx.
Qed.

Lemma pure_map {A B} (x : res A) (f : A -> B) : pure_rd (fun inp => a <- x ;; Ok (f a, inp)).
Proof. exists (a <- x ;; Ok (f a)). intros inp. destruct x; reflexivity. Qed.

Lemma local_dec_sized t : local (dec_sized t).
Proof.
  destruct t; cbn [dec_sized]; unfold read_signed, read_256;
    repeat first [apply local_ret | apply local_le | apply local_exact | apply local_panic | apply local_bind; [|intros]].
Qed.
Lemma local_dec_string t : local (dec_string t).
Proof.
  destruct t; cbn [dec_string]; try (destruct (ISIZE_MAX <? n); [apply local_panic|]); (apply local_bind; [apply local_string || apply local_exact|intros; apply local_ret]).
Qed.

Lemma pure_array {A} im mk offs items : pure_rd (fun inp =>
    items' <- mapM (im : value -> res A) items ;; out <- split_offsets 0 offs items' ;; Ok (map (mk : list A -> value) out, inp)).
Proof.
  exists (items' <- mapM im items ;; out <- split_offsets 0 offs items' ;; Ok (map mk out)).
  intros inp. destruct (mapM im items) as [i| |]; try reflexivity. cbn [rbind].
  destruct (split_offsets 0 offs i); reflexivity.
Qed.

Lemma local_array {A} (inner : N -> rd (list value)) (im : value -> res A) mk rows :
  (forall n, local (inner n)) -> local (deser_array_generic inner im mk rows).
Proof.
  intros H. unfold deser_array_generic. destruct (rows =? 0); [apply local_ret|].
  apply local_bind; [apply local_n, local_le|]. intros offs. apply local_bind; [apply H|]. intros items.
  apply local_pure, pure_array.
Qed.

Lemma local_float n : local (deser_float64 n).
Proof. apply local_check, local_n. exact (local_dec_sized TFloat64). Qed.
Lemma local_point n : local (deser_point n).
Proof.
  apply local_check. apply local_bind; [apply local_float|]. intros xs. apply local_bind; [apply local_float|]. intros ys.
  apply local_pure. exists (xs' <- mapM unwrap_float xs ;; ys' <- mapM unwrap_float ys ;; Ok (map VPoint (combine xs' ys'))).
  intros inp. destruct (mapM unwrap_float xs); try reflexivity. cbn [rbind].
  destruct (mapM unwrap_float ys); reflexivity.
Qed.
Lemma local_ring n : local (deser_ring n).
Proof. apply local_check, local_array, local_point. Qed.
Lemma local_polygon n : local (deser_polygon n).
Proof. apply local_check, local_array, local_ring. Qed.
Lemma local_multi n : local (deser_multipolygon n).
Proof. apply local_check, local_array, local_polygon. Qed.

(* ---------- LowCardinality: progress and fuel ---------- *)
Lemma local_header inner st : (forall n, local (inner n)) -> local (lc_header inner st).
Proof.
  intros H. unfold lc_header. apply local_bind; [apply local_le|]. intros flags.
  destruct (index_width flags); [|apply local_err].
  apply local_bind.
  { destruct (_ && _); [|apply local_ret]. apply local_bind; [apply local_le|]. intros n. apply local_bind; [apply H|intros; apply local_ret]. }
  intros gd. apply local_bind.
  { destruct (has_bit flags HAS_ADDITIONAL_KEYS_BIT); [|apply local_ret]. apply local_bind; [apply local_le|]. intros n. apply local_bind; [apply H|intros; apply local_ret]. }
  intros ad. apply local_bind; [apply local_le|intros; apply local_ret].
Qed.

(** [r] uses at least [k] bytes when it succeeds. *)
Definition uses (k : nat) {A} (r : rd A) : Prop := forall inp v rest, r inp = Ok (v, rest) ->
  (k + length rest <= length inp)%nat.
Lemma local_uses0 {A} (r : rd A) : local r -> uses 0 r.
Proof. intros H inp v rest E. destruct (H _ _ _ E) as (u & -> & _). rewrite app_length. lia. Qed.
Lemma uses_exact n : uses (N.to_nat n) (read_exact n).
Proof. intros inp v rest H. apply read_exact_ok in H as [-> <-]. rewrite app_length. unfold lenN. lia. Qed.
Lemma uses_bind {A B} a b (r : rd A) (f : A -> rd B) : uses a r -> (forall x, uses b (f x)) -> uses (a + b) (rdbind r f).
Proof.
  intros Hr Hf inp v rest H. unfold rdbind in H. inv_bind H. destruct a0 as [x i1].
  apply Hr in E. apply Hf in H. lia.
Qed.
Lemma uses_le n : uses n (read_le n).
Proof.
  intros inp v rest H. unfold read_le, rdbind in H. inv_bind H. destruct a as [x i1]. injection H as <- <-.
  apply uses_exact in E. lia.
Qed.
Lemma uses_header inner st : (forall n, local (inner n)) -> uses 8 (lc_header inner st).
Proof.
  intros Hl inp v rest H. unfold lc_header, rdbind at 1 in H. inv_bind H. destruct a as [flags i1].
  apply uses_le in E. destruct (index_width flags); [|discriminate H].
  match type of H with ?r i1 = _ => assert (HL : local r) end.
  { apply local_bind.
    { destruct (_ && _); [|apply local_ret]. apply local_bind; [apply local_le|]. intros n. apply local_bind; [apply Hl|intros; apply local_ret]. }
    intros gd. apply local_bind.
    { destruct (has_bit flags HAS_ADDITIONAL_KEYS_BIT); [|apply local_ret]. apply local_bind; [apply local_le|]. intros n. apply local_bind; [apply Hl|intros; apply local_ret]. }
    intros ad. apply local_bind; [apply local_le|intros; apply local_ret]. }
  apply local_uses0 in HL. apply HL in H. lia.
Qed.
Lemma uses_read_n {A} n k (r : rd A) : uses k r -> uses (n * k) (read_n n r).
Proof.
  intros H. induction n as [|n IH]; intros inp v rest E; cbn [read_n] in E.
  - injection E as <- <-. lia.
  - unfold rdbind in E. inv_bind E. destruct a as [x i1]. cbn beta in E. inv_bind E. destruct a as [xs i2].
    injection E as <- <-. apply H in E0. apply IH in E1. lia.
Qed.

(** One iteration of the loop, as a reader. *)
Definition lc_iter (inner : N -> rd (list value)) (nullable : bool) (limit : N) (st : lc_state) :
    rd (lc_state * N * list (list value)) :=
  st <~ (if num_pending st =? 0 then lc_header inner st else rret st) ;;;
  let reading := N.min limit (num_pending st) in
  entries <~ check_rows reading (read_n (N.to_nat reading) (read_le (ibytes (indexed st)))) ;;;
  fun inp =>
  vals <- mapM (lc_lookup (needs_global st) (has_additional st) nullable (gdict st) (adict st)) entries ;;
  Ok (({| num_pending := num_pending st - reading; indexed := indexed st; gdict := gdict st;
           adict := adict st; needs_global := needs_global st; has_additional := has_additional st |}, reading, vals), inp).

Lemma lc_loop_iter fuel inner nullable limit st out inp :
  lc_loop (S fuel) inner nullable limit st out inp =
  if limit =? 0 then Ok (out, inp) else
  '((st', reading, vals), inp') <- lc_iter inner nullable limit st inp ;;
  lc_loop fuel inner nullable (limit - reading) st' (out ++ concat vals) inp'.
Proof.
  cbn [lc_loop]. destruct (limit =? 0); [reflexivity|]. unfold lc_iter, rdbind.
  destruct (num_pending st =? 0).
  - destruct (lc_header inner st inp) as [[st1 i1]| |]; try reflexivity. cbn [rbind].
    destruct (check_rows _ _ i1) as [[es i2]| |]; try reflexivity. cbn [rbind].
    destruct (mapM _ es); reflexivity.
  - cbn [rbind]. unfold rret. cbn [rbind].
    destruct (check_rows _ _ inp) as [[es i2]| |]; try reflexivity. cbn [rbind].
    destruct (mapM _ es); reflexivity.
Qed.

Lemma local_iter inner nullable limit st : (forall n, local (inner n)) -> local (lc_iter inner nullable limit st).
Proof.
  intros H. unfold lc_iter. apply local_bind.
  { destruct (_ =? 0); [now apply local_header|apply local_ret]. }
  intros st1. apply local_bind; [apply local_check, local_n, local_le|]. intros es.
  apply local_pure. apply (pure_map (mapM _ es) (fun vals => (_, _, vals))).
Qed.

Lemma ibytes_pos w : (1 <= ibytes w)%nat. Proof. destruct w; cbn; lia. Qed.

Lemma uses_iter inner nullable limit st : (forall n, local (inner n)) -> limit <> 0 ->
  uses 1 (lc_iter inner nullable limit st).
Proof.
  intros H Hlim inp v rest E. unfold lc_iter in E. destruct (N.eqb_spec (num_pending st) 0) as [Hp|Hp].
  - unfold rdbind at 1 in E. inv_bind E. destruct a as [st1 i1]. apply (uses_header inner st H) in E0.
    match type of E with ?r i1 = _ => assert (HL : local r) end.
    { apply local_bind; [apply local_check, local_n, local_le|]. intros es.
      apply local_pure. apply (pure_map (mapM _ es) (fun vals => (_, _, vals))). }
    apply local_uses0 in HL. apply HL in E. lia.
  - unfold rdbind at 1 in E. unfold rret in E. cbn [rbind] in E. unfold rdbind in E. inv_bind E. destruct a as [es i1].
    inv_bind E. injection E as <- <-.
    unfold check_rows in E0. destruct (_ <? _); [discriminate|].
    apply (uses_read_n _ _ _ (uses_le _)) in E0. pose proof (ibytes_pos (indexed st)).
    assert (N.to_nat (N.min limit (num_pending st)) >= 1)%nat by lia. nia.
Qed.

Lemma lc_loop_local inner nullable : (forall n, local (inner n)) -> forall f limit st out inp v rest,
  lc_loop f inner nullable limit st out inp = Ok (v, rest) ->
  exists used, inp = used ++ rest /\ forall ext f', (length used < f')%nat ->
    lc_loop f' inner nullable limit st out (used ++ ext) = Ok (v, ext).
Proof.
  intros Hl. induction f as [|f IH]; intros limit st out inp v rest H.
  - cbn [lc_loop] in H. destruct (limit =? 0) eqn:El; [|discriminate]. injection H as <- <-.
    exists []. split; [reflexivity|]. intros ext f' _. destruct f'; cbn [lc_loop]; now rewrite El.
  - rewrite lc_loop_iter in H. destruct (limit =? 0) eqn:El.
    { injection H as <- <-. exists []. split; [reflexivity|]. intros ext f' _. destruct f'; cbn [lc_loop]; now rewrite El. }
    inv_bind H. destruct a as [[[st1 reading] vals] i1].
    assert (H1 : (1 + length i1 <= length inp)%nat).
    { apply (uses_iter inner nullable limit st Hl) in E; [exact E|]. intros ->. discriminate. }
    destruct (local_iter inner nullable limit st Hl _ _ _ E) as (u1 & -> & D1).
    destruct (IH _ _ _ _ _ _ H) as (u2 & -> & D2).
    exists (u1 ++ u2). rewrite app_assoc. split; [reflexivity|]. intros ext f' Hf'.
    rewrite app_length in Hf'. rewrite !app_length in H1. destruct f' as [|f']; [lia|].
    rewrite lc_loop_iter, El, <- app_assoc, D1. cbn [rbind]. apply D2. lia.
Qed.

Lemma local_low_card nullable inner rows : (forall n, local (inner n)) -> local (deser_low_card nullable inner rows).
Proof.
  intros Hl inp v rest H. unfold deser_low_card in *.
  destruct (lc_loop_local inner nullable Hl _ _ _ _ _ _ _ H) as (u & -> & D). exists u. split; [reflexivity|].
  intros ext. apply D. rewrite app_length. lia.
Qed.

Lemma local_cols rows ts : Forall (fun t => forall n, local (deser t n)) ts -> forall acc, local (deser_cols rows ts acc).
Proof.
  induction 1 as [|t ts Ht _ IH]; intros acc; [apply local_ret|]. cbn [deser_cols]. fold (deser_cols rows).
  apply local_bind; [apply Ht|]. intros col inp v rest H. inv_bind H.
  destruct (IH a _ _ _ H) as (u & -> & D). exists u. split; [reflexivity|]. intros ext. rewrite E. cbn [rbind]. apply D.
Qed.

(** Induction where the LowCardinality case may also use the stripped inner type. *)
Lemma ty_ind_strip (P : ty -> Prop) :
  (forall t, ty_leaf t = true -> P t) ->
  (forall t, P t -> P (strip_null t) -> P (TLowCard t)) -> (forall t, P t -> P (TArray t)) ->
  (forall ts, Forall P ts -> P (TTuple ts)) -> (forall t, P t -> P (TNullable t)) ->
  (forall k v, P k -> P v -> P (TMap k v)) -> forall t, P t.
Proof.
  intros HL HLC HA HT HN HM t.
  assert (H : P t /\ P (strip_null t)); [|exact (proj1 H)].
  induction t as [t Hl|t IH|t IH|ts IH|t IH|k v IHk IHv] using ty_ind_leaf.
  - split; [now apply HL|]. destruct t; try discriminate Hl; now apply HL.
  - split; apply HLC; apply IH.
  - split; apply HA; apply IH.
  - split; apply HT; (eapply Forall_impl; [|exact IH]); intros a Ha; apply Ha.
  - split; [apply HN|cbn [strip_null]]; apply IH.
  - split; apply HM; (apply IHk || apply IHv).
Qed.

Lemma deser_lc_eq t rows : deser (TLowCard t) rows =
  check_rows rows (deser_low_card (is_nullable t) (deser (strip_null t)) rows).
Proof. destruct t; reflexivity. Qed.

Lemma deser_local t : forall rows, local (deser t rows).
Proof.
  induction t as [t Hl|t IH IHs|t IH|ts IH|t IH|k v IHk IHv] using ty_ind_strip; intros rows.
  - destruct t; try discriminate Hl; apply local_check;
      first [ apply local_point | apply local_ring | apply local_polygon | apply local_multi
            | apply local_n; apply local_dec_string | apply local_n; apply local_dec_sized ].
  - rewrite deser_lc_eq. apply local_check, local_low_card, IHs.
  - cbn [deser]. apply local_check, local_array, IH.
  - rewrite deser_tuple_eq. apply local_check, local_bind; [now apply local_cols|intros; apply local_ret].
  - cbn [deser]. apply local_check, local_bind; [apply local_exact|]. intros mask.
    apply local_bind; [apply IH|]. intros out. apply local_pure. exists (apply_mask mask out). reflexivity.
  - cbn [deser]. apply local_check. destruct (rows =? 0); [apply local_ret|].
    apply local_bind; [apply local_n, local_le|]. intros offs. apply local_bind; [apply IHk|]. intros ks.
    destruct (negb _); [apply local_panic|]. apply local_bind; [apply IHv|]. intros vs.
    destruct (negb _); [apply local_panic|]. apply local_pure. exists (split_map 0 offs ks vs). reflexivity.
Qed.

(** A strict prefix of what was used never decodes. *)
Lemma local_prefix_fails {A} (r : rd A) : local r -> forall used p q rest v,
  r (used ++ rest) = Ok (v, rest) -> used = p ++ q -> q <> [] -> is_ok (r p) = false.
Proof.
  intros Hl used p q rest v H -> Hq. destruct (r p) as [[v' rest']| |] eqn:E; try reflexivity. exfalso.
  destruct (Hl _ _ _ E) as (u & -> & D). rewrite <- !app_assoc in H. rewrite D in H. injection H as -> H.
  apply (f_equal (@length N)) in H. rewrite !app_length in H. destruct q; [congruence|]. cbn [length] in H. lia.
Qed.

(* ---------- termination: the fuel never runs out ---------- *)
Definition no_fuel {A} (r : rd A) : Prop := forall inp, r inp <> Err EFuel.

Lemma nf_bind {A B} (r : rd A) (f : A -> rd B) : no_fuel r -> (forall a, no_fuel (f a)) -> no_fuel (rdbind r f).
Proof.
  intros Hr Hf inp. unfold rdbind. specialize (Hr inp). destruct (r inp) as [[a i]|e|]; cbn [rbind]; [apply Hf|congruence|discriminate].
Qed.
Lemma nf_ret {A} (a : A) : no_fuel (rret a). Proof. intros inp. discriminate. Qed.
Lemma nf_panic {A} : no_fuel (@rpanic A). Proof. intros inp. discriminate. Qed.
Lemma nf_exact n : no_fuel (read_exact n).
Proof.
  intros inp. destruct (N.ltb_spec (lenN inp) n) as [H|H].
  - now rewrite read_exact_short.
  - assert (E : inp = firstn (N.to_nat n) inp ++ skipn (N.to_nat n) inp) by now rewrite firstn_skipn.
    rewrite E, read_exact_app'; [discriminate|]. unfold lenN in *. rewrite firstn_length. lia.
Qed.
Lemma nf_le n : no_fuel (read_le n).
Proof. apply nf_bind; [apply nf_exact|intros; apply nf_ret]. Qed.
Lemma nf_var : no_fuel read_var_uint.
Proof.
  assert (G : forall k inp i out, read_var_uint_go k i out inp <> Err EFuel); [|intros inp; apply G].
  induction k as [|k IH]; intros inp i out; cbn [read_var_uint_go]; [discriminate|].
  destruct inp; [discriminate|]. destruct (_ =? 0); [discriminate|]. apply IH.
Qed.
Lemma nf_string : no_fuel read_string.
Proof. apply nf_bind; [apply nf_var|]. intros n. destruct (_ <? _); [intros ?; discriminate|]. destruct (_ =? _); [apply nf_ret|apply nf_exact]. Qed.
Lemma nf_n {A} n (r : rd A) : no_fuel r -> no_fuel (read_n n r).
Proof. intros H. induction n as [|n IH]; [apply nf_ret|]. cbn [read_n]. repeat (apply nf_bind; [assumption|intros]). apply nf_ret. Qed.
Lemma nf_check {A} n (r : rd A) : no_fuel r -> no_fuel (check_rows n r).
Proof. intros H. unfold check_rows. destruct (_ <? _); [intros ?; discriminate|exact H]. Qed.
Lemma nf_dec_sized t : no_fuel (dec_sized t).
Proof.
  destruct t; cbn [dec_sized]; unfold read_signed, read_256;
    repeat first [apply nf_ret | apply nf_le | apply nf_exact | apply nf_panic | apply nf_bind; [|intros]].
Qed.
Lemma nf_dec_string t : no_fuel (dec_string t).
Proof. destruct t; cbn [dec_string]; try (destruct (ISIZE_MAX <? n); [apply nf_panic|]); (apply nf_bind; [apply nf_string || apply nf_exact|intros; apply nf_ret]). Qed.

(** Pure steps that fail do so with their own error, never [EFuel]. *)
Lemma mapM_no_fuel {A B} (f : A -> res B) l : (forall x, f x <> Err EFuel) -> mapM f l <> Err EFuel.
Proof.
  intros H. induction l as [|x t IH]; cbn [mapM]; [discriminate|].
  specialize (H x). destruct (f x) as [y|e|]; cbn [rbind]; [|congruence|discriminate].
  destruct (mapM f t) as [ys|e|]; cbn [rbind]; congruence.
Qed.
Lemma split_offsets_no_err {A} p offs (items : list A) e : split_offsets p offs items <> Err e.
Proof.
  revert p items; induction offs as [|o t IH]; intros p items; cbn [split_offsets]; [discriminate|].
  destruct (_ <? _); [discriminate|]. specialize (IH o (dropN (o - p) items)).
  destruct (split_offsets o t _); cbn [rbind]; congruence.
Qed.
Lemma nf_array {A} (inner : N -> rd (list value)) (im : value -> res A) mk rows :
  (forall n, no_fuel (inner n)) -> (forall x, im x <> Err EFuel) -> no_fuel (deser_array_generic inner im mk rows).
Proof.
  intros H Him. unfold deser_array_generic. destruct (rows =? 0); [apply nf_ret|].
  apply nf_bind; [apply nf_n, nf_le|]. intros offs. apply nf_bind; [apply H|]. intros items inp.
  pose proof (mapM_no_fuel im items Him). destruct (mapM im items) as [i|e|]; cbn [rbind]; [|congruence|discriminate].
  pose proof (split_offsets_no_err 0 offs i EFuel). destruct (split_offsets 0 offs i); cbn [rbind]; congruence.
Qed.
Lemma nf_float n : no_fuel (deser_float64 n).
Proof. apply nf_check, nf_n. exact (nf_dec_sized TFloat64). Qed.
Lemma nf_point n : no_fuel (deser_point n).
Proof.
  apply nf_check. apply nf_bind; [apply nf_float|]. intros xs. apply nf_bind; [apply nf_float|]. intros ys inp.
  assert (H : forall x, unwrap_float x <> Err EFuel) by (intros []; discriminate).
  pose proof (mapM_no_fuel _ xs H). pose proof (mapM_no_fuel _ ys H).
  destruct (mapM unwrap_float xs); cbn [rbind]; try congruence. destruct (mapM unwrap_float ys); cbn [rbind]; congruence.
Qed.
Lemma nf_ring n : no_fuel (deser_ring n).
Proof. apply nf_check, nf_array; [apply nf_point|intros []; discriminate]. Qed.
Lemma nf_polygon n : no_fuel (deser_polygon n).
Proof. apply nf_check, nf_array; [apply nf_ring|intros []; discriminate]. Qed.
Lemma nf_multi n : no_fuel (deser_multipolygon n).
Proof. apply nf_check, nf_array; [apply nf_polygon|intros []; discriminate]. Qed.

Lemma nf_header inner st : (forall n, no_fuel (inner n)) -> no_fuel (lc_header inner st).
Proof.
  intros H. unfold lc_header. apply nf_bind; [apply nf_le|]. intros flags.
  destruct (index_width flags); [|intros ?; discriminate].
  apply nf_bind.
  { destruct (_ && _); [|apply nf_ret]. apply nf_bind; [apply nf_le|]. intros n. apply nf_bind; [apply H|intros; apply nf_ret]. }
  intros gd. apply nf_bind.
  { destruct (has_bit flags HAS_ADDITIONAL_KEYS_BIT); [|apply nf_ret]. apply nf_bind; [apply nf_le|]. intros n. apply nf_bind; [apply H|intros; apply nf_ret]. }
  intros ad. apply nf_bind; [apply nf_le|intros; apply nf_ret].
Qed.
Lemma lc_lookup_no_fuel g h n gd ad e : lc_lookup g h n gd ad e <> Err EFuel.
Proof.
  unfold lc_lookup, get_or_illegal. destruct h, g; destruct ad as [ad|], gd as [gd|]; try discriminate;
    repeat match goal with |- context [if ?b then _ else _] => destruct b end; try discriminate;
    match goal with |- context [nthN ?l ?i] => destruct (nthN l i) end; discriminate.
Qed.
Lemma nf_iter inner nullable limit st : (forall n, no_fuel (inner n)) -> no_fuel (lc_iter inner nullable limit st).
Proof.
  intros H. unfold lc_iter. apply nf_bind; [destruct (_ =? 0); [now apply nf_header|apply nf_ret]|].
  intros st1. apply nf_bind; [apply nf_check, nf_n, nf_le|]. intros es inp.
  pose proof (mapM_no_fuel (lc_lookup (needs_global st1) (has_additional st1) nullable (gdict st1) (adict st1)) es (lc_lookup_no_fuel _ _ _ _ _)) as HM.
  match goal with |- context [mapM ?f es] => destruct (mapM f es) end; cbn [rbind]; congruence.
Qed.
Lemma nf_loop inner nullable : (forall n, local (inner n)) -> (forall n, no_fuel (inner n)) -> forall f limit st out inp,
  (length inp < f)%nat -> lc_loop f inner nullable limit st out inp <> Err EFuel.
Proof.
  intros Hl Hn. induction f as [|f IH]; intros limit st out inp Hf; [lia|].
  rewrite lc_loop_iter. destruct (N.eqb_spec limit 0) as [|Hlim]; [discriminate|].
  pose proof (nf_iter inner nullable limit st Hn inp) as HI.
  destruct (lc_iter inner nullable limit st inp) as [[[[st1 rd1] vals] i1]|e|] eqn:E; cbn [rbind]; [|congruence|discriminate].
  apply (uses_iter inner nullable limit st Hl Hlim) in E. apply IH. lia.
Qed.

Lemma nf_cols rows ts : Forall (fun t => forall n, no_fuel (deser t n)) ts -> forall acc, no_fuel (deser_cols rows ts acc).
Proof.
  induction 1 as [|t ts Ht _ IH]; intros acc; [apply nf_ret|]. cbn [deser_cols]. fold (deser_cols rows).
  apply nf_bind; [apply Ht|]. intros col inp.
  assert (HP : push_column acc col <> Err EFuel).
  { clear. revert col; induction acc as [|a acc IH]; intros [|c col]; cbn [push_column]; try discriminate.
    specialize (IH col). destruct (push_column acc col); cbn [rbind]; congruence. }
  destruct (push_column acc col) as [a|e|]; cbn [rbind]; [apply IH|congruence|discriminate].
Qed.

Lemma apply_mask_no_err m out e : apply_mask m out <> Err e.
Proof.
  revert out; induction m as [|b m IH]; intros [|v out]; cbn [apply_mask]; try discriminate.
  - destruct (forallb _ _); discriminate.
  - specialize (IH out). destruct (apply_mask m out); cbn [rbind]; congruence.
Qed.
Lemma split_map_no_err p offs ks vs e : split_map p offs ks vs <> Err e.
Proof.
  revert p ks vs; induction offs as [|o t IH]; intros p ks vs; cbn [split_map]; [discriminate|].
  destruct (_ || _); [discriminate|]. specialize (IH (N.max p o) (dropN (o - p) ks) (dropN (o - p) vs)).
  destruct (split_map _ t _ _); cbn [rbind]; congruence.
Qed.

Lemma deser_terminates t : forall rows, no_fuel (deser t rows).
Proof.
  induction t as [t Hl|t IH IHs|t IH|ts IH|t IH|k v IHk IHv] using ty_ind_strip; intros rows.
  - destruct t; try discriminate Hl; apply nf_check;
      first [ apply nf_point | apply nf_ring | apply nf_polygon | apply nf_multi
            | apply nf_n; apply nf_dec_string | apply nf_n; apply nf_dec_sized ].
  - rewrite deser_lc_eq. apply nf_check. intros inp. apply nf_loop; [apply deser_local|apply IHs|lia].
  - cbn [deser]. apply nf_check, nf_array; [apply IH|discriminate].
  - rewrite deser_tuple_eq. apply nf_check, nf_bind; [now apply nf_cols|intros; apply nf_ret].
  - cbn [deser]. apply nf_check, nf_bind; [apply nf_exact|]. intros mask.
    apply nf_bind; [apply IH|]. intros out inp. pose proof (apply_mask_no_err mask out EFuel).
    destruct (apply_mask mask out); cbn [rbind]; congruence.
  - cbn [deser]. apply nf_check. destruct (rows =? 0); [apply nf_ret|].
    apply nf_bind; [apply nf_n, nf_le|]. intros offs. apply nf_bind; [apply IHk|]. intros ks.
    destruct (negb _); [apply nf_panic|]. apply nf_bind; [apply IHv|]. intros vs.
    destruct (negb _); [apply nf_panic|]. intros inp. pose proof (split_map_no_err 0 offs ks vs EFuel).
    destruct (split_map _ _ _ _); cbn [rbind]; congruence.
Qed.
