(** LowCardinality columns whose dictionary is shared between chunks (the flag
    NEED_GLOBAL_DICTIONARY): how such a column is laid out, and that it is read accordingly. *)
From Verif Require Import Base Types Ser Deser ColumnSpec ColumnProofs ColumnRoundtrip LowCardProofs WireProofs DecodeProofs WireSpec WireDecode.

(** What index [i] of a chunk means, given the keys of the chunk and the shared dictionary. *)
Definition chunk_entry (nullable : bool) (own shared : option (list value)) (i : N) (v : value) : Prop :=
  match own, shared with
  | Some own, None => dict_entry nullable own i v
  | None, Some shared => nth_error shared (N.to_nat i) = Some v
  | Some own, Some shared => if nullable && (i =? 0) then v = VNull else nth_error (own ++ shared) (N.to_nat i) = Some v
  | None, None => False
  end.
(** A dictionary that is there or not. *)
Definition dictionary (lim : N) (t : ty) (d : option (list value)) (bs : list N) : Prop :=
  match d with
  | None => bs = []
  | Some keys => exists n kbs, word 8 (lenN keys) n /\ encodes lim (strip_null t) keys kbs /\ bs = n ++ kbs
  end.
Definition flag (b : bool) (x : N) : N := if b then x else 0.
Definition some {A} (o : option A) : bool := match o with Some _ => true | None => false end.

(** [chunks lim t known vs bs]: the chunks [bs] hold the rows [vs]; [known] is the shared dictionary
    received before.  A chunk that needs the shared dictionary ([uses]) brings a new one with it
    exactly if it says so ([update]) or if none is known. *)
Inductive chunks (lim : N) (t : ty) : option (list value) -> list value -> list N -> Prop :=
| chunks_none known : chunks lim t known [] []
| chunks_more known code w (update uses : bool) own shared flags sent sbs obs nrows idx ibs vs vs' bs' :
    width_code code w ->
    word 8 (code + flag uses 256 + flag (some own) 512 + flag update 1024) flags ->
    (if uses && (negb (some known) || update) then some sent = true /\ shared = sent else sent = None /\ shared = known) ->
    dictionary lim t sent sbs -> dictionary lim t own obs ->
    word 8 (lenN vs) nrows -> vs <> [] ->
    Forall2 (chunk_entry (is_nullable t) own (if uses then shared else None)) idx vs -> words w idx ibs ->
    chunks lim t shared vs' bs' ->
    chunks lim t known (vs ++ vs') (flags ++ sbs ++ obs ++ nrows ++ ibs ++ bs').

Lemma chunk_flags code w (u a p : bool) : width_code code w ->
  let f := code + flag u 256 + flag a 512 + flag p 1024 in
  (exists iw, index_width f = Some iw /\ N.of_nat (ibytes iw) = w) /\
  has_bit f HAS_ADDITIONAL_KEYS_BIT = a /\ has_bit f NEED_GLOBAL_DICTIONARY_BIT = u /\ has_bit f NEED_UPDATE_DICTIONARY_BIT = p.
Proof.
  intros [[-> ->]|[[-> ->]|[[-> ->]|[-> ->]]]]; destruct u, a, p; (split; [|repeat split]);
    [exists I8|exists I8|exists I8|exists I8|exists I8|exists I8|exists I8|exists I8
    |exists I16|exists I16|exists I16|exists I16|exists I16|exists I16|exists I16|exists I16
    |exists I32|exists I32|exists I32|exists I32|exists I32|exists I32|exists I32|exists I32
    |exists I64|exists I64|exists I64|exists I64|exists I64|exists I64|exists I64|exists I64]; split; reflexivity.
Qed.

Lemma chunk_lookup nullable own shared (uses : bool) gd ad idx vs :
  (some own = true -> ad = own) -> (uses = true -> gd = shared /\ some shared = true) ->
  Forall2 (chunk_entry nullable own (if uses then shared else None)) idx vs ->
  mapM (lc_lookup uses (some own) nullable gd ad) idx = Ok (map (fun v => [v]) vs).
Proof.
  intros A G F. induction F as [|i v idx vs H _ IH]; [reflexivity|]. cbn [mapM map].
  assert (E : lc_lookup uses (some own) nullable gd ad i = Ok [v]).
  { destruct own as [own|]; cbn [some] in *; [rewrite (A eq_refl)|]; destruct uses; try (destruct (G eq_refl) as [-> Hs]).
    - destruct shared as [shared|]; cbn [chunk_entry lc_lookup] in *.
      + destruct (nullable && (i =? 0)); [now subst v|]. unfold get_or_illegal. rewrite !nthN_nth.
        destruct (N.ltb_spec i (lenN own)) as [L|L]; unfold lenN in L.
        * rewrite nth_error_app1 in H by lia. now rewrite H.
        * rewrite nth_error_app2 in H by lia. replace (N.to_nat (i - lenN own)) with (N.to_nat i - length own)%nat by (unfold lenN; lia).
          now rewrite H.
      + discriminate Hs.
    - cbn [chunk_entry lc_lookup] in *. unfold dict_entry in H. destruct (nullable && (i =? 0)); [now subst v|].
      unfold get_or_illegal. now rewrite nthN_nth, H.
    - destruct shared as [shared|]; [|contradiction H]. cbn [chunk_entry lc_lookup] in *. unfold get_or_illegal. now rewrite nthN_nth, H.
    - contradiction H. }
  rewrite E. cbn [rbind]. rewrite IH. reflexivity.
Qed.

Lemma dictionary_read t d bs rest (st : option (list value)) : dictionary (2 ^ 30) t d bs ->
  (if some d then n <~ read_le 8 ;;; x <~ deser (strip_null t) n ;;; rret (Some x) else rret st) (bs ++ rest) =
  Ok (if some d then d else st, rest).
Proof.
  destruct d as [keys|]; cbn [dictionary some]; [|intros ->; reflexivity].
  intros (n & kbs & W & E & ->). unfold rdbind. rewrite <- app_assoc, (read_word 8 8 _ _ _ eq_refl W). cbn [rbind].
  destruct (proj1 wire_decode _ _ _ E) as (_ & _ & R). rewrite R. reflexivity.
Qed.

Lemma chunks_read t known vs bs : chunks (2 ^ 30) t known vs bs -> lenN vs <= 2 ^ 30 ->
  forall fuel st out rest, num_pending st = 0 -> gdict st = known -> (length bs < fuel)%nat ->
  lc_loop fuel (deser (strip_null t)) (is_nullable t) (lenN vs) st out (bs ++ rest) = Ok (out ++ vs, rest).
Proof.
  induction 1 as [known|known code w upd uses own shared flags sent sbs obs nrows idx ibs vs vs' bs' Hcode Hfl Hsh Hs Ho Hnr Hne Hent Hidx _ IH]; intros Hlen.
  - intros fuel st out rest _ _ Hf. destruct fuel; [cbn in Hf; lia|]. cbn [lenN lc_loop]. now rewrite app_nil_r.
  - rewrite lenN_app in Hlen. intros fuel st out rest Hp Hg Hf. rewrite <- !app_assoc. destruct fuel as [|fuel]; [cbn in Hf; lia|].
    cbn [lc_loop]. rewrite lenN_nonzero by (intros E; apply app_eq_nil in E as [-> _]; congruence).
    rewrite Hp. change (0 =? 0) with true. cbn iota. unfold lc_header. unfold rdbind at 1.
    rewrite (read_word 8 8 _ _ _ eq_refl Hfl). cbn [rbind].
    destruct (chunk_flags code w uses (some own) upd Hcode) as ((iw & Hiw & Hww) & B1 & B2 & B3).
    rewrite Hiw, B1, B2, B3, Hg.
    replace (match known with Some _ => false | None => true end) with (negb (some known)) by (now destruct known).
    replace (uses && (negb (some known) || upd)) with (some sent) by
      (destruct (uses && (negb (some known) || upd)); destruct Hsh as [Hsh _]; [exact Hsh|now rewrite Hsh]).
    unfold rdbind at 1. rewrite (dictionary_read t sent sbs _ known Hs). cbn [rbind].
    assert (GD : (if some sent then sent else known) = shared).
    { destruct (uses && (negb (some known) || upd)); destruct Hsh as [H1 H2].
      - rewrite H1. now symmetry.
      - subst sent. now symmetry. }
    rewrite GD. unfold rdbind at 1. rewrite (dictionary_read t own obs _ (adict st) Ho). cbn [rbind].
    unfold rdbind at 1. rewrite (read_word 8 8 _ _ _ eq_refl Hnr). cbn [rbind]. unfold rret.
    cbn [rbind num_pending indexed needs_global has_additional gdict adict].
    rewrite lenN_app. replace (N.min (lenN vs + lenN vs') (lenN vs)) with (lenN vs) by lia.
    rewrite check_rows_ok by (unfold within; lia). rewrite <- (Forall2_lenN _ _ _ Hent).
    rewrite (read_words _ w _ _ _ Hww Hidx). cbn [rbind].
    rewrite (chunk_lookup (is_nullable t) own shared uses shared _ idx vs); [| |intros ->|exact Hent].
    + cbn [rbind]. rewrite (Forall2_lenN _ _ _ Hent). replace (lenN vs + lenN vs' - lenN vs) with (lenN vs') by lia.
      rewrite concat_singles. rewrite IH; [now rewrite app_assoc|lia|cbn [num_pending]; apply N.sub_diag|reflexivity|].
      rewrite !app_length in Hf. destruct Hfl as [L _]. unfold lenN in L. lia.
    + intros ->. reflexivity.
    + split; [reflexivity|]. cbn [andb] in Hsh. destruct (negb (some known) || upd) eqn:E; destruct Hsh as [H1 ->]; [exact H1|].
      apply Bool.orb_false_elim in E as [E _]. now destruct (some known).
Qed.
Lemma shared_read t vs bs rest : chunks (2 ^ 30) t None vs bs -> lenN vs <= 2 ^ 30 ->
  deser (TLowCard t) (lenN vs) (bs ++ rest) = Ok (vs, rest).
Proof.
  intros C L. rewrite deser_lc_eq, check_rows_ok by assumption. unfold deser_low_card.
  rewrite (chunks_read t None vs bs C L); [reflexivity|reflexivity|reflexivity|]. rewrite app_length. lia.
Qed.
