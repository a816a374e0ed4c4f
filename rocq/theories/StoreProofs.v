(** Rows come back from any server that keeps them: proofs. *)
From Coq Require Import Permutation Lia.
From Verif Require Import Base Io Types IndexMap Text TypeText TypeTextProofs Block BlockSpec BlockProofs BlockWire Incremental Compression CompressionProofs FrameWire Protocol ProtocolSpec
  ProtocolProofs ColumnSpec DecodeProofs2 Connection Api ApiProofs TripSpec TripProofs StoreSpec.
Local Open Scope list_scope.
Local Open Scope N_scope.

(* ---------------- reading ---------------- *)
Lemma frame_wire_nonempty h u raw bs : frame_wire h u raw bs -> bs <> [].
Proof. intros (hi & lo & size & rs & out & (L & _) & _ & _ & _ & _ & _ & ->). destruct hi; [discriminate L|discriminate]. Qed.

Lemma read_frames_wire K U D rev : forall raws frames, Forall2 (frame_wire (city K) (unpacks K)) raws frames ->
  forall raw b rest fuel, (forall l x, raws = l ++ [x] -> x <> []) ->
  (forall ext, read_block U D rev ((raw ++ concat raws) ++ ext) = Ok (b, ext)) ->
  (length (concat frames ++ rest) < fuel)%nat ->
  read_frames K U D rev fuel raw (concat frames ++ rest) = Ok (b, rest).
Proof.
  induction 1 as [|p f ps fs Hf F IH]; intros raw b rest fuel Hlast HR Hfuel.
  - specialize (HR []). cbn [concat] in HR. rewrite !app_nil_r in HR. cbn [concat app].
    destruct fuel; cbn [read_frames]; now rewrite HR.
  - assert (Hne : concat (p :: ps) <> []).
    { destruct (exists_last (l := p :: ps) ltac:(discriminate)) as (l & x & El). rewrite El, concat_app. cbn [concat]. rewrite app_nil_r.
      intros H. apply app_eq_nil in H as [_ H]. exact (Hlast l x El H). }
    assert (EIO : read_block U D rev raw = Err EIo).
    { apply (truncated_eio _ (block_local U D rev) (block_incremental U D rev) (raw ++ concat (p :: ps)) raw (concat (p :: ps)) [] b); auto. }
    destruct fuel as [|fuel]; [lia|].
    cbn [concat] in Hfuel |- *. cbn [read_frames]. rewrite EIO, <- app_assoc, (frame_wire_read K p f _ Hf). apply IH.
    + intros l x El. apply (Hlast (p :: l) x). now rewrite El.
    + intros ext. cbn [concat] in HR. rewrite <- (HR ext), <- !app_assoc. reflexivity.
    + rewrite !app_length in *. pose proof (frame_wire_nonempty _ _ _ _ Hf). destruct f; [congruence|]. cbn [length] in Hfuel. lia.
Qed.

Definition block_of (info : block_info) (rows : N) (cols : list (text * ty * list value)) : block :=
  {| b_info := info; b_rows := rows; b_types := map fst cols; b_data := map (fun c => (fst (fst c), snd c)) cols |}.

Lemma holds_read C info rows cols body : tzdb_ok (c_tz C) -> holds C info rows cols body ->
  forall ext, read_payload C (body ++ ext) = Ok (block_of info rows cols, ext).
Proof.
  intros D (ND & PR & _ & _ & W) ext. unfold read_payload. destruct (c_lz4 C).
  - destruct W as (raws & frames & F & L & W & ->). unfold read_compressed.
    apply (read_frames_wire _ _ _ _ raws frames F []); [exact L| |lia].
    intros e. cbn [app]. now apply block_wire_read.
  - now apply block_wire_read.
Qed.

Lemma split_pairs {A B : Type} : forall (l l' : list (A * ty * B)),
  map fst l = map fst l' -> map (fun c => (fst (fst c), snd c)) l = map (fun c => (fst (fst c), snd c)) l' -> l = l'.
Proof.
  induction l as [|[[a t] b] l IH]; intros [|[[a' t'] b'] l'] E1 E2; try discriminate; [reflexivity|].
  cbn in E1, E2. injection E1 as -> -> E1. injection E2 as -> E2. f_equal. now apply IH.
Qed.
Lemma holds_det C info rows cols info' rows' cols' body : tzdb_ok (c_tz C) -> holds C info rows cols body -> holds C info' rows' cols' body ->
  rows = rows' /\ cols = cols'.
Proof.
  intros D H H'. pose proof (holds_read C _ _ _ _ D H []) as R. rewrite (holds_read C _ _ _ _ D H' []) in R. injection R as _ E1 E2 E3.
  split; [now symmetry|]. symmetry. now apply split_pairs.
Qed.
Lemma payload_det C t t' body : tzdb_ok (c_tz C) -> payload_wire C t body -> payload_wire C t' body -> t = t'.
Proof.
  intros D (i & r & c & H & ->) (i' & r' & c' & H' & ->). destruct (holds_det C _ _ _ _ _ _ _ D H H') as [-> ->]. reflexivity.
Qed.
Lemma stores_det C bodies table : tzdb_ok (c_tz C) -> stores C bodies table -> forall table', stores C bodies table' -> table' = table.
Proof.
  intros D. induction 1 as [|t body bodies table P _ IH]; intros table' H; inversion H; subst; [reflexivity|].
  f_equal; [|now apply IH]. eapply payload_det; eauto.
Qed.

(** The block that is read has the rows. *)
Lemma block_wire_columns D rev info rows cols bs : block_wire D rev info rows cols bs -> Forall (fun c => lenN (snd c) = rows) cols.
Proof.
  intros (_ & _ & ib & parts & _ & F & _). clear -F. induction F as [|[[n t] vs] p cols parts H F IH]; constructor; [|exact IH]. exact (proj1 H).
Qed.
Lemma holds_columns C info rows cols body : holds C info rows cols body -> Forall (fun c => lenN (snd c) = rows) cols.
Proof.
  intros (_ & _ & _ & _ & W). destruct (c_lz4 C); [destruct W as (? & ? & _ & _ & W & _)|]; exact (block_wire_columns _ _ _ _ _ _ W).
Qed.
Lemma block_of_proper C info rows cols body : holds C info rows cols body -> proper (block_of info rows cols).
Proof.
  intros H. pose proof (holds_columns _ _ _ _ _ H) as F. destruct H as (ND & _ & Z & R & _). split; [|split; [|split]].
  - unfold full, block_of. cbn [b_data b_rows]. apply Forall_forall. intros e I. apply in_map_iff in I as (c & <- & I). exact (proj1 (Forall_forall _ _) F c I).
  - unfold typed, block_of. cbn [b_data b_types]. intros k I G. unfold im_keys in I. rewrite map_map in I. apply in_map_iff in I as (c & <- & I).
    cbn [fst] in G. destruct c as [[n t] vs]. cbn [fst snd] in *. rewrite (im_get_in n (map fst cols) t) in G; [discriminate G| |].
    + unfold im_keys. rewrite map_map. exact ND.
    + apply in_map_iff. exists (n, t, vs). auto.
  - cbn. intros E. apply Z. now destruct cols.
  - exact R.
Qed.
Lemma block_of_rows C info rows cols body : holds C info rows cols body -> rows_of (block_of info rows cols) = map unwrapped (rows_in rows cols).
Proof.
  intros H. destruct H as (ND & _). unfold rows_of, rows_in, row_of, block_of. cbn [b_rows b_data]. rewrite map_map. apply map_ext. intros i.
  unfold unwrapped. rewrite !map_map. apply map_ext_in. intros [[n t] vs] I. cbn [fst snd]. f_equal. f_equal.
  unfold type_of. cbn [b_types]. rewrite (im_get_in n (map fst cols) t); [reflexivity| |].
  - unfold im_keys. rewrite map_map. exact ND.
  - apply in_map_iff. exists (n, t, vs). auto.
Qed.

Lemma replies_read C T (de : list (text * ty * value) -> res T) table bs : tzdb_ok (c_tz C) -> replies C table bs ->
  exists items, receives C bs items /\ query de items = map de (map unwrapped table).
Proof.
  intros D. induction 1 as [|t name body table bs NF (info & rows & cols & H & ->) _ (items & R & Q)].
  - exists []. split; [constructor|reflexivity].
  - exists (IBlock (block_of info rows cols) :: items). split.
    + pose proof (dec_data C name body (block_of info rows cols) bs 1 NF (holds_read C _ _ _ _ D H) (or_introl eq_refl)) as DE.
      change (1 =? 1) with true in DE. cbv iota in DE. econstructor; [exact DE|exact R].
    + change (query de (IBlock (block_of info rows cols) :: items)) with (item_rows de (IBlock (block_of info rows cols)) ++ query de items).
      rewrite Q, (item_rows_spec de _ (block_of_proper C info rows cols body H)), (block_of_rows C info rows cols body H), !map_app. reflexivity.
Qed.

(* ---------------- writing ---------------- *)
Lemma conforms C b : tzdb_ok (c_tz C) -> block_ok (c_uni C) (c_tz C) b -> bucket_num (b_info b) = bucket_num default_info -> compressible C b ->
  (b_types b = [] -> b_rows b = 0) -> b_rows b < 2 ^ 57 ->
  exists body info, send_data C b [] false = Ok (enc_data 2 [] body) /\
    holds C info (b_rows b)
      (map (fun e : text * ty => (fst e, snd e, map (normal (snd e)) (match im_get (fst e) (b_data b) with Some vs => vs | None => [] end))) (b_types b)) body.
Proof.
  intros D B BI K Z R. destruct (block_wire_write (c_uni C) (c_tz C) (c_rev C) b B) as (bytes & W & BW).
  { rewrite BI. vm_compute. split; congruence. }
  set (cols := map _ (b_types b)) in *. set (info := sent_info _ _) in *.
  assert (P1 : NoDup (map (fun c => fst (fst c)) cols)).
  { unfold cols. rewrite map_map. cbn [fst]. apply B. }
  assert (P2 : Forall (fun c => printable (c_uni C) (snd (fst c))) cols).
  { apply Forall_forall. intros c I. apply in_map_iff in I as ([k t] & <- & I). cbn [fst snd].
    destruct B as (_ & _ & BC & _). destruct (BC k t I) as (vs & _ & _ & _ & PR & _). exact PR. }
  assert (P3 : cols = [] -> b_rows b = 0) by (intros E; apply Z; unfold cols in E; now destruct (b_types b)).
  unfold compressible in K. unfold send_data, write_compressed, holds. destruct (c_lz4 C).
  - destruct (K eq_refl) as [KO P]. destruct (P _ W) as (L & out & LC & LO).
    destruct (frame_wire_write (c_codec C) bytes out KO LC L LO) as (f & F1 & F2). exists f, info.
    rewrite W. cbn [rbind]. rewrite F1. cbn [rbind]. split; [reflexivity|]. repeat (split; [assumption|]).
    exists [bytes], [f]. cbn [concat]. rewrite !app_nil_r. split; [constructor; [exact F2|constructor]|]. split; [|auto].
    intros l x E. destruct l as [|y [|? ?]]; try discriminate E. injection E as <-. intros ->.
    pose proof (block_wire_read (c_uni C) _ _ _ _ _ _ D P1 P2 BW []) as R0. cbn [app] in R0. unfold read_block in R0. destruct (0 <? c_rev C); vm_compute in R0; discriminate R0.
  - exists bytes, info. rewrite W. cbn [rbind]. split; [reflexivity|]. repeat (split; [assumption|]). exact BW.
Qed.

Section Store.
  Context (C : conn) {T : Type} (ser : T -> imap ty -> res (list (text * value))) (f : T -> list (text * value)) (types : imap ty)
    (DB : tzdb_ok (c_tz C)) (HO : header_ok C types).

  Lemma batch_stored rows b : rows <> [] -> (forall r, In r rows -> ser r types = Ok (f r) /\ row_ok types (f r)) ->
    batch_fits types (map f rows) -> insert_block ser types rows = Ok b -> compressible C b ->
    exists body, send_data C b [] false = Ok (enc_data 2 [] body) /\ payload_wire C (map (fun r => as_stored types (f r)) rows) body.
  Proof.
    intros NE SR FI I K. destruct (batch_insert C ser f types HO rows NE SR FI) as (b0 & I0 & B1 & B2 & B3 & B4 & B5). rewrite I in I0. injection I0 as <-.
    pose proof (batch_block_ok C ser f types HO rows NE SR FI b I) as BO.
    assert (RM : b_rows b < 2 ^ 57).
    { rewrite B1. assert (W : exists k t, In (k, t) types) by (destruct types as [|[k t] ty']; [now elim (proj1 HO)|exists k, t; now left]).
      destruct W as (k & t & IT). destruct FI as [_ FT]. specialize (FT k t IT). apply ColumnRoundtrip.fits_within in FT. unfold within in FT.
      unfold lenN in FT |- *. rewrite !map_length in FT. eapply N.le_lt_trans; [exact FT|]. vm_compute. reflexivity. }
    destruct (conforms C b DB BO) as (body & info & S & H); [now rewrite B3|exact K| |exact RM|].
    { intros E. rewrite B2 in E. now elim (proj1 HO). }
    exists body. split; [exact S|]. do 3 eexists. split; [exact H|].
    rewrite B1, B2. unfold rows_in, lenN. rewrite Nat2N.id.
    assert (G : forall n l, length l = n -> forall pre, pre ++ l = rows ->
      map (fun r => as_stored types (f r)) l =
      map (fun i => map (fun c : text * ty * list value => (fst (fst c), snd (fst c), nth i (snd c) VNull))
        (map (fun e : text * ty => (fst e, snd e, map (normal (snd e)) (match im_get (fst e) (b_data b) with Some vs => vs | None => [] end))) types)) (seq (length pre) n)).
    { induction n as [|n IH]; intros l LL pre PL; [destruct l; [reflexivity|discriminate LL]|]. destruct l as [|r l]; [discriminate LL|].
      cbn [seq map]. f_equal.
      - rewrite map_map. unfold as_stored. apply map_ext_in. intros [k t] IT. cbn [fst snd]. f_equal. rewrite (B5 k t IT).
        rewrite map_map. rewrite <- PL, map_app, app_nth2; rewrite map_length; [|lia]. now rewrite Nat.sub_diag.
      - specialize (IH l ltac:(now injection LL) (pre ++ [r])). rewrite app_length, <- app_assoc in IH. cbn [length app] in IH.
        rewrite Nat.add_1_r in IH. now apply IH. }
    exact (G (length rows) rows eq_refl [] eq_refl).
  Qed.

  Lemma empty_stored : compressible C empty_block ->
    exists body, send_data C empty_block [] false = Ok (enc_data 2 [] body) /\ payload_wire C [] body.
  Proof.
    intros K. destruct (conforms C empty_block DB) as (body & info & S & H); [|reflexivity|exact K|reflexivity|vm_compute; reflexivity|].
    - split; [constructor|]. split; [constructor|]. split; [intros k t []|]. split; vm_compute; reflexivity.
    - exists body. split; [exact S|]. do 3 eexists. split; [exact H|]. reflexivity.
  Qed.

  Lemma batches_stored batches :
    (forall rows, In rows batches -> batch_fits types (map f rows) /\
       forall r, In r rows -> ser r types = Ok (f r) /\ row_ok types (f r)) ->
    exists blocks, insert_batches ser types batches = (blocks, Ok tt) /\
    (Forall (compressible C) blocks ->
     exists bodies, Forall2 (fun b body => send_data C b [] false = Ok (enc_data 2 [] body)) blocks bodies /\
       stores C bodies (map (fun r => as_stored types (f r)) (concat batches))).
  Proof.
    induction batches as [|rows batches IH]; intros H.
    - exists [empty_block]. split; [reflexivity|]. intros K. apply Forall_inv in K. destruct (empty_stored K) as (body & S & P).
      exists [body]. split; [repeat constructor; exact S|]. exact (st_payload C [] body [] [] P (st_nothing C)).
    - destruct IH as (blocks & I & IH); [intros r R; apply H; now right|].
      destruct rows as [|r0 rows']; [exists blocks; split; [exact I|exact IH]|]. remember (r0 :: rows') as rows eqn:ER.
      destruct (H rows (or_introl eq_refl)) as [FI SR]. assert (NE : rows <> []) by (rewrite ER; discriminate).
      destruct (batch_insert C ser f types HO rows NE SR FI) as (b & IB & _).
      exists (b :: blocks). split; [cbn [insert_batches]; rewrite ER in *; rewrite IB, I; reflexivity|].
      intros K. pose proof (Forall_inv K) as K1. apply Forall_inv_tail in K. destruct (IH K) as (bodies & S2 & EC).
      destruct (batch_stored rows b NE SR FI IB K1) as (body & S & P).
      exists (body :: bodies). split; [constructor; assumption|]. cbn [concat]. rewrite map_app. now constructor.
  Qed.
End Store.

(* ---------------- there and back ---------------- *)
Lemma read_back_plain types row : unwrapped (as_stored types row) = read_back types row.
Proof. unfold unwrapped, as_stored, read_back. rewrite map_map. reflexivity. Qed.

Lemma answered {T} (de : list (text * ty * value) -> res T) types (f : T -> list (text * value)) rows :
  (forall r cols, In r rows -> Permutation cols (read_back types (f r)) -> de cols = Ok r) ->
  forall table, Forall2 same_row (map (fun r => as_stored types (f r)) rows) table -> map de (map unwrapped table) = map Ok rows.
Proof.
  intros H. induction rows as [|r rows IH]; intros table F; inversion F as [|? x ? l SR F']; subst; [reflexivity|].
  cbn [map]. f_equal.
  - apply H; [now left|]. unfold same_row in SR. rewrite read_back_plain in SR. now symmetry.
  - apply IH; [|exact F']. intros r' cols I. apply H. now right.
Qed.
