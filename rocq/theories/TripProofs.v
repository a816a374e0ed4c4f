(** Rows come back: proofs. *)
From Coq Require Import Permutation Lia.
From Verif Require Import Base Io Types IndexMap Text TypeText TypeTextProofs Block BlockSpec BlockProofs Compression CompressionProofs Protocol ProtocolSpec
  ProtocolProofs ColumnSpec DecodeProofs2 Connection Api ApiProofs TripSpec.
Local Open Scope list_scope.
Local Open Scope N_scope.

Lemma cell_val k row : cell k row = val k row.
Proof.
  unfold val, of_key. induction row as [|[k' v] row IH]; [reflexivity|]. cbn [cell filter fst]. destruct (text_eqb k k'); [reflexivity|exact IH].
Qed.

Lemma receives_det C bs items : receives C bs items -> forall items', receives C bs items' -> items' = items.
Proof.
  assert (N : forall p, read_packet C [] <> Ok p) by (intros p; unfold read_packet, rdbind; cbn; discriminate).
  induction 1 as [|bs table b rest items R _ IH]; intros items' H; inversion H; subst; try reflexivity.
  - now elim (N (PData table b, rest)).
  - now elim (N (PData table b, rest)).
  - rewrite R in *. match goal with X : Ok _ = Ok _ |- _ => injection X as <- <- <- end. f_equal. now apply IH.
Qed.

(** A block with conditions met is sent and read back. *)
Lemma block_echoed C b : tzdb_ok (c_tz C) -> block_ok (c_uni C) (c_tz C) b -> bucket_num (b_info b) = bucket_num default_info -> compressible C b ->
  exists body b', send_data C b [] false = Ok (enc_data 2 [] body) /\
    (forall ext, read_payload C (body ++ ext) = Ok (b', ext)) /\
    b_rows b' = b_rows b /\ b_types b' = b_types b /\ im_keys (b_data b') = im_keys (b_types b) /\
    (forall k t vs, In (k, t) (b_types b) -> im_get k (b_data b) = Some vs -> im_get k (b_data b') = Some (map (normal t) vs)).
Proof.
  intros D B BI K. destruct (block_roundtrip (c_uni C) (c_tz C) (c_rev C) b D B) as (bytes & b' & W & R & S1 & S2 & S3 & S4 & _).
  { rewrite BI. vm_compute. split; congruence. }
  unfold compressible in K. unfold send_data, read_payload, write_compressed. destruct (c_lz4 C).
  - destruct (K eq_refl) as [KO P]. specialize (P _ W). destruct (frame_ok _ _ KO P) as (f & F1 & _ & F3). exists f, b'.
    rewrite W. cbn [rbind]. rewrite F1. cbn [rbind]. split; [reflexivity|]. split; [|auto]. intros ext.
    apply (compressed_block_roundtrip (c_codec C) (c_uni C) (c_tz C) (c_rev C) b b' bytes [bytes] f ext KO W R).
    + cbn [concat]. apply app_nil_r.
    + intros l x E. destruct l as [|y [|? ?]]; try discriminate E. injection E as <-. intros ->.
      pose proof (R []) as R0. cbn [app] in R0. unfold read_block in R0. destruct (0 <? c_rev C); vm_compute in R0; discriminate R0.
    + now constructor.
    + cbn [framed]. rewrite F1. cbn [rbind]. now rewrite app_nil_r.
  - exists bytes, b'. rewrite W. cbn [rbind]. split; [reflexivity|]. split; [exact R|auto].
Qed.

Section Batch.
  Context (C : conn) {T : Type} (ser : T -> imap ty -> res (list (text * value))) (f : T -> list (text * value)) (types : imap ty)
    (DB : tzdb_ok (c_tz C)) (HO : header_ok C types).

  Section One.
    Context (rows : list T) (NE : rows <> []) (SR : forall r, In r rows -> ser r types = Ok (f r) /\ row_ok types (f r))
      (FI : batch_fits types (map f rows)).

    Lemma row_nodup r : In r rows -> NoDup (map fst (f r)).
    Proof. intros R. destruct (SR r R) as [_ [P _]]. eapply Permutation_NoDup; [symmetry; exact P|]. apply HO. Qed.
    Lemma batch_insert : exists b, insert_block ser types rows = Ok b /\ b_rows b = lenN rows /\ b_types b = types /\ b_info b = default_info /\
      NoDup (im_keys (b_data b)) /\ forall k t, In (k, t) types -> im_get k (b_data b) = Some (map (fun r => cell k (f r)) rows).
    Proof.
      assert (SZ : forall r, In r rows -> serialized ser types r = f r) by (intros r R; unfold serialized; now rewrite (proj1 (SR r R))).
      destruct (insert_block_succeeds ser types rows) as [b I].
      - intros r R. rewrite (proj1 (SR r R)). discriminate.
      - intros r k v R I. rewrite (SZ r R) in I. destruct (SR r R) as [_ [P V]].
        assert (K : In k (im_keys types)) by (eapply Permutation_in; [exact P|]; apply (in_map fst) in I; exact I).
        apply in_map_iff in K as ([k2 t] & E & K). cbn in E. subst k2. exists t. split; [apply im_get_in; [apply HO|exact K]|].
        destruct (V k t K) as [V1 _]. rewrite cell_val in V1. unfold val in V1. rewrite (of_key_one k v (f r) (row_nodup r R) I) in V1. exact V1.
      - exists b. split; [exact I|]. unfold insert_block in I. destruct (push_rows ser types rows []) as [m| |] eqn:P; try discriminate I. cbn [rbind] in I.
        injection I as <-. cbn [b_rows b_types b_info b_data]. split; [reflexivity|]. split; [reflexivity|]. split; [reflexivity|].
        destruct (push_rows_spec ser types rows [] m P) as (CO & N & _ & K). split; [apply N; constructor|].
        intros k t IT.
        assert (KI : forall r, In r rows -> In k (map fst (f r))).
        { intros r R. destruct (SR r R) as [_ [PE _]]. eapply Permutation_in; [symmetry; exact PE|]. apply (in_map fst) in IT. exact IT. }
        assert (KM : In k (im_keys m)).
        { apply K. right. destruct rows as [|r rows']; [contradiction|]. exists r. split; [now left|]. rewrite (SZ r (or_introl eq_refl)). apply KI. now left. }
        specialize (CO k). unfold col in CO. cbn [im_get app] in CO. destruct (im_get k m) as [vs|] eqn:G.
        + f_equal. rewrite CO. clear - SZ KI HO SR. 
          assert (G : forall l, incl l rows -> flat_map (fun r => of_key k (serialized ser types r)) l = map (fun r => cell k (f r)) l).
          { induction l as [|r l IH]; intros L; [reflexivity|]. cbn [flat_map map]. rewrite IH by (intros x X; apply L; now right).
            assert (R : In r rows) by (apply L; now left). rewrite (SZ r R), (of_key_val k (f r) (row_nodup r R) (KI r R)), cell_val. reflexivity. }
          apply G. apply incl_refl.
        + exfalso. apply in_map_iff in KM as ([k2 vs] & E & KM). cbn in E. subst k2.
          rewrite (im_get_in k m vs (N (NoDup_nil _)) KM) in G. discriminate G.
    Qed.
    Lemma batch_block_ok b : insert_block ser types rows = Ok b -> block_ok (c_uni C) (c_tz C) b.
    Proof.
      intros I. destruct batch_insert as (b0 & I0 & B1 & B2 & B3 & B4 & B5). rewrite I in I0. injection I0 as <-.
      assert (LV : forall k, lenN (map (fun r => cell k (f r)) rows) = lenN rows) by (intros k; unfold lenN; now rewrite map_length).
      destruct HO as (_ & H2 & H3 & H4). unfold block_ok. rewrite B1, B2. split; [exact H2|]. split; [exact B4|]. split; [|split; [|exact H3]].
        - intros k t IT. eexists. split; [exact (B5 k t IT)|]. destruct (H4 k t IT) as (A1 & A2 & A3). unfold column_ok.
          split; [exact A1|]. split; [exact A2|]. split; [exact A3|]. split; [apply LV|]. intros _.
          destruct (validated_sendable t (map (fun r => cell k (f r)) rows)) as [V1 V2].
          + apply Forall_forall. intros v V. apply in_map_iff in V as (r & <- & R). destruct (SR r R) as [_ [_ X]]. now apply X.
          + now destruct rows.
          + split; [exact V1|]. split; [exact V2|]. destruct FI as [_ FT]. specialize (FT k t IT). now rewrite map_map in FT.
        - destruct FI as [FL _]. unfold lenN in *. now rewrite map_length in FL.
    Qed.
    Lemma batch_echoed b : insert_block ser types rows = Ok b -> compressible C b ->
      exists body b', send_data C b [] false = Ok (enc_data 2 [] body) /\ (forall ext, read_payload C (body ++ ext) = Ok (b', ext)) /\
        proper b' /\ rows_of b' = map (fun r => read_back types (f r)) rows.
    Proof.
      intros I K. destruct batch_insert as (b0 & I0 & B1 & B2 & B3 & B4 & B5). rewrite I in I0. injection I0 as <-.
      assert (LV : forall k, lenN (map (fun r => cell k (f r)) rows) = lenN rows) by (intros k; unfold lenN; now rewrite map_length).
      pose proof (batch_block_ok b I) as BO.
      destruct (block_echoed C b DB BO) as (body & b' & S & R & E1 & E2 & E3 & E4); [now rewrite B3|exact K|].
      exists body, b'. split; [exact S|]. split; [exact R|].
      rewrite B1 in E1. rewrite B2 in E2, E3, E4.
      assert (GE : forall k t, In (k, t) types -> im_get k (b_data b') = Some (map (normal t) (map (fun r => cell k (f r)) rows))).
      { intros k t IT. exact (E4 k t _ IT (B5 k t IT)). }
      assert (ND : NoDup (im_keys (b_data b'))) by (rewrite E3; apply HO).
      assert (DA : b_data b' = map (fun e => (fst e, map (normal (snd e)) (map (fun r => cell (fst e) (f r)) rows))) types).
      { rewrite (map_by_keys (b_data b') [] ND), E3. unfold im_keys. rewrite map_map. apply map_ext_in. intros [k t] IT. cbn [fst snd]. now rewrite (GE k t IT). }
      split; [split; [|split; [|split]]|].
      - unfold full. rewrite DA, E1. apply Forall_forall. intros e X. apply in_map_iff in X as ([k t] & <- & _). cbn [snd]. unfold lenN. now rewrite !map_length.
      - unfold typed. rewrite E3, E2. intros k X G. apply in_map_iff in X as ([k2 t] & E & X). cbn in E. subst k2.
        rewrite (im_get_in k types t) in G; [discriminate G|apply HO|exact X].
      - intros Z. rewrite DA in Z. destruct types; [now elim (proj1 HO)|discriminate Z].
      - rewrite E1. assert (W : exists k t, In (k, t) types) by (destruct types as [|[k t] ty']; [now elim (proj1 HO)|exists k, t; now left]).
        destruct W as (k & t & IT). destruct FI as [_ FT]. specialize (FT k t IT). apply ColumnRoundtrip.fits_within in FT. unfold within in FT.
        unfold lenN in FT |- *. rewrite !map_length in FT. eapply N.le_lt_trans; [exact FT|]. vm_compute. reflexivity.
      - unfold rows_of, row_of. rewrite DA, E1. unfold lenN. rewrite Nat2N.id.
        assert (G : forall n l, length l = n -> forall pre, pre ++ l = rows ->
          map (fun i => map (fun e => (fst e, strip_low_cardinality (type_of b' (fst e)), nth i (snd e) VNull))
            (map (fun e => (fst e, map (normal (snd e)) (map (fun r => cell (fst e) (f r)) rows))) types)) (seq (length pre) n) =
          map (fun r => read_back types (f r)) l).
        { induction n as [|n IH]; intros l LL pre PL; [destruct l; [reflexivity|discriminate LL]|]. destruct l as [|r l]; [discriminate LL|].
          cbn [seq map]. f_equal.
          - rewrite map_map. unfold read_back. apply map_ext_in. intros [k t] IT. cbn [fst snd].
            assert (TY : type_of b' k = t) by (unfold type_of; rewrite E2, (im_get_in k types t); [reflexivity|apply HO|exact IT]). rewrite TY. f_equal.
            rewrite map_map. rewrite <- PL, map_app, app_nth2; rewrite map_length; [|lia]. now rewrite Nat.sub_diag.
          - specialize (IH l ltac:(now injection LL) (pre ++ [r])). rewrite app_length, <- app_assoc in IH. cbn [length app] in IH.
            rewrite Nat.add_1_r in IH. now apply IH. }
        exact (G (length rows) rows eq_refl [] eq_refl).
    Qed.
  End One.
End Batch.

Lemma echo_cons t ts b bs : echo (t :: ts) (b :: bs) = enc_data 1 t b ++ echo ts bs.
Proof. reflexivity. Qed.

Section Trip.
  Context (C : conn) {T : Type} (ser : T -> imap ty -> res (list (text * value))) (de : list (text * ty * value) -> res T)
    (f : T -> list (text * value)) (types : imap ty) (DB : tzdb_ok (c_tz C)) (HO : header_ok C types).

  Lemma query_app items items' : query de (items ++ items') = query de items ++ query de items'.
  Proof. unfold query. apply flat_map_app. Qed.
  Lemma empty_echoed : compressible C empty_block -> exists body b', send_data C empty_block [] false = Ok (enc_data 2 [] body) /\
    (forall ext, read_payload C (body ++ ext) = Ok (b', ext)) /\ item_rows de (IBlock b') = [].
  Proof.
    intros K. destruct (block_echoed C empty_block DB) as (body & b' & S & R & E1 & E2 & E3 & _); [|reflexivity|exact K|].
    - split; [constructor|]. split; [constructor|]. split; [intros k t []|]. split; vm_compute; reflexivity.
    - exists body, b'. split; [exact S|]. split; [exact R|]. cbn in E1, E2, E3. unfold item_rows, take_iter_rows.
      rewrite E1. destruct (b_data b') as [|e m]; [reflexivity|discriminate E3].
  Qed.

  Theorem batches_come_back batches :
    (forall rows, In rows batches -> batch_fits types (map f rows) /\
       forall r, In r rows -> ser r types = Ok (f r) /\ row_ok types (f r) /\ de (read_back types (f r)) = Ok r) ->
    exists blocks, insert_batches ser types batches = (blocks, Ok tt) /\
    (Forall (compressible C) blocks ->
     exists bodies, Forall2 (fun b body => send_data C b [] false = Ok (enc_data 2 [] body)) blocks bodies /\
     forall tables, length tables = length bodies -> Forall name_fits tables ->
       exists items, receives C (echo tables bodies) items /\ query de items = map Ok (concat batches)).
  Proof.
    induction batches as [|rows batches IH]; intros H.
    - exists [empty_block]. split; [reflexivity|]. intros K. apply Forall_inv in K. destruct (empty_echoed K) as (body & b' & S & R & Q).
      exists [body]. split; [repeat constructor; exact S|]. intros tables L F. destruct tables as [|t [|? ?]]; try discriminate L. apply Forall_inv in F.
      exists [IBlock b']. split.
      + rewrite echo_cons. pose proof (dec_data C t body b' (echo [] []) 1 F R (or_introl eq_refl)) as DE. change (1 =? 1) with true in DE. cbv iota in DE.
        econstructor; [exact DE|constructor].
      + unfold query. cbn [flat_map]. rewrite Q. reflexivity.
    - destruct IH as (blocks & I & IH); [intros r R; apply H; now right|].
      destruct rows as [|r0 rows']; [exists blocks; split; [exact I|exact IH]|]. remember (r0 :: rows') as rows eqn:ER.
      destruct (H rows (or_introl eq_refl)) as [FI SR]. assert (NE : rows <> []) by (rewrite ER; discriminate).
      assert (SR' : forall r, In r rows -> ser r types = Ok (f r) /\ row_ok types (f r)) by (intros r R; destruct (SR r R) as (A & B & _); auto).
      destruct (batch_insert C ser f types HO rows NE SR' FI) as (b & IB & _).
      exists (b :: blocks). split; [cbn [insert_batches]; rewrite ER in *; rewrite IB, I; reflexivity|].
      intros K. pose proof (Forall_inv K) as K1. apply Forall_inv_tail in K. destruct (IH K) as (bodies & S2 & EC).
      destruct (batch_echoed C ser f types DB HO rows NE SR' FI b IB K1) as (body & b' & S & R & PR & RO).
      exists (body :: bodies). split; [constructor; assumption|]. intros tables L F. destruct tables as [|t tables]; [discriminate L|].
      injection L as L. pose proof (Forall_inv F) as F1. apply Forall_inv_tail in F. destruct (EC tables L F) as (items & RC & Q).
      exists (IBlock b' :: items). split.
      + rewrite echo_cons. pose proof (dec_data C t body b' (echo tables bodies) 1 F1 R (or_introl eq_refl)) as DE. change (1 =? 1) with true in DE. cbv iota in DE.
        econstructor; [exact DE|exact RC].
      + change (query de (IBlock b' :: items)) with (item_rows de (IBlock b') ++ query de items). rewrite Q, (item_rows_spec de b' PR), RO. cbn [concat].
        rewrite map_app. f_equal. rewrite map_map. apply map_ext_in. intros r RR. apply (SR r RR).
  Qed.
End Trip.
