(** Proofs about compressed frames and the decompressing reader. *)
From Verif Require Import Base Io IoProofs Types Text TypeText TypeTextProofs Ser Deser ColumnSpec DecodeProofs Block BlockSpec BlockProofs Incremental Compression.

(** What is assumed of LZ4 and CityHash: decompression into enough room inverts
    compression, and the hash is a 128-bit number. *)
Definition codec_ok (K : codec) : Prop :=
  (forall raw out cap, lz4_c K raw = Some out -> lenN raw <= cap -> lz4_d K out cap = Some raw) /\
  (forall bs, city K bs < 2 ^ 128).

Lemma hash_split K bs : codec_ok K -> city K bs / 2 ^ 64 < 2 ^ 64 /\ city K bs mod 2 ^ 64 < 2 ^ 64 /\
  city K bs / 2 ^ 64 * 2 ^ 64 + city K bs mod 2 ^ 64 = city K bs.
Proof.
  intros [_ H]. specialize (H bs). change (2 ^ 128) with (2 ^ 64 * 2 ^ 64) in H.
  assert (P : 2 ^ 64 <> 0) by (vm_compute; discriminate). generalize dependent (2 ^ 64). intros P HP H0.
  repeat split; [apply N.div_lt_upper_bound; lia|now apply N.mod_lt|]. rewrite N.mul_comm. symmetry. now apply N.div_mod.
Qed.

Lemma read_frame K raw out rest : codec_ok K -> lz4_c K raw = Some out -> lenN raw < 2 ^ 32 -> lenN out + 9 <= 2 ^ 30 ->
  exists bs, frame K raw = Ok bs /\ read_blob K (bs ++ rest) = Ok (raw, rest).
Proof.
  intros HK Hc Hr Ho. unfold frame, compress_payload. rewrite Hc. cbn [rbind]. set (body := frame_body _ _ _).
  destruct (hash_split K body HK) as (H1 & H2 & H3). eexists. split; [reflexivity|].
  unfold read_blob. rewrite <- !app_assoc.
  unfold rdbind at 1. rewrite read_le_app by exact H1. cbn [rbind].
  unfold rdbind at 1. rewrite read_le_app by exact H2. cbn [rbind].
  unfold body at 3. unfold frame_body. rewrite <- !app_assoc. unfold rdbind at 1.
  change ([LZ4_BYTE] ++ ?x) with (le_bytes 1 LZ4_BYTE ++ x).
  rewrite (read_le_app 1 LZ4_BYTE) by reflexivity. cbn [rbind]. rewrite N.eqb_refl. cbn [negb].
  unfold rdbind at 1. rewrite read_le_app by (change (256 ^ N.of_nat 4) with (2 ^ 32); lia). cbn [rbind].
  unfold MAX_COMPRESSION_SIZE. change 1073741824 with (2 ^ 30).
  destruct (N.ltb_spec (2 ^ 30) (lenN out + 9)); [lia|]. destruct (N.ltb_spec (lenN out + 9) 9); [lia|].
  unfold rdbind at 1. rewrite read_le_app by exact Hr. cbn [rbind].
  unfold rdbind at 1. rewrite read_exact_app' by lia. cbn [rbind].
  fold (frame_body LZ4_BYTE out (lenN raw)). fold body. rewrite H3, N.eqb_refl. cbn [negb].
  unfold lift, decompress_block. rewrite (proj1 HK raw out) by (assumption || lia). reflexivity.
Qed.

(** What an accepted frame must look like. *)
Lemma read_blob_inv K inp v rest : read_blob K inp = Ok (v, rest) ->
  exists hi lo size raw_size data,
    lenN hi = 8 /\ lenN lo = 8 /\ lenN size = 4 /\ lenN raw_size = 4 /\
    inp = hi ++ lo ++ [LZ4_BYTE] ++ size ++ raw_size ++ data ++ rest /\
    9 <= le_val size <= 2 ^ 30 /\ lenN data = le_val size - 9 /\
    city K ([LZ4_BYTE] ++ le_bytes 4 (le_val size) ++ le_bytes 4 (le_val raw_size) ++ data) = le_val hi * 2 ^ 64 + le_val lo /\
    lz4_d K data (le_val raw_size + 1) = Some v.
Proof.
  intros H. unfold read_blob in H.
  unfold rdbind at 1 in H. inv_bind H. destruct a as [hi i1]. unfold read_le, rdbind in E. inv_bind E.
  destruct a as [hb i1']. apply read_exact_ok in E0 as [-> L1]. injection E as <- <-.
  unfold rdbind at 1 in H. inv_bind H. destruct a as [lo i2]. unfold read_le, rdbind in E. inv_bind E.
  destruct a as [lb i2']. apply read_exact_ok in E0 as [-> L2]. injection E as <- <-.
  unfold rdbind at 1 in H. inv_bind H. destruct a as [tb i3]. unfold read_le, rdbind in E. inv_bind E.
  destruct a as [tbs i3']. apply read_exact_ok in E0 as [-> L3]. injection E as <- <-.
  destruct (N.eqb_spec (le_val tbs) LZ4_BYTE) as [Et|Et]; [|discriminate]. cbn [negb] in H.
  assert (tbs = [LZ4_BYTE]) as ->.
  { destruct tbs as [|x [|y tbs]]; rewrite ?lenN_cons in L3; try (unfold lenN in L3; cbn [length] in L3; lia).
    cbn [le_val] in Et. f_equal. lia. }
  unfold rdbind at 1 in H. inv_bind H. destruct a as [sz i4]. unfold read_le, rdbind in E. inv_bind E.
  destruct a as [szb i4']. apply read_exact_ok in E0 as [-> L4]. injection E as <- <-.
  unfold MAX_COMPRESSION_SIZE in H. change 1073741824 with (2 ^ 30) in H.
  destruct (N.ltb_spec (2 ^ 30) (le_val szb)) as [|Hs1]; [discriminate|].
  destruct (N.ltb_spec (le_val szb) 9) as [|Hs2]; [discriminate|].
  unfold rdbind at 1 in H. inv_bind H. destruct a as [ds i5]. unfold read_le, rdbind in E. inv_bind E.
  destruct a as [dsb i5']. apply read_exact_ok in E0 as [-> L5]. injection E as <- <-.
  unfold rdbind at 1 in H. inv_bind H. destruct a as [data i6]. apply read_exact_ok in E as [-> L6].
  change (le_val [LZ4_BYTE]) with LZ4_BYTE in H.
  match type of H with (if negb (?a =? ?b) then _ else _) _ = _ => destruct (N.eqb_spec a b) as [Eh|Eh]; [|discriminate] end.
  cbn [negb] in H. unfold lift, decompress_block in H. destruct (lz4_d K data (le_val dsb + 1)) as [v'|] eqn:Ed; [|discriminate].
  cbn [rbind] in H. injection H as -> ->.
  exists hb, lb, szb, dsb, data. repeat split; try assumption; lia.
Qed.

Lemma local_blob K : local (read_blob K).
Proof.
  unfold read_blob. repeat first [apply local_err | apply local_lift | apply local_exact | apply local_le
    | apply local_bind; [|intros] | match goal with |- local (if ?b then _ else _) => destruct b end].
Qed.
Lemma inc_blob K : incremental (read_blob K).
Proof.
  unfold read_blob. repeat first [apply inc_err | apply inc_lift | apply inc_exact | apply inc_le
    | apply inc_bind; [|intros] | match goal with |- incremental (if ?b then _ else _) => destruct b end].
Qed.
Lemma nf_blob K : no_fuel (read_blob K).
Proof.
  unfold read_blob. repeat first [intros ?; discriminate | apply nf_exact | apply nf_le
    | apply nf_bind; [|intros] | match goal with |- no_fuel (if ?b then _ else _) => destruct b end].
  apply nf_lift. unfold decompress_block. destruct (lz4_d _ _ _); discriminate.
Qed.
Lemma uses_blob K : uses 25 (read_blob K).
Proof.
  intros inp v rest H. apply read_blob_inv in H as (hi & lo & sz & ds & data & L1 & L2 & L3 & L4 & -> & _).
  unfold lenN in *. rewrite !app_length. cbn [length]. lia.
Qed.

(* ---------------- the poll-driven reader ---------------- *)

(** [good K ps stream]: [stream] is the frames of the payloads [ps], one after another. *)
Fixpoint framed (K : codec) (ps : list (list N)) : res (list N) :=
  match ps with [] => Ok [] | p :: r => f <- frame K p ;; fs <- framed K r ;; Ok (f ++ fs) end.
Definition payload_ok (K : codec) (p : list N) : Prop :=
  lenN p < 2 ^ 32 /\ exists out, lz4_c K p = Some out /\ lenN out + 9 <= 2 ^ 30.

Lemma frame_ok K p : codec_ok K -> payload_ok K p -> exists f, frame K p = Ok f /\ f <> [] /\
  forall rest, read_blob K (f ++ rest) = Ok (p, rest).
Proof.
  intros HK (H1 & out & H2 & H3). destruct (read_frame K p out [] HK H2 H1 H3) as (f & E & R). exists f. split; [exact E|].
  split.
  - intros ->. discriminate.
  - intros rest. destruct (read_frame K p out rest HK H2 H1 H3) as (f' & E' & R'). rewrite E in E'. injection E' as <-. exact R'.
Qed.
Lemma framed_ok K ps : codec_ok K -> Forall (payload_ok K) ps -> exists fs, framed K ps = Ok fs.
Proof.
  intros HK. induction 1 as [|p ps Hp _ [fs IH]]; [now exists []|]. destruct (frame_ok K p HK Hp) as (f & E & _).
  exists (f ++ fs). cbn [framed]. rewrite E. cbn [rbind]. now rewrite IH.
Qed.

(** Reading one frame off what has arrived of a frame sequence. *)
Lemma blob_prefix K ps fs arrived future tail : codec_ok K -> Forall (payload_ok K) ps -> framed K ps = Ok fs ->
  arrived ++ future = fs ++ tail -> ps <> [] ->
  read_blob K arrived = Err EIo \/
  exists p ps' fs' rest, ps = p :: ps' /\ framed K ps' = Ok fs' /\ read_blob K arrived = Ok (p, rest) /\ rest ++ future = fs' ++ tail.
Proof.
  intros HK HP HF HA Hne. destruct ps as [|p ps]; [congruence|]. inversion HP as [|? ? Hp HP']; subst.
  cbn [framed] in HF. destruct (frame_ok K p HK Hp) as (f & Ef & _ & R). rewrite Ef in HF. cbn [rbind] in HF.
  inv_bind HF. rename a into fs'. injection HF as <-. rewrite <- app_assoc in HA.
  destruct (inc_blob K arrived future) as [E0|E0]; [now left|right]. rewrite HA, R in E0.
  destruct (read_blob K arrived) as [[v rest]|e|] eqn:E1; cbn [extend] in E0; try discriminate E0. injection E0 as <- E0.
  exists p, ps, fs', rest. repeat split; try assumption. now rewrite E0.
Qed.

(** The invariant: what was delivered, then what is pending, then the payloads not yet read,
    is the whole; what has arrived and will arrive is the frames of the latter. *)
Definition d_inv (K : codec) (whole : list N) (done : list N) (future : list N) (s : dreader) : Prop :=
  d_closed s = false /\ d_phase s <> Failed /\ (d_phase s = Reading -> d_pending s = []) /\
  exists ps fs, Forall (payload_ok K) ps /\ framed K ps = Ok fs /\
    d_arrived s ++ future = fs /\ whole = done ++ d_pending s ++ concat ps.

(** One poll keeps the invariant, never errors, and if everything has arrived and something
    is still to be delivered it delivers at least one byte. *)
Lemma poll_loop_inv K whole future n : codec_ok K -> 0 < n -> forall f s done,
  d_inv K whole done future s -> (length (d_arrived s) < f)%nat ->
  exists p s', poll_loop K f s n = (p, s') /\ p <> PError /\
    d_inv K whole (done ++ delivered [p]) future s' /\
    (future = [] -> done <> whole -> exists b bs, p = PReady (b :: bs)).
Proof.
  intros HK Hn. induction f as [|f IH]; intros s done HI Hf; [lia|].
  destruct HI as (HC & HP & HR & ps & fs & H1 & H2 & H3 & H4). cbn [poll_loop].
  destruct (d_pending s) as [|b pend] eqn:Ep.
  - assert (HB : read_blob K (d_arrived s) = Err EIo \/ exists p ps' fs' rest, ps = p :: ps' /\ framed K ps' = Ok fs' /\
      read_blob K (d_arrived s) = Ok (p, rest) /\ rest ++ future = fs').
    { destruct ps as [|p0 ps0]; [left; injection H2 as <-; apply app_eq_nil in H3 as [-> _]; reflexivity|].
      destruct (blob_prefix K _ fs (d_arrived s) future [] HK H1 H2) as [E|(p & ps' & fs' & rest & Q1 & Q2 & Q3 & Q4)];
        [now rewrite app_nil_r|discriminate|now left|]. right. exists p, ps', fs', rest. rewrite app_nil_r in Q4. auto. }
    destruct HB as [E|(p & ps' & fs' & rest & -> & F' & E & A')].
    + unfold poll_future. rewrite E, HC. exists PPending. eexists. split; [reflexivity|]. split; [discriminate|]. split.
      * cbn [delivered flat_map app]. rewrite app_nil_r. split; [reflexivity|]. split; [discriminate|]. split; [intros _; exact Ep|].
        exists ps, fs. cbn [d_arrived d_pending]. rewrite Ep. repeat split; assumption.
      * intros -> Hd. exfalso. rewrite app_nil_r in H3. destruct ps as [|p ps]; [apply Hd; rewrite H4; cbn; now rewrite app_nil_r|]. pose proof (Forall_inv H1) as Hp.
        cbn [framed] in H2. destruct (frame_ok K p HK Hp) as (fr & Ef & _ & R). rewrite Ef in H2. cbn [rbind] in H2.
        inv_bind H2. injection H2 as <-. rewrite H3, R in E. discriminate.
    + unfold poll_future. rewrite E. pose proof (Forall_inv_tail H1) as HP'.
      pose proof (uses_blob K _ _ _ E) as HU.
      destruct (IH {| d_arrived := rest; d_closed := d_closed s; d_phase := Idle; d_pending := p |} done) as (q & s' & R & S); cbn [d_arrived].
      * split; [exact HC|]. split; [discriminate|]. split; [discriminate|]. exists ps', fs'. cbn [d_arrived d_pending].
        repeat split; try assumption. 
      * lia.
      * exists q, s'. split; [exact R|exact S].
  - eexists. eexists. split; [reflexivity|]. split; [discriminate|]. cbn [delivered flat_map]. rewrite app_nil_r. split.
    + split; [exact HC|]. split; [discriminate|]. split; [discriminate|]. exists ps, fs. cbn [d_arrived d_pending].
      repeat split; try assumption. rewrite H4. rewrite <- (firstn_skipn (N.to_nat n) (b :: pend)) at 1. now rewrite <- !app_assoc.
    + intros _ _. destruct (N.to_nat n) eqn:En; [lia|]. cbn [firstn]. eauto.
Qed.

Lemma poll_read_inv K whole future n s done : codec_ok K -> 0 < n -> d_inv K whole done future s ->
  exists p s', poll_read K s n = (p, s') /\ p <> PError /\
    d_inv K whole (done ++ delivered [p]) future s' /\
    (future = [] -> done <> whole -> exists b bs, p = PReady (b :: bs)).
Proof.
  intros HK Hn HI. unfold poll_read. destruct (N.eqb_spec n 0) as [->|_]; [lia|].
  destruct (d_phase s) eqn:Eph.
  - apply (poll_loop_inv K whole future n HK Hn); [assumption|lia].
  - (* resuming the future is what the loop does when nothing is pending *)
    pose proof HI as (_ & _ & HR & _). specialize (HR Eph).
    destruct (poll_loop_inv K whole future n HK Hn (S (S (length (d_arrived s)))) s done HI ltac:(lia)) as (p & s' & E & S').
    exists p, s'. split; [|exact S']. cbn [poll_loop] in E. rewrite HR in E.
    destruct (poll_future K s) as [[|bs|] s1] eqn:E1; [exact E| |exact E].
    assert (L : (length (d_arrived s1) < length (d_arrived s))%nat).
    { unfold poll_future in E1. destruct (read_blob K (d_arrived s)) as [[v rest]|e|] eqn:E2; [|destruct e; try discriminate E1; destruct (d_closed s); discriminate E1|discriminate].
      injection E1 as <- <-. apply uses_blob in E2. cbn [d_arrived]. lia. }
    assert (Fuel : forall f g s, (length (d_arrived s) < f)%nat -> (length (d_arrived s) < g)%nat -> poll_loop K f s n = poll_loop K g s n).
    { clear. induction f as [|f IH]; intros g s Hf Hg; [lia|]. destruct g as [|g]; [lia|]. cbn [poll_loop].
      destruct (d_pending s); [|reflexivity]. destruct (poll_future K s) as [[|bs|] s1] eqn:E1; try reflexivity.
      assert (L : (length (d_arrived s1) < length (d_arrived s))%nat).
      { unfold poll_future in E1. destruct (read_blob K (d_arrived s)) as [[v rest]|e|] eqn:E2; [|destruct e; try discriminate E1; destruct (d_closed s); discriminate E1|discriminate].
        injection E1 as <- <-. apply uses_blob in E2. cbn [d_arrived]. lia. }
      apply IH; lia. }
    transitivity (poll_loop K (S (length (d_arrived s))) s1 n); [apply Fuel; lia|exact E].
  - exfalso. destruct HI as (_ & HP & _). congruence.
Qed.

Lemma delivered_app a b : delivered (a ++ b) = delivered a ++ delivered b.
Proof. unfold delivered. apply flat_map_app. Qed.

(** Any schedule of arrivals and polls. *)
Lemma run_inv K whole : codec_ok K -> forall es s done future, ~ In Close es ->
  d_inv K whole done (arrivals es ++ future) s ->
  let '(os, s') := d_run K s es in
  ~ In PError os /\ d_inv K whole (done ++ delivered os) future s'.
Proof.
  intros HK. induction es as [|e es IH]; intros s done future Hc HI; cbn [d_run].
  - split; [intros []|]. cbn [delivered flat_map]. now rewrite app_nil_r.
  - assert (Hc' : ~ In Close es) by (intros H; apply Hc; now right).
    destruct e as [bs| |n]; [| exfalso; apply Hc; now left |]; cbn [d_step].
    + destruct HI as (A & B & C & ps & fs & H1 & H2 & H3 & H4).
      specialize (IH {| d_arrived := d_arrived s ++ bs; d_closed := d_closed s; d_phase := d_phase s; d_pending := d_pending s |} done future Hc').
      destruct (d_run K _ es) as [os s']. cbn [app]. apply IH.
      split; [exact A|]. split; [exact B|]. split; [exact C|]. exists ps, fs. cbn [d_arrived d_pending]. repeat split; try assumption.
      rewrite <- H3. cbn [arrivals flat_map]. now rewrite <- !app_assoc.
    + cbn [arrivals flat_map app] in HI. fold (arrivals es) in HI.
      destruct (N.eq_dec n 0) as [->|Hn].
      * unfold poll_read. rewrite N.eqb_refl. specialize (IH s done future Hc' HI). destruct (d_run K s es) as [os s'].
        cbn [app]. destruct IH as [I1 I2]. split; [intros [H|H]; [discriminate|auto]|exact I2].
      * destruct (poll_read_inv K whole (arrivals es ++ future) n s done HK ltac:(lia) HI) as (p & s1 & E & P1 & P2 & _).
        rewrite E. specialize (IH s1 (done ++ delivered [p]) future Hc' P2). destruct (d_run K s1 es) as [os s'].
        destruct IH as [I1 I2]. cbn [app]. split; [intros [H|H]; auto|].
        change (p :: os) with ([p] ++ os). rewrite delivered_app, app_assoc. exact I2.
Qed.

Lemma init_inv K ps fs : Forall (payload_ok K) ps -> framed K ps = Ok fs -> d_inv K (concat ps) [] fs d_new.
Proof.
  intros H1 H2. split; [reflexivity|]. split; [discriminate|]. split; [discriminate|]. exists ps, fs. repeat split; assumption.
Qed.

Theorem chunked_delivery K ps fs es future : codec_ok K -> Forall (payload_ok K) ps -> framed K ps = Ok fs ->
  ~ In Close es -> arrivals es ++ future = fs ->
  let '(os, s) := d_run K d_new es in
  ~ In PError os /\ (exists more, delivered os ++ more = concat ps) /\
  (future = [] -> delivered os <> concat ps -> forall n, 0 < n ->
     exists b bs s', poll_read K s n = (PReady (b :: bs), s')).
Proof.
  intros HK H1 H2 Hc HA. pose proof (run_inv K (concat ps) HK es d_new [] future Hc) as R.
  rewrite HA in R. specialize (R (init_inv K ps fs H1 H2)). destruct (d_run K d_new es) as [os s].
  destruct R as [R1 R2]. cbn [app] in R2. split; [exact R1|]. split.
  - destruct R2 as (_ & _ & _ & ps' & fs' & _ & _ & _ & E). rewrite E. eauto.
  - intros -> Hd n Hn. destruct (poll_read_inv K _ [] n s (delivered os) HK Hn R2) as (p & s' & E & _ & _ & L).
    destruct (L eq_refl Hd) as (b & bs & ->). eauto.
Qed.

(** A rejected frame is never delivered, and nothing after it either. *)
Lemma failed_stays K es : forall s, d_phase s = Failed ->
  let '(os, s') := d_run K s es in delivered os = [] /\ d_phase s' = Failed.
Proof.
  induction es as [|e es IH]; intros s Hs; cbn [d_run]; [now split|]. destruct e as [bs| |n]; cbn [d_step].
  - specialize (IH {| d_arrived := d_arrived s ++ bs; d_closed := d_closed s; d_phase := d_phase s; d_pending := d_pending s |} Hs).
    destruct (d_run K _ es). exact IH.
  - specialize (IH {| d_arrived := d_arrived s; d_closed := true; d_phase := d_phase s; d_pending := d_pending s |} Hs).
    destruct (d_run K _ es). exact IH.
  - unfold poll_read. rewrite Hs. destruct (n =? 0).
    + specialize (IH s Hs). destruct (d_run K s es) as [os s']. cbn [app delivered flat_map]. exact IH.
    + specialize (IH s Hs). destruct (d_run K s es) as [os s']. cbn [app delivered flat_map]. exact IH.
Qed.

Lemma bad_frame_fails K s n e : d_phase s = Idle -> d_pending s = [] -> 0 < n ->
  read_blob K (d_arrived s) = Err e -> e <> EIo ->
  exists s', poll_read K s n = (PError, s') /\ d_phase s' = Failed.
Proof.
  intros Hp Hb Hn He Hne. unfold poll_read. destruct (N.eqb_spec n 0); [lia|]. rewrite Hp. cbn [poll_loop]. rewrite Hb.
  unfold poll_future. rewrite He. destruct e; try congruence; eexists; (split; [reflexivity|reflexivity]).
Qed.

(* ---------------- compressed blocks ---------------- *)

Lemma app_nonempty_r {A} (p r : list A) : p = p ++ r -> r = [].
Proof. intros H. rewrite <- (app_nil_r p) in H at 1. now apply app_inv_head in H. Qed.

Lemma read_frames_chunks K U D rev : codec_ok K -> forall ps fs raw b rest fuel,
  Forall (payload_ok K) ps -> framed K ps = Ok fs -> (forall l x, ps = l ++ [x] -> x <> []) ->
  (forall ext, read_block U D rev ((raw ++ concat ps) ++ ext) = Ok (b, ext)) ->
  (length (fs ++ rest) < fuel)%nat ->
  read_frames K U D rev fuel raw (fs ++ rest) = Ok (b, rest).
Proof.
  intros HK. induction ps as [|p ps IH]; intros fs raw b rest fuel HP HF Hlast HR Hfuel.
  - injection HF as <-. specialize (HR []). cbn [concat] in HR. rewrite !app_nil_r in HR. cbn [app].
    destruct fuel; cbn [read_frames]; now rewrite HR.
  - inversion HP as [|? ? Hp HP']; subst. cbn [framed] in HF. destruct (frame_ok K p HK Hp) as (f & Ef & Hfn & R).
    rewrite Ef in HF. cbn [rbind] in HF. inv_bind HF. injection HF as <-.
    assert (Hne : concat (p :: ps) <> []).
    { destruct (exists_last (l := p :: ps) ltac:(discriminate)) as (l & x & El). rewrite El, concat_app. cbn [concat]. rewrite app_nil_r.
      intros H. apply app_eq_nil in H as [_ H]. exact (Hlast l x El H). }
    assert (EIO : read_block U D rev raw = Err EIo).
    { apply (truncated_eio _ (block_local U D rev) (block_incremental U D rev) (raw ++ concat (p :: ps)) raw (concat (p :: ps)) [] b); auto. }
    destruct fuel as [|fuel]; [lia|].
    cbn [read_frames]. rewrite EIO, <- app_assoc, R. apply IH; try assumption; try reflexivity.
    + intros l x El. apply (Hlast (p :: l) x). now rewrite El.
    + intros ext. cbn [concat] in HR. rewrite <- (HR ext), <- !app_assoc. reflexivity.
    + rewrite !app_length in *. destruct f; [congruence|]. cbn [length] in Hfuel. lia.
Qed.

(** A frame that is rejected while the block needs more bytes: an unexpected end of input. *)
Lemma read_frames_rejects K U D rev : codec_ok K -> forall ps fs raw bad e fuel,
  Forall (payload_ok K) ps -> framed K ps = Ok fs -> read_block U D rev (raw ++ concat ps) = Err EIo ->
  read_blob K bad = Err e -> (length fs < fuel)%nat ->
  read_frames K U D rev fuel raw (fs ++ bad) = Err EIo.
Proof.
  intros HK. induction ps as [|p ps IH]; intros fs raw bad e fuel HP HF HR HB Hfuel.
  - injection HF as <-. cbn [concat] in HR. rewrite app_nil_r in HR. cbn [app]. destruct fuel; [lia|]. cbn [read_frames]. now rewrite HR, HB.
  - inversion HP as [|? ? Hp HP']; subst. cbn [framed] in HF. destruct (frame_ok K p HK Hp) as (f & Ef & Hfn & R).
    rewrite Ef in HF. cbn [rbind] in HF. inv_bind HF. injection HF as <-.
    assert (EIO : read_block U D rev raw = Err EIo).
    { destruct (block_incremental U D rev raw (concat (p :: ps))) as [Q|Q]; [exact Q|]. rewrite HR in Q.
      revert Q; destruct (read_block U D rev raw) as [[? ?]| |]; cbn [extend]; intros Q; congruence. }
    destruct fuel as [|fuel]; [lia|]. cbn [read_frames]. rewrite EIO, <- app_assoc, R. apply (IH _ _ _ e); try assumption; try reflexivity.
    + cbn [concat] in HR. now rewrite <- app_assoc.
    + rewrite app_length in Hfuel. destruct f; [congruence|]. cbn [length] in Hfuel. lia.
Qed.

(** A block written by this client, split into any frames, is read back by a client. *)
Theorem compressed_block_roundtrip K U D rev b b' bytes ps fs rest : codec_ok K ->
  write_block D rev b = Ok bytes -> (forall ext, read_block U D rev (bytes ++ ext) = Ok (b', ext)) ->
  concat ps = bytes -> (forall l x, ps = l ++ [x] -> x <> []) -> Forall (payload_ok K) ps -> framed K ps = Ok fs ->
  read_compressed K U D rev (fs ++ rest) = Ok (b', rest).
Proof.
  intros HK _ HR <- Hl HP HF. unfold read_compressed. apply (read_frames_chunks K U D rev HK ps); try assumption; lia.
Qed.
