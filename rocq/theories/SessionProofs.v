From Coq Require Import String Lia.
From Verif Require Import Base Io IoProofs Types Text TypeText TypeTextProofs TypeTextProofs2 Utf8 IndexMap Block BlockSpec BlockProofs ColumnSpec ColumnProofs LowCardProofs WireProofs
  Compression CompressionProofs Progress Protocol ProtocolSpec ProtocolProofs
  Connection ConnectionSpec ConnectionProofs Api ReaderLoop ReaderLoopProofs Session SessionSpec.
Local Open Scope list_scope.
Local Open Scope N_scope.

(* ---------------- the log only grows ---------------- *)
Lemma incoming_app a b : incoming (a ++ b) = incoming a ++ incoming b.
Proof. induction a as [|[]]; cbn; congruence. Qed.

Lemma dispatch_log s q query id w : exists new, k_log (dispatch s q query id w) = k_log s ++ new /\ incoming new = [].
Proof.
  destruct w; cbn; eexists; (split; [|shelve]).
  - rewrite <- app_assoc. reflexivity.
  - symmetry. apply app_nil_r.
  - reflexivity.
  Unshelve. all: reflexivity.
Qed.
Lemma next_log s id w : exists new, k_log (next_query s id w) = k_log s ++ new /\ incoming new = [].
Proof.
  unfold next_query. destruct (k_pending s) as [|[q t] r].
  - exists []. now rewrite app_nil_r.
  - apply (dispatch_log (set_pending s r)).
Qed.
Lemma deliver_log s q i next id w : exists new, k_log (deliver s q i next id w) = k_log s ++ new /\ incoming new = [].
Proof.
  assert (N : exists new, k_log s = k_log s ++ new /\ incoming new = []) by (exists []; now rewrite app_nil_r).
  unfold deliver, delivered. destruct (k_view s q); try (destruct next; [apply (next_log (set_view (set_task s TSelect) q _))|exact N]).
  destruct (send_item s0 i).
  - destruct next; [apply (next_log (set_view (set_task (set_view s q (VStream st)) TSelect) q _))|exact N].
  - exact N.
Qed.
Definition event_packets (ev : event) : list packet := match ev with Packet p _ _ => [p] | _ => [] end.
Lemma receive_log s p id w : exists new, k_log (receive_packet s p id w) = k_log s ++ new /\ incoming new = [p].
Proof.
  assert (G : forall s', k_log s' = k_log s ++ [LRecv p] -> exists new, k_log s' = k_log s ++ new /\ incoming new = [p]).
  { intros s' H. exists [LRecv p]. now split. }
  assert (T : forall s', (exists new, k_log s' = (k_log s ++ [LRecv p]) ++ new /\ incoming new = []) -> exists new, k_log s' = k_log s ++ new /\ incoming new = [p]).
  { intros s' (new & E1 & E2). exists (LRecv p :: new). rewrite E1, <- app_assoc. split; [reflexivity|]. cbn. now rewrite E2. }
  unfold receive_packet. change (k_exec (add_log s (LRecv p))) with (k_exec s).
  destruct p; try (apply G; reflexivity).
  - destruct (k_exec s) as [[q u]|]; [|apply G; reflexivity]. apply T. apply (deliver_log (add_log s _)).
  - destruct (k_exec s) as [[q u]|]; [|apply G; reflexivity]. apply T. apply (deliver_log (set_exec (add_log s _) None)).
  - destruct (k_exec s) as [[q u]|]; apply G; reflexivity.
  - destruct (k_exec s) as [[q u]|]; [|apply G; reflexivity]. apply T. apply (next_log (set_view (set_exec (add_log s _) None) q _)).
Qed.
Lemma step_log C s ev s' : step C s ev = Some s' -> exists new, k_log s' = k_log s ++ new /\ incoming new = event_packets ev.
Proof.
  assert (N : exists new, k_log s = k_log s ++ new /\ incoming new = []) by (exists []; now rewrite app_nil_r).
  intros H. destruct ev; cbn [step event_packets] in *.
  - destruct (k_open s), (k_task s); try discriminate H; destruct (Nat.ltb _ _); try discriminate H; injection H as <-; exact N.
  - destruct (k_open s), (k_task s); try discriminate H; (destruct (k_view s q); try discriminate H); destruct (s_rx _ && _); try discriminate H; injection H as <-; exact N.
  - destruct (k_task s); try discriminate H. destruct (k_queue s) as [|r rest]; [discriminate H|]. injection H as <-.
    destruct r; cbn [handle_request].
    + change (k_pending (set_queue s rest)) with (k_pending s). change (k_exec (set_queue s rest)) with (k_exec s).
      destruct (k_pending s); [destruct (k_exec s)|]; try exact N. apply (dispatch_log (set_queue s rest)).
    + destruct (send_data C b [] false); try exact N. destruct w; try exact N. exists [LData q b]. now split.
  - destruct (k_task s); try discriminate H. injection H as <-. apply receive_log.
  - destruct (k_task s); try discriminate H. injection H as <-. exact N.
  - destruct (k_task s); try discriminate H. destruct (k_view s q); try discriminate H. destruct (send_item s0 i); try discriminate H.
    injection H as <-. apply deliver_log.
  - destruct (k_view s q); try discriminate H. destruct (s_rx s0); try discriminate H. destruct (s_buf s0); try discriminate H. injection H as <-. exact N.
  - destruct (k_view s q); try discriminate H; injection H as <-; exact N.
  - injection H as <-. exact N.
  - destruct (k_task s); try discriminate H. destruct (k_open s); try discriminate H. destruct (k_queue s); try discriminate H. injection H as <-. exact N.
Qed.
Lemma written_new C s s' new : k_log s' = k_log s ++ new -> written C s s' = flat_map (entry_bytes C) new.
Proof. intros H. unfold written. rewrite H, skipn_app, skipn_all, Nat.sub_diag. reflexivity. Qed.

Lemma callers_step C C' s ev : callers_event ev = true -> step C s ev = step C' s ev.
Proof. destruct ev; cbn; try discriminate; reflexivity. Qed.
Lemma callers_quiet C s ev s' : callers_event ev = true -> step C s ev = Some s' ->
  k_log s' = k_log s /\ k_task s' = k_task s.
Proof.
  intros E H. destruct ev; try discriminate E; cbn [step] in H.
  - destruct (k_open s), (k_task s) eqn:?; try discriminate H; destruct (Nat.ltb _ _); try discriminate H; injection H as <-; auto.
  - destruct (k_open s), (k_task s) eqn:?; try discriminate H; (destruct (k_view s q); try discriminate H); destruct (s_rx _ && _); try discriminate H; injection H as <-; auto.
  - destruct (k_view s q); try discriminate H. destruct (s_rx s0); try discriminate H. destruct (s_buf s0); try discriminate H. injection H as <-. auto.
  - destruct (k_view s q); try discriminate H; injection H as <-; auto.
  - injection H as <-. auto.
Qed.

(* ---------------- the invariant of the outgoing bytes ---------------- *)
Definition hello_bytes (O : options) : list N := send_hello (o_database O) (o_user O) (o_password O).
Definition zinv (O : options) (B : conn) (z : session) : Prop :=
  match z_phase z with
  | ZStart => z_out z = [] /\ k_log (z_conn z) = [] /\ k_task (z_conn z) = TSelect /\ forall C, reachable C (z_conn z)
  | ZHandshake => (z_out z = hello_bytes O \/ z_out z = [] /\ k_task (z_conn z) = TEnded) /\
      (k_task (z_conn z) = TSelect \/ k_task (z_conn z) = TEnded) /\ k_log (z_conn z) = [] /\ forall C, reachable C (z_conn z)
  | ZOpen h => let C := at_revision B (h_revision h) in
      reachable C (z_conn z) /\ z_out z = hello_bytes O ++ flat_map (entry_bytes C) (k_log (z_conn z))
  end.

Lemma reach_finish C s : reachable C s -> k_task s = TSelect -> reachable C (finish s).
Proof. intros R T. apply (reach_step C s ReadError); [exact R|]. cbn [step]. now rewrite T. Qed.

Lemma loop_inv O B z h ev r z' : zinv O B z -> z_phase z = ZOpen h -> loop_step (at_revision B (h_revision h)) z ev r = Some z' ->
  zinv O B z' /\ z_phase z' = ZOpen h /\ z_reader z' = r /\
  exists new, k_log (z_conn z') = k_log (z_conn z) ++ new /\ incoming new = event_packets ev.
Proof.
  intros I P H. unfold loop_step in H. destruct (step _ (z_conn z) ev) as [s|] eqn:E; [|discriminate H]. injection H as <-.
  destruct (step_log _ _ _ _ E) as (new & L & IN).
  unfold zinv in *. cbn [z_phase z_conn z_out z_reader]. rewrite P in *. destruct I as (R & OUT).
  split; [split|split; [reflexivity|split; [reflexivity|]]].
  - exact (reach_step _ _ _ _ R E).
  - rewrite OUT, (written_new _ _ _ _ L), L, flat_map_app, app_assoc. reflexivity.
  - exists new. now split.
Qed.

Lemma zstep_inv O B z e z' : zinv O B z -> zstep O B z e = Some z' -> zinv O B z'.
Proof.
  intros I H. destruct e; cbn [zstep] in H.
  - destruct (z_phase z) eqn:P; try discriminate H. unfold zinv in I. rewrite P in I. destruct I as (O1 & L & T & R).
    assert (INJ : forall a b : session, Some a = Some b -> a = b) by congruence. apply INJ in H. subst z'. destruct ok; unfold zinv, gives_up; cbn [z_phase z_conn z_out].
    + rewrite O1. cbn [app]. repeat split; try assumption; left; [reflexivity|assumption].
    + split; [right; split; [exact O1|reflexivity]|]. split; [now right|]. split; [exact L|]. intros C. now apply reach_finish.
  - destruct (callers_event ev) eqn:E; [|discriminate H]. destruct (step B (z_conn z) ev) as [s|] eqn:S; [|discriminate H]. injection H as <-.
    destruct (callers_quiet _ _ _ _ E S) as (L & T).
    assert (RR : forall C, reachable C (z_conn z) -> reachable C s).
    { intros C R. apply (reach_step C (z_conn z) ev); [exact R|]. now rewrite (callers_step C B). }
    unfold zinv in *. cbn [z_phase z_conn z_out]. destruct (z_phase z); rewrite ?L, ?T.
    + destruct I as (I1 & I2 & I3 & I4). repeat split; auto.
    + destruct I as (I1 & I2 & I3 & I4). repeat split; auto.
    + destruct I as (I1 & I2). split; auto.
  - injection H as <-. unfold zinv in *. cbn [with_reader z_phase z_conn z_out]. exact I.
  - destruct (k_task (z_conn z)) eqn:T; try discriminate H. destruct (z_phase z) eqn:P; [discriminate H| |].
    + pose proof I as I0. unfold zinv in I. rewrite P in I. destruct I as (I1 & I2 & I3 & I4).
      assert (G : zinv O B (gives_up z)).
      { unfold zinv, gives_up. cbn [z_phase z_conn z_out]. rewrite P. split; [|split; [now right|split; [exact I3|]]].
        - destruct I1 as [I1|[_ I1]]; [now left|congruence].
        - intros C. apply reach_finish; auto. }
      destruct (receive_hello _ _) as [[h rest]|[]|]; injection H as <-; try exact G.
      * unfold zinv. cbn [z_phase z_conn z_out]. rewrite I3. cbn [flat_map]. rewrite app_nil_r. split; [apply I4|].
        destruct I1 as [I1|[_ I1]]; [exact I1|congruence].
      * exact I0.
    + destruct (read_packet _ _) as [[p rest]|[]|]; try (eapply (loop_inv O B z h); eauto; fail).
      injection H as <-. exact I.
  - destruct (z_phase z) eqn:P; try discriminate H. eapply (loop_inv O B z h); eauto.
  - destruct (z_phase z) eqn:P; try discriminate H. eapply (loop_inv O B z h); eauto.
  - destruct (z_phase z) eqn:P; try discriminate H. eapply (loop_inv O B z h); eauto.
  - destruct (z_phase z) eqn:P; try discriminate H; destruct (k_task (z_conn z)) eqn:T; try discriminate H; injection H as <-;
      unfold zinv, gives_up in *; cbn [z_phase z_conn z_out]; rewrite P in *.
    + destruct I as (I1 & I2 & I3 & I4). split; [|split; [now right|split; [exact I3|]]].
      * destruct I1 as [I1|[_ I1]]; [now left|congruence].
      * intros C. apply reach_finish; auto.
    + destruct I as (I1 & I2). split; [now apply reach_finish|exact I2].
Qed.
Theorem live_inv O B z : live O B z -> zinv O B z.
Proof.
  induction 1 as [|z e z' _ IH H]; [|exact (zstep_inv _ _ _ _ _ IH H)].
  unfold zinv. cbn. repeat split. intros C. constructor.
Qed.
Lemma zrun_live O B es : forall z z', live O B z -> zrun O B z es = Some z' -> live O B z'.
Proof.
  induction es as [|e es IH]; cbn [zrun]; intros z z' L H; [now injection H as <-|].
  destruct (zstep O B z e) eqn:E; [|discriminate H]. exact (IH _ _ (live_step _ _ _ _ _ L E) H).
Qed.

(* ---------------- what the server reads ---------------- *)
Lemma fits_nil : name_fits [].
Proof. split; [reflexivity|vm_compute; discriminate]. Qed.
Lemma query_read C q query id rest : name_fits query -> name_fits id ->
  exists body info, entry_bytes C (LQuery q query id) ++ rest = 1 :: body ++ rest /\
  server_query (c_rev C) 54448 (body ++ rest) = Ok ((id, info, [], 2, (if c_lz4 C then 1 else 0), query), rest).
Proof.
  intros F1 F2. destruct (server_reads_query (c_rev C) (client_query C id query) rest) as (body & E1 & E2).
  - split; [exact F2|]. split; [|split; [reflexivity|exact F1]].
    repeat split; try reflexivity; try (vm_compute; discriminate). now left.
  - exists body. eexists. split; [|exact E2]. cbn [entry_bytes]. rewrite E1. reflexivity.
Qed.

Lemma data_read C q b rest : tzdb_ok (c_tz C) -> (c_lz4 C = true -> codec_ok (c_codec C)) -> entry_ok C (LData q b) ->
  exists body rest1 b', entry_bytes C (LData q b) ++ rest = 2 :: body ++ rest /\
  dec_str (body ++ rest) = Ok ([], rest1) /\ read_payload C rest1 = Ok (b', rest) /\ same_block b b'.
Proof.
  intros D K (B1 & B2 & B3).
  destruct (block_roundtrip (c_uni C) (c_tz C) (c_rev C) b D B1 B2) as (bytes & b' & W & R & S1 & S2 & S3 & S4 & _).
  assert (SB : same_block b b') by (repeat split; assumption).
  assert (P : exists pay, (if c_lz4 C then write_compressed (c_codec C) (c_tz C) (c_rev C) b else write_block (c_tz C) (c_rev C) b) = Ok pay /\
      read_payload C (pay ++ rest) = Ok (b', rest)).
  { unfold read_payload. destruct (c_lz4 C).
    - specialize (K eq_refl). specialize (B3 eq_refl _ W).
      destruct (frame_ok _ _ K B3) as (f & F1 & _ & F3). exists f. unfold write_compressed. rewrite W. cbn [rbind]. split; [exact F1|].
      apply (compressed_block_roundtrip (c_codec C) (c_uni C) (c_tz C) (c_rev C) b b' bytes [bytes] f rest K W R).
      + cbn [concat]. apply app_nil_r.
      + intros l x E. destruct l as [|y [|? ?]]; try discriminate E. injection E as <-. intros ->.
        pose proof (R []) as R0. cbn [app] in R0. unfold read_block in R0. destruct (0 <? c_rev C); vm_compute in R0; discriminate R0.
      + now constructor.
      + cbn [framed]. rewrite F1. cbn [rbind]. now rewrite app_nil_r.
    - exists bytes. split; [exact W|apply R]. }
  destruct P as (pay & P1 & P2).
  exists (write_text [] ++ pay), (pay ++ rest), b'. split; [|split; [|split; [exact P2|exact SB]]].
  - cbn [entry_bytes]. unfold send_data. rewrite P1. cbn [rbind]. reflexivity.
  - rewrite <- app_assoc. change write_text with enc_str.
    pose proof (dstr_step (fun s => rret s) [] (pay ++ rest) fits_nil) as DS. unfold rdbind, rret in DS.
    destruct (dec_str (enc_str [] ++ pay ++ rest)) as [[a r]| |]; exact DS || congruence.
Qed.

Theorem server_reads_log C : tzdb_ok (c_tz C) -> (c_lz4 C = true -> codec_ok (c_codec C)) -> forall log, Forall (entry_ok C) log ->
  exists ms, server_reads C (flat_map (entry_bytes C) log) ms [] /\ Forall2 sent_as (filter outgoing log) ms.
Proof.
  intros D K log F. induction F as [|e log E F IH]; [exists []; split; constructor|].
  destruct IH as (ms & R & S). destruct e as [q query id|q b|p]; cbn [flat_map filter outgoing].
  - destruct E as (E1 & E2). destruct (query_read C q query id (flat_map (entry_bytes C) log) E1 E2) as (body & info & Q1 & Q2).
    exists (MQuery id query :: ms). rewrite Q1. split; [eapply sr_query; eauto|]. constructor; [now split|exact S].
  - destruct (data_read C q b (flat_map (entry_bytes C) log) D K E) as (body & rest1 & b' & Q1 & Q2 & Q3 & Q4).
    exists (MData [] b' :: ms). rewrite Q1. split; [eapply sr_data; eauto|]. constructor; [now split|exact S].
  - exists ms. split; [exact R|exact S].
Qed.

(** The reading is unique: the server cannot make anything else of those bytes. *)
Lemma server_reads_det C bs ms l : server_reads C bs ms l -> l = [] -> forall ms' l', server_reads C bs ms' l' -> l' = [] -> ms = ms'.
Proof.
  induction 1 as [bs|bs id info secret stage compression query rest ms left Q _ _ _ R IH|bs table b rest1 rest ms left Q1 Q2 R IH];
    intros E ms' l' H E'; subst.
  - inversion H; reflexivity.
  - inversion H; subst; try congruence. rewrite Q in *. 
    match goal with H : Ok _ = Ok _ |- _ => injection H; intros; subst end. f_equal. eapply IH; eauto.
  - inversion H; subst; try congruence. rewrite Q1 in *.
    match goal with H : Ok (table, _) = Ok _ |- _ => injection H; intros; subst end. rewrite Q2 in *.
    match goal with H : Ok (b, _) = Ok _ |- _ => injection H; intros; subst end. f_equal. eapply IH; eauto.
Qed.

(* ---------------- the incoming bytes ---------------- *)
Lemma receive_hello_more C bs more : 
  match receive_hello C bs with Ok (h, rest) => receive_hello C (bs ++ more) = Ok (h, rest ++ more) | _ => True end.
Proof.
  unfold receive_hello, rdbind. pose proof (packet_incremental C bs more) as [E|E].
  - now rewrite E.
  - destruct (read_packet C bs) as [[p rest]| |]; try exact I. rewrite E. destruct p; exact I || reflexivity.
Qed.
Lemma zrun_app O B a : forall b z, zrun O B z (a ++ b) = match zrun O B z a with Some z' => zrun O B z' b | None => None end.
Proof. induction a as [|e a IH]; intros b z; cbn [app zrun]; [reflexivity|]. destruct (zstep O B z e); [apply IH|reflexivity]. Qed.
Lemma zarrived_app a b : zarrived (a ++ b) = zarrived a ++ zarrived b.
Proof. induction a as [|[]]; cbn [app zarrived]; rewrite ?IHa, <- ?app_assoc; congruence || reflexivity. Qed.
Lemma calm_init O B es e : calm O B (es ++ [e]) -> calm O B es.
Proof. intros H es1 id w es2 z E R. apply (H es1 id w (es2 ++ [e]) z); [|exact R]. rewrite E, <- app_assoc. reflexivity. Qed.

Definition jinv (B : conn) (es : list zevent) (z : session) : Prop :=
  let r := z_reader z in
  match z_phase z with
  | ZStart | ZHandshake => r_partial r ++ r_avail r = zarrived es /\ r_failed r = false /\ r_packets r = []
  | ZOpen h => let C := at_revision B (h_revision h) in
      r_packets r = incoming (k_log (z_conn z)) /\
      exists rest0 left, receive_hello (at_revision B 0) (zarrived es) = Ok (h, rest0) /\
        decodes C rest0 (r_packets r) left /\ (r_failed r = false -> left = r_partial r ++ r_avail r) /\
        (r_failed r = true -> k_task (z_conn z) = TEnded)
  end.

Lemma ended_step C s ev : k_task s = TEnded -> callers_event ev = false -> step C s ev = None.
Proof. intros T E. destruct ev; try discriminate E; cbn [step]; rewrite T; reflexivity. Qed.

Lemma jstep O B es e z z' : zrun O B session_init es = Some z -> calm O B (es ++ [e]) -> jinv B es z -> zstep O B z e = Some z' ->
  jinv B (es ++ [e]) z'.
Proof.
  intros RUN CALM J H. unfold jinv. rewrite zarrived_app.
  destruct e; cbn [zarrived] in *; rewrite ?app_nil_r.
  - cbn [zstep] in H. destruct (z_phase z) eqn:P; try discriminate H. assert (INJ : forall a b : session, Some a = Some b -> a = b) by congruence. apply INJ in H. subst z'.
    unfold jinv in J. rewrite P in J. destruct ok; exact J.
  - cbn [zstep] in H. destruct (callers_event ev) eqn:E; [|discriminate H]. destruct (step B (z_conn z) ev) as [s|] eqn:S; [|discriminate H]. injection H as <-.
    destruct (callers_quiet _ _ _ _ E S) as (L & T). cbn [z_phase z_conn z_reader]. rewrite L, T. exact J.
  - cbn [zstep] in H. injection H as <-. cbn [with_reader z_phase z_conn z_reader]. unfold jinv in J. destruct (z_phase z).
    + destruct J as (J1 & J2 & J3). unfold rstep. rewrite J2. cbn. rewrite app_assoc, J1. auto.
    + destruct J as (J1 & J2 & J3). unfold rstep. rewrite J2. cbn. rewrite app_assoc, J1. auto.
    + destruct J as (J1 & rest0 & left & J2 & J3 & J4 & J5).
      pose proof (receive_hello_more (at_revision B 0) (zarrived es) bs) as M. rewrite J2 in M.
      unfold rstep. destruct (r_failed (z_reader z)) eqn:F.
      * split; [exact J1|]. exists (rest0 ++ bs), (left ++ bs). split; [exact M|]. split; [now apply decodes_extend|]. split; intros X; cbn in X; [congruence|auto].
      * split; [exact J1|]. exists (rest0 ++ bs), (left ++ bs). split; [exact M|]. split; [now apply decodes_extend|]. split; [|intros X; cbn in X; congruence].
        intros _. cbn. rewrite J4 by reflexivity. now rewrite app_assoc.
  - cbn [zstep] in H. destruct (k_task (z_conn z)) eqn:T; try discriminate H. destruct (z_phase z) eqn:P; [discriminate H| |].
    + unfold jinv in J. rewrite P in J. pose proof J as J0. destruct J as (J1 & J2 & J3). rewrite J1 in H.
      destruct (receive_hello (at_revision B 0) (zarrived es)) as [[h rest]|[]|] eqn:R; injection H as <-; cbn [gives_up with_reader z_phase z_reader]; rewrite ?P; try exact J0.
      * cbn [r_packets r_partial r_avail r_failed z_conn]. assert (Z : k_log (z_conn z) = []).
        { pose proof (live_inv O B z (zrun_live O B es session_init z (live_init O B) RUN)) as I. unfold zinv in I. rewrite P in I. apply I. }
        rewrite J3, Z. split; [reflexivity|]. exists rest, rest. split; [reflexivity|]. split; [constructor|]. split; [reflexivity|]. rewrite J2. discriminate.
      * cbn [r_packets r_partial r_avail r_failed]. rewrite app_nil_r. auto.
    + pose proof (live_inv O B z (zrun_live O B es session_init z (live_init O B) RUN)) as I.
      unfold jinv in J. rewrite P in J. destruct J as (J1 & rest0 & left & J2 & J3 & J4 & J5).
      assert (F : r_failed (z_reader z) = false) by (destruct (r_failed (z_reader z)); [specialize (J5 eq_refl); congruence|reflexivity]).
      specialize (J4 F). cbv zeta in H. unfold rstep in H. rewrite F, <- J4 in H.
      destruct (read_packet (at_revision B (h_revision h)) left) as [[p rest]|[]|] eqn:R.
      1:{ destruct (loop_inv O B z h _ _ z' I P H) as (_ & P' & RD & new & L & IN). rewrite P', RD. cbn [r_packets r_partial r_avail r_failed].
          rewrite L, incoming_app, IN, J1. split; [reflexivity|]. exists rest0, rest. split; [exact J2|]. split; [|split; [reflexivity|discriminate]].
          rewrite <- J1. now apply (decodes_snoc _ _ _ left). }
      all: try (injection H as <-; cbn [with_reader z_phase z_reader]; rewrite P; cbn [r_packets r_partial r_avail r_failed z_conn];
          split; [exact J1|]; exists rest0, left; split; [exact J2|]; split; [exact J3|]; split; [rewrite app_nil_r; reflexivity|discriminate]).
      all: destruct (loop_inv O B z h _ _ z' I P H) as (_ & P' & RD & new & L & IN); rewrite P', RD; cbn [r_packets r_partial r_avail r_failed];
          rewrite L, incoming_app, IN; cbn [event_packets]; rewrite app_nil_r; split; [exact J1|];
          exists rest0, left; split; [exact J2|]; split; [exact J3|]; split; [discriminate|]; intros _;
          unfold loop_step in H; cbn [step] in H; rewrite T in H; injection H as <-; reflexivity.
  - cbn [zstep] in H. destruct (z_phase z) eqn:P; try discriminate H.
    pose proof (live_inv O B z (zrun_live O B es session_init z (live_init O B) RUN)) as I.
    unfold jinv in J. rewrite P in J. destruct J as (J1 & rest0 & left & J2 & J3 & J4 & J5).
    destruct (r_failed (z_reader z)) eqn:F.
    { unfold loop_step in H. rewrite (ended_step _ _ (Take id w) (J5 eq_refl) eq_refl) in H. discriminate H. }
    destruct (loop_inv O B z h _ _ z' I P H) as (_ & P' & RD & new & L & IN). rewrite P', RD. unfold rstep. rewrite F. cbn [r_packets r_partial r_avail r_failed].
    rewrite L, incoming_app, IN. cbn [event_packets]. rewrite app_nil_r. split; [exact J1|].
    exists rest0, left. split; [exact J2|]. split; [exact J3|]. split; [|discriminate]. intros _. rewrite (J4 eq_refl).
    rewrite (CALM es id w [] z eq_refl RUN). reflexivity.
  - cbn [zstep] in H. destruct (z_phase z) eqn:P; try discriminate H.
    pose proof (live_inv O B z (zrun_live O B es session_init z (live_init O B) RUN)) as I.
    unfold jinv in J. rewrite P in J. destruct J as (J1 & rest0 & left & J2 & J3 & J4 & J5).
    destruct (r_failed (z_reader z)) eqn:F.
    { unfold loop_step in H. rewrite (ended_step _ _ (Resume id w) (J5 eq_refl) eq_refl) in H. discriminate H. }
    destruct (loop_inv O B z h _ _ z' I P H) as (_ & P' & RD & new & L & IN). rewrite P', RD.
    rewrite L, incoming_app, IN. cbn [event_packets]. rewrite app_nil_r. split; [exact J1|].
    exists rest0, left. split; [exact J2|]. split; [exact J3|]. split; [|rewrite F; discriminate]. intros _. now apply J4.
  - cbn [zstep] in H. destruct (z_phase z) eqn:P; try discriminate H.
    pose proof (live_inv O B z (zrun_live O B es session_init z (live_init O B) RUN)) as I.
    unfold jinv in J. rewrite P in J. destruct J as (J1 & rest0 & left & J2 & J3 & J4 & J5).
    destruct (r_failed (z_reader z)) eqn:F.
    { unfold loop_step in H. rewrite (ended_step _ _ Closed (J5 eq_refl) eq_refl) in H. discriminate H. }
    destruct (loop_inv O B z h _ _ z' I P H) as (_ & P' & RD & new & L & IN). rewrite P', RD.
    rewrite L, incoming_app, IN. cbn [event_packets]. rewrite app_nil_r. split; [exact J1|].
    exists rest0, left. split; [exact J2|]. split; [exact J3|]. split; [|rewrite F; discriminate]. intros _. now apply J4.
  - cbn [zstep] in H. unfold jinv in J. destruct (z_phase z) eqn:P; try discriminate H; destruct (k_task (z_conn z)) eqn:T; try discriminate H; injection H as <-;
      cbn [gives_up z_phase z_reader]; rewrite P; [exact J|].
    cbn [z_conn finish k_log k_task]. destruct J as (J1 & rest0 & left & J2 & J3 & J4 & J5). split; [exact J1|]. exists rest0, left. auto.
Qed.
Theorem session_reads O B es : forall z, zrun O B session_init es = Some z -> calm O B es -> jinv B es z.
Proof.
  induction es as [|e es IH] using rev_ind; intros z R K.
  - injection R as <-. cbn. auto.
  - rewrite zrun_app in R. destruct (zrun O B session_init es) as [z0|] eqn:E; [|discriminate R].
    cbn [zrun] in R. destruct (zstep O B z0 e) as [z1|] eqn:S; [|discriminate R]. injection R as <-.
    apply (jstep O B es e z0 z1 E K); [|exact S]. apply IH; [reflexivity|]. now apply calm_init in K.
Qed.

(** The greeting, whatever the schedule. *)
Definition hinv (B : conn) (es : list zevent) (z : session) : Prop :=
  match z_phase z with
  | ZStart | ZHandshake => r_partial (z_reader z) ++ r_avail (z_reader z) = zarrived es /\ r_failed (z_reader z) = false
  | ZOpen h => exists rest, receive_hello (at_revision B 0) (zarrived es) = Ok (h, rest)
  end.
Lemma loop_phase C z ev r z' : loop_step C z ev r = Some z' -> z_phase z' = z_phase z.
Proof. unfold loop_step. destruct (step C (z_conn z) ev); [|discriminate]. intros H. injection H as <-. reflexivity. Qed.
Lemma hstep O B es e z z' : hinv B es z -> zstep O B z e = Some z' -> hinv B (es ++ [e]) z'.
Proof.
  intros J H. unfold hinv in *. rewrite zarrived_app.
  assert (INJ : forall a b : session, Some a = Some b -> a = b) by congruence.
  destruct e; cbn [zarrived zstep] in *; rewrite ?app_nil_r.
  - destruct (z_phase z); try discriminate H. apply INJ in H. subst z'. destruct ok; exact J.
  - destruct (callers_event ev); [|discriminate H]. destruct (step B (z_conn z) ev) as [s|]; [|discriminate H]. injection H as <-. exact J.
  - injection H as <-. cbn [with_reader z_phase z_reader]. destruct (z_phase z).
    + destruct J as (J1 & J2). unfold rstep. rewrite J2. cbn. now rewrite app_assoc, J1.
    + destruct J as (J1 & J2). unfold rstep. rewrite J2. cbn. now rewrite app_assoc, J1.
    + destruct J as (rest & J). pose proof (receive_hello_more (at_revision B 0) (zarrived es) bs) as M. rewrite J in M. eauto.
  - destruct (k_task (z_conn z)); try discriminate H. destruct (z_phase z) eqn:P; [discriminate H| |].
    + destruct J as (J1 & J2). rewrite J1 in H. destruct (receive_hello (at_revision B 0) (zarrived es)) as [[h rest]|[]|] eqn:R; injection H as <-;
        cbn [gives_up with_reader z_phase z_reader r_partial r_avail r_failed]; rewrite ?P, ?app_nil_r; eauto.
    + assert (PH : z_phase z' = ZOpen h).
      { destruct (read_packet _ _) as [[p rest]|[]|]; try (rewrite <- P; eapply loop_phase; exact H). injection H as <-. exact P. }
      now rewrite PH.
  - destruct (z_phase z) eqn:P; try discriminate H. apply loop_phase in H. rewrite H, P. exact J.
  - destruct (z_phase z) eqn:P; try discriminate H. apply loop_phase in H. rewrite H, P. exact J.
  - destruct (z_phase z) eqn:P; try discriminate H. apply loop_phase in H. rewrite H, P. exact J.
  - destruct (z_phase z) eqn:P; try discriminate H; destruct (k_task (z_conn z)); try discriminate H; injection H as <-; cbn [gives_up z_phase]; rewrite P; exact J.
Qed.
Theorem session_greeted O B es : forall z, zrun O B session_init es = Some z -> hinv B es z.
Proof.
  induction es as [|e es IH] using rev_ind; intros z R.
  - injection R as <-. cbn. auto.
  - rewrite zrun_app in R. destruct (zrun O B session_init es) as [z0|] eqn:E; [|discriminate R].
    cbn [zrun] in R. destruct (zstep O B z0 e) as [z1|] eqn:S; [|discriminate R]. injection R as <-.
    exact (hstep O B es e z0 z1 (IH z0 eq_refl) S).
Qed.

(* ---------------- the queries the server sees ---------------- *)
Definition asked (ms : list message) : list text := flat_map (fun m => match m with MQuery _ q => [q] | _ => [] end) ms.
Lemma asked_sent log : forall ms, Forall2 sent_as (filter outgoing log) ms -> asked ms = map snd (sent_queries log).
Proof.
  induction log as [|e log IH]; intros ms F.
  - cbn in F. now inversion F.
  - destruct e as [q query id|q b|p]; cbn [filter outgoing] in F.
    + inversion F as [|a m l1 l2 S F']; subst. destruct m; [|destruct S]. destruct S as (S1 & S2). subst. cbn [asked flat_map sent_queries map snd app].
      f_equal. now apply IH.
    + inversion F as [|a m l1 l2 S F']; subst. destruct m; [destruct S|]. cbn [asked flat_map sent_queries app]. now apply IH.
    + cbn [sent_queries]. now apply IH.
Qed.
Lemma number_snd l : forall n, map snd (number n l) = l.
Proof. induction l; intros n; cbn; congruence. Qed.

(** Checking [calm] by running. *)
Fixpoint calmb (O : options) (B : conn) (z : session) (es : list zevent) : bool :=
  match es with
  | [] => true
  | e :: es => (match e with ZTake _ _ => match r_partial (z_reader z) with [] => true | _ => false end | _ => true end) &&
      match zstep O B z e with Some z' => calmb O B z' es | None => true end
  end.
Lemma calmb_calm O B es : calmb O B session_init es = true -> calm O B es.
Proof.
  intros H es1 id w es2 z E R. subst es. revert H R. generalize session_init. induction es1 as [|e es1 IH]; intros z0 H R.
  - cbn [app calmb zrun] in *. injection R as <-. apply andb_prop in H as (H & _). now destruct (r_partial (z_reader z0)).
  - cbn [app calmb zrun] in *. apply andb_prop in H as (_ & H). destruct (zstep O B z0 e); [|discriminate R]. exact (IH _ H R).
Qed.

(* ---------------- what was submitted ---------------- *)

Definition event_query (ev : event) : list text := match ev with Submit query => [query] | _ => [] end.
Lemma dispatch_submitted s q query id w : k_submitted (dispatch s q query id w) = k_submitted s.
Proof. destruct w; reflexivity. Qed.
Lemma next_submitted s id w : k_submitted (next_query s id w) = k_submitted s.
Proof. unfold next_query. destruct (k_pending s) as [|[q t] r]; [reflexivity|]. apply (dispatch_submitted (set_pending s r)). Qed.
Lemma deliver_submitted s q i next id w : k_submitted (deliver s q i next id w) = k_submitted s.
Proof.
  unfold deliver, delivered. destruct (k_view s q); try (destruct next; [apply (next_submitted (set_view (set_task s TSelect) q _))|reflexivity]).
  destruct (send_item s0 i); [|reflexivity]. destruct next; [apply (next_submitted (set_view (set_task (set_view s q (VStream st)) TSelect) q _))|reflexivity].
Qed.
Lemma receive_submitted s p id w : k_submitted (receive_packet s p id w) = k_submitted s.
Proof.
  unfold receive_packet. change (k_exec (add_log s (LRecv p))) with (k_exec s). destruct p; try reflexivity; destruct (k_exec s) as [[q u]|]; try reflexivity.
  - apply (deliver_submitted (add_log s _)).
  - apply (deliver_submitted (set_exec (add_log s _) None)).
  - apply (next_submitted (set_view (set_exec (add_log s _) None) q _)).
Qed.
Lemma step_submitted C s ev s' : step C s ev = Some s' -> k_submitted s' = k_submitted s ++ event_query ev.
Proof.
  intros H. destruct ev; cbn [step event_query] in *; rewrite ?app_nil_r.
  - destruct (k_open s), (k_task s); try discriminate H; destruct (Nat.ltb _ _); try discriminate H; injection H as <-; reflexivity.
  - destruct (k_open s), (k_task s); try discriminate H; (destruct (k_view s q); try discriminate H); destruct (s_rx _ && _); try discriminate H; injection H as <-; reflexivity.
  - destruct (k_task s); try discriminate H. destruct (k_queue s) as [|r rest]; [discriminate H|]. injection H as <-.
    destruct r; cbn [handle_request].
    + change (k_pending (set_queue s rest)) with (k_pending s). change (k_exec (set_queue s rest)) with (k_exec s).
      destruct (k_pending s); [destruct (k_exec s)|]; try reflexivity. apply (dispatch_submitted (set_queue s rest)).
    + destruct (send_data C b [] false); try reflexivity. destruct w; reflexivity.
  - destruct (k_task s); try discriminate H. injection H as <-. apply receive_submitted.
  - destruct (k_task s); try discriminate H. injection H as <-. reflexivity.
  - destruct (k_task s); try discriminate H. destruct (k_view s q); try discriminate H. destruct (send_item s0 i); try discriminate H.
    injection H as <-. apply deliver_submitted.
  - destruct (k_view s q); try discriminate H. destruct (s_rx s0); try discriminate H. destruct (s_buf s0); try discriminate H. injection H as <-. reflexivity.
  - destruct (k_view s q); try discriminate H; injection H as <-; reflexivity.
  - injection H as <-. reflexivity.
  - destruct (k_task s); try discriminate H. destruct (k_open s); try discriminate H. destruct (k_queue s); try discriminate H. injection H as <-. reflexivity.
Qed.
Lemma zstep_submitted O B z e z' : zstep O B z e = Some z' -> k_submitted (z_conn z') = k_submitted (z_conn z) ++ zsubmitted [e].
Proof.
  assert (L : forall C ev r z1, loop_step C z ev r = Some z1 -> event_query ev = [] -> k_submitted (z_conn z1) = k_submitted (z_conn z) ++ []).
  { intros C ev r z1. unfold loop_step. destruct (step C (z_conn z) ev) as [s|] eqn:E; [|discriminate]. intros [= <-] Q. cbn [z_conn].
    rewrite (step_submitted _ _ _ _ E), Q. reflexivity. }
  intros H. destruct e; cbn [zstep zsubmitted] in *.
  - destruct (z_phase z); try discriminate H. rewrite app_nil_r. destruct ok; injection H as <-; reflexivity.
  - destruct (callers_event ev) eqn:CE; [|discriminate H]. destruct (step B (z_conn z) ev) as [s|] eqn:E; [|discriminate H]. injection H as <-.
    cbn [z_conn]. rewrite (step_submitted _ _ _ _ E). destruct ev; try discriminate CE; reflexivity.
  - injection H as <-. now rewrite app_nil_r.
  - destruct (k_task (z_conn z)); try discriminate H. destruct (z_phase z); try discriminate H.
    + rewrite app_nil_r. destruct (receive_hello _ _) as [[h rest]|e'|]; [injection H as <-; reflexivity| |injection H as <-; reflexivity].
      destruct e'; injection H as <-; reflexivity.
    + destruct (read_packet _ _) as [[p rest]|e'|]; [exact (L _ _ _ _ H eq_refl)| |exact (L _ _ _ _ H eq_refl)].
      destruct e'; try exact (L _ _ _ _ H eq_refl). injection H as <-. now rewrite app_nil_r.
  - destruct (z_phase z); try discriminate H. exact (L _ _ _ _ H eq_refl).
  - destruct (z_phase z); try discriminate H. exact (L _ _ _ _ H eq_refl).
  - destruct (z_phase z); try discriminate H. exact (L _ _ _ _ H eq_refl).
  - destruct (z_phase z); try discriminate H; destruct (k_task (z_conn z)); try discriminate H; injection H as <-; now rewrite app_nil_r.
Qed.
Lemma zsubmitted_cons e es : zsubmitted (e :: es) = zsubmitted [e] ++ zsubmitted es.
Proof. destruct e; try reflexivity. destruct ev; reflexivity. Qed.
Lemma zrun_submitted O B es : forall z z', zrun O B z es = Some z' -> k_submitted (z_conn z') = k_submitted (z_conn z) ++ zsubmitted es.
Proof.
  induction es as [|e es IH]; intros z z' H; cbn [zrun] in H.
  - injection H as <-. now rewrite app_nil_r.
  - destruct (zstep O B z e) as [z1|] eqn:E; [|discriminate H]. rewrite (IH _ _ H), (zstep_submitted _ _ _ _ _ E), <- app_assoc. f_equal. symmetry. apply zsubmitted_cons.
Qed.
