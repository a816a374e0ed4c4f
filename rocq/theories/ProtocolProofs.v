(** Proofs about packets. *)
From Verif Require Import Base Io IoProofs Types Text TypeText TypeTextProofs Utf8 IndexMap Ser Deser ColumnSpec DecodeProofs DecodeProofs2
  Block BlockSpec BlockProofs Incremental Compression CompressionProofs Progress Protocol ProtocolSpec.
Local Open Scope list_scope.
Local Open Scope N_scope.

Lemma bind_step {A B} (r : rd A) (f : A -> rd B) inp a rest : r inp = Ok (a, rest) -> rdbind r f inp = f a rest.
Proof. intros H. unfold rdbind. now rewrite H. Qed.
Lemma str_step {B} (f : text -> rd B) s rest : name_fits s -> rdbind read_utf8_string f (enc_str s ++ rest) = f s rest.
Proof. intros H. apply bind_step. now apply read_write_text. Qed.
Lemma dstr_step {B} (f : text -> rd B) s rest : name_fits s -> rdbind dec_str f (enc_str s ++ rest) = f s rest.
Proof. exact (str_step f s rest). Qed.
Lemma var_step {B} (f : N -> rd B) n rest : n < 2 ^ 63 -> rdbind read_var_uint f (write_var_uint n ++ rest) = f n rest.
Proof. intros H. apply bind_step. now apply read_write_var_uint. Qed.
Lemma bool_step {B} (f : bool -> rd B) b rest : rdbind read_bool f (enc_bool b ++ rest) = f b rest.
Proof.
  apply bind_step. unfold read_bool. rewrite (bind_step (read_le 1) _ _ (if b then 1 else 0) rest); [destruct b; reflexivity|].
  replace (enc_bool b) with (le_bytes 1 (if b then 1 else 0)) by (destruct b; reflexivity).
  apply read_le_app. destruct b; reflexivity.
Qed.
Lemma byte_step {B} (f : N -> rd B) n rest : n < 256 -> rdbind (read_le 1) f ([n] ++ rest) = f n rest.
Proof.
  intros H. apply bind_step.   assert (E : [n] = le_bytes 1 n) by (cbn [le_bytes]; rewrite N.mod_small by exact H; reflexivity).
  rewrite E. apply read_le_app. exact H.
Qed.
Lemma when_step {A B} (c : bool) (r : rd A) (d : A) (f : A -> rd B) bs a rest :
  (c = true -> r (bs ++ rest) = Ok (a, rest)) -> (c = false -> a = d) ->
  rdbind (if c then r else rret d) f (enc_when c bs ++ rest) = f a rest.
Proof.
  intros H1 H2. apply bind_step. destruct c; cbn [enc_when]; [now apply H1|]. cbn [app]. unfold rret. now rewrite H2.
Qed.
Lemma opt_step {A B} (c : bool) (r : rd A) (f : option A -> rd B) bs o rest :
  (c = true -> exists a, o = Some a /\ r (bs ++ rest) = Ok (a, rest)) -> (c = false -> o = None /\ bs = []) ->
  rdbind (read_opt c r) f (bs ++ rest) = f o rest.
Proof.
  intros H1 H2. apply bind_step. unfold read_opt. destruct c.
  - destruct (H1 eq_refl) as (a & -> & E). unfold rdbind. rewrite E. reflexivity.
  - destruct (H2 eq_refl) as [-> ->]. reflexivity.
Qed.
Lemma ret_step {A} (a : A) rest : rret a rest = Ok (a, rest). Proof. reflexivity. Qed.

Lemma dec_hello h rest : hello_ok h -> h_revision h <> 54058 -> h_revision h <> 54372 -> h_revision h <> 54401 ->
  read_hello (enc_hello h ++ rest) = Ok (h, rest).
Proof.
  intros (H1 & H2 & H3 & H4 & H5 & H6 & H7 & H8) N1 N2 N3. unfold read_hello, enc_hello. rewrite <- !app_assoc.
  rewrite str_step by assumption. rewrite !var_step by assumption.
  rewrite (opt_step _ _ _ (enc_when (54058 <=? h_revision h) _) (h_timezone h)).
  2:{ intros C. unfold REV_TIMEZONE in C. destruct (h_timezone h) as [z|]; [|lia]. exists z. split; [reflexivity|].
      destruct (N.leb_spec 54058 (h_revision h)); [|lia]. apply read_write_text, H6. }
  2:{ intros C. unfold REV_TIMEZONE in C. destruct (h_timezone h) as [z|]; [lia|]. split; [reflexivity|].
      destruct (N.leb_spec 54058 (h_revision h)); [lia|reflexivity]. }
  rewrite (opt_step _ _ _ (enc_when (54372 <=? h_revision h) _) (h_display h)).
  2:{ intros C. unfold REV_DISPLAY_NAME in C. destruct (h_display h) as [z|]; [|lia]. exists z. split; [reflexivity|].
      destruct (N.leb_spec 54372 (h_revision h)); [|lia]. apply read_write_text, H7. }
  2:{ intros C. unfold REV_DISPLAY_NAME in C. destruct (h_display h) as [z|]; [lia|]. split; [reflexivity|].
      destruct (N.leb_spec 54372 (h_revision h)); [lia|reflexivity]. }
  replace (54401 <=? h_revision h) with (REV_VERSION_PATCH <? h_revision h) by (unfold REV_VERSION_PATCH; lia).
  rewrite (when_step _ _ _ _ _ (h_patch h)).
  - destruct h; reflexivity.
  - intros _. now apply read_write_var_uint.
  - intros C. apply H8. unfold REV_VERSION_PATCH in C. lia.
Qed.

(** At a boundary revision: the whole hello, whatever the revision. *)
Lemma dec_hello_any h rest : hello_ok h ->
  read_hello (enc_hello h ++ rest) = Ok (hello_seen h, hello_unread h ++ rest).
Proof.
  intros H. destruct (N.eq_dec (h_revision h) 54058) as [E|N1]; [|destruct (N.eq_dec (h_revision h) 54372) as [E|N2]; [|destruct (N.eq_dec (h_revision h) 54401) as [E|N3]]].
  - destruct H as (H1 & H2 & H3 & H4 & H5 & H6 & H7 & H8). unfold read_hello, enc_hello, hello_seen, hello_unread. rewrite <- !app_assoc.
    rewrite str_step by assumption. rewrite !var_step by assumption. rewrite E in *. reflexivity.
  - destruct H as (H1 & H2 & H3 & H4 & H5 & H6 & H7 & H8). unfold read_hello, enc_hello, hello_seen, hello_unread. rewrite <- !app_assoc.
    rewrite str_step by assumption. rewrite !var_step by assumption. rewrite E in *.
    destruct (h_timezone h) as [z|]; [|lia].
    change (54058 <=? 54372) with true. change (54372 <=? 54372) with true. change (54401 <=? 54372) with false. cbn [enc_when app].
    change (REV_TIMEZONE <? 54372) with true.
    rewrite (opt_step true _ _ (enc_str z) (Some z)); [|intros _; exists z; split; [reflexivity|]; apply read_write_text, H6|discriminate].
    reflexivity.
  - destruct H as (H1 & H2 & H3 & H4 & H5 & H6 & H7 & H8). unfold read_hello, enc_hello, hello_seen, hello_unread. rewrite <- !app_assoc.
    rewrite str_step by assumption. rewrite !var_step by assumption. rewrite E in *.
    destruct (h_timezone h) as [z|]; [|lia]. destruct (h_display h) as [z'|]; [|lia].
    change (54058 <=? 54401) with true. change (54372 <=? 54401) with true. change (54401 <=? 54401) with true. cbn [enc_when].
    change (REV_TIMEZONE <? 54401) with true. change (REV_DISPLAY_NAME <? 54401) with true. change (REV_VERSION_PATCH <? 54401) with false.
    rewrite (opt_step true _ _ (enc_str z) (Some z)); [|intros _; exists z; split; [reflexivity|]; apply read_write_text, H6|discriminate].
    rewrite (opt_step true _ _ (enc_str z') (Some z')); [|intros _; exists z'; split; [reflexivity|]; apply read_write_text, H7|discriminate].
    reflexivity.
  - rewrite (dec_hello h rest H N1 N2 N3). destruct H as (H1 & H2 & H3 & H4 & H5 & H6 & H7 & H8).
    unfold hello_seen, hello_unread. destruct h as [nm ma mi rv tz dn pa]; cbn in *.
    destruct (N.eqb_spec rv 54058); [contradiction|]. destruct (N.eqb_spec rv 54372); [contradiction|]. destruct (N.eqb_spec rv 54401); [contradiction|]. cbn.
    f_equal. f_equal. f_equal.
    + destruct (N.ltb_spec 54058 rv); [reflexivity|]. destruct tz; [lia|reflexivity].
    + destruct (N.ltb_spec 54372 rv); [reflexivity|]. destruct dn; [lia|reflexivity].
    + destruct (N.ltb_spec 54401 rv); [reflexivity|]. apply H8. lia.
Qed.

Lemma dec_exception e rest : exception_ok e -> read_exception (enc_exception e ++ rest) = Ok (e, rest).
Proof.
  intros (H1 & H2 & H3 & H4). unfold read_exception, enc_exception. rewrite <- !app_assoc.
  rewrite (bind_step _ _ _ _ _ (read_le_app 4 (s2u 32 (x_code e)) _ (s2u_bound 32 _))).
  rewrite !str_step by assumption. rewrite bool_step, ret_step, u2s_s2u by (reflexivity || exact H1). now destruct e.
Qed.

Lemma enc_opt_step {B} rev (f : option N -> rd B) o rest : opt_ok rev o ->
  rdbind (read_opt (REV_WRITE_INFO <=? rev) read_var_uint) f (enc_opt o ++ rest) = f o rest.
Proof.
  intros H. apply opt_step; intros C; unfold REV_WRITE_INFO in C; destruct o as [n|]; cbn in H; try lia.
  - exists n. split; [reflexivity|]. now apply read_write_var_uint.
  - now split.
Qed.
Lemma dec_progress rev p rest : progress_ok rev p -> read_progress rev (enc_progress p ++ rest) = Ok (p, rest).
Proof.
  intros (H1 & H2 & H3 & H4 & H5). unfold read_progress, enc_progress. rewrite <- !app_assoc.
  rewrite !var_step by assumption. rewrite !enc_opt_step by assumption. rewrite ret_step. now destruct p.
Qed.
Lemma dec_profile i rest : profile_ok i -> read_profile (enc_profile i ++ rest) = Ok (i, rest).
Proof.
  intros (H1 & H2 & H3 & H4). unfold read_profile, enc_profile. rewrite <- !app_assoc.
  rewrite !var_step by assumption. rewrite bool_step, var_step, bool_step, ret_step by assumption. now destruct i.
Qed.

Lemma dec_status e rest : status_ok e -> read_status (enc_status e ++ rest) = Ok (e, rest).
Proof.
  destruct e as [[db tb] st]. intros (H1 & H2 & H3). unfold read_status, enc_status. rewrite <- !app_assoc.
  rewrite !str_step by assumption. rewrite bool_step. rewrite (when_step _ _ _ _ _ (ts_delay st)).
  - rewrite ret_step. now destruct st.
  - intros C. rewrite C in H3. rewrite var_step by lia. rewrite ret_step. now rewrite N.mod_small.
  - intros C. now rewrite C in H3.
Qed.
Lemma dec_n {A} (r : rd A) (enc : A -> list N) l rest : (forall a rest, In a l -> r (enc a ++ rest) = Ok (a, rest)) ->
  read_n (length l) r (concat (map enc l) ++ rest) = Ok (l, rest).
Proof.
  revert rest. induction l as [|a l IH]; intros rest H; [reflexivity|]. cbn [length read_n map concat]. rewrite <- app_assoc.
  rewrite (bind_step _ _ _ _ _ (H a _ (or_introl eq_refl))).
  rewrite (bind_step _ _ _ _ _ (IH rest (fun a' rest' Hi => H a' rest' (or_intror Hi)))). reflexivity.
Qed.

Lemma add_table db tb st m0 inner : im_get db m0 = Some inner -> ~ In tb (im_keys inner) ->
  add_status m0 (db, tb, st) = im_insert db (inner ++ [(tb, st)]) m0.
Proof. intros H1 H2. unfold add_status. rewrite H1. rewrite (im_insert_new tb st inner) by exact H2. reflexivity. Qed.
Lemma im_insert_app_old {A} k (a a' : A) m m' : ~ In k (im_keys m) -> im_insert k a (m ++ [(k, a')] ++ m') = m ++ [(k, a)] ++ m'.
Proof.
  induction m as [|[k0 a0] m IH]; intros H; cbn [app im_insert].
  - now rewrite text_eqb_refl.
  - destruct (text_eqb k k0) eqn:E; [apply text_eqb_eq in E; subst; exfalso; apply H; now left|].
    f_equal. apply IH. intros Hi. apply H. now right.
Qed.
Lemma im_get_app {A} k (m m' : imap A) : ~ In k (im_keys m) -> im_get k (m ++ m') = im_get k m'.
Proof.
  induction m as [|[k0 a0] m IH]; intros H; [reflexivity|]. cbn [app im_get].
  destruct (text_eqb k k0) eqn:E; [apply text_eqb_eq in E; subst; exfalso; apply H; now left|].
  apply IH. intros Hi. apply H. now right.
Qed.
Lemma add_tables db rest : forall inner m, ~ In db (im_keys m) -> inner <> [] \/ True ->
  NoDup (im_keys (inner ++ rest)) ->
  fold_left add_status (map (fun tm => (db, fst tm, snd tm)) rest) (m ++ [(db, inner)]) = m ++ [(db, inner ++ rest)].
Proof.
  induction rest as [|[tb st] rest IH]; intros inner m Hm _ Hn; cbn [map fold_left fst snd].
  - now rewrite app_nil_r.
  - rewrite (add_table db tb st _ inner).
    + change (m ++ [(db, inner)]) with (m ++ [(db, inner)] ++ []). rewrite im_insert_app_old by exact Hm. rewrite app_nil_r.
      rewrite IH; [now rewrite <- app_assoc|exact Hm|now right|]. now rewrite <- app_assoc.
    + rewrite im_get_app by exact Hm. cbn [im_get]. now rewrite text_eqb_refl.
    + unfold im_keys in *. rewrite map_app in Hn. cbn [map fst] in Hn. apply NoDup_remove_2 in Hn. intros Hi. apply Hn. apply in_app_iff. now left.
Qed.
Lemma rebuild_status m : forall m0, NoDup (im_keys (m0 ++ m)) -> Forall (fun dm : text * imap table_status => NoDup (im_keys (snd dm)) /\ snd dm <> []) m ->
  fold_left add_status (status_entries m) m0 = m0 ++ m.
Proof.
  induction m as [|[db inner] m IH]; intros m0 Hn HF; cbn [status_entries flat_map]; [now rewrite app_nil_r|].
  inversion HF as [|? ? [Hi Hne] HF']; subst. cbn [fst snd] in *. rewrite fold_left_app.
  assert (Hdb : ~ In db (im_keys m0)).
  { unfold im_keys in *. rewrite map_app in Hn. cbn [map fst] in Hn. apply NoDup_remove_2 in Hn. intros Hin. apply Hn. apply in_app_iff. now left. }
  destruct inner as [|[tb st] inner]; [congruence|]. cbn [map fold_left fst snd].
  assert (E : add_status m0 (db, tb, st) = m0 ++ [(db, [(tb, st)])]).
  { unfold add_status. rewrite im_get_none by exact Hdb. cbn [im_insert]. now apply im_insert_new. }
  rewrite E. pose proof (add_tables db inner [(tb, st)] m0 Hdb (or_intror I) Hi) as E2.
  etransitivity; [apply (f_equal (fold_left add_status (status_entries m))); exact E2|].
  rewrite IH; [now rewrite <- app_assoc| |exact HF']. rewrite <- app_assoc. exact Hn.
Qed.

Theorem dec_packet C p rest : packet_ok (c_rev C) p ->
  match p with PHello h => h_revision h <> 54058 /\ h_revision h <> 54372 /\ h_revision h <> 54401 | _ => True end ->
  read_packet C (enc_packet p ++ rest) = Ok (p, rest).
Proof.
  intros H G. unfold read_packet. destruct p; cbn [packet_ok enc_packet] in *; try contradiction; rewrite <- ?app_assoc;
    rewrite var_step by reflexivity; try reflexivity; cbv iota beta.
  - destruct G as (G1 & G2 & G3). now rewrite (bind_step _ _ _ _ _ (dec_hello h rest H G1 G2 G3)).
  - now rewrite (bind_step _ _ _ _ _ (dec_exception e rest H)).
  - now rewrite (bind_step _ _ _ _ _ (dec_progress (c_rev C) p rest H)).
  - now rewrite (bind_step _ _ _ _ _ (dec_profile i rest H)).
  - destruct H as (H1 & H2 & H3 & H4).
    assert (E : read_tables_status (write_var_uint (lenN (status_entries m)) ++ concat (map enc_status (status_entries m)) ++ rest) = Ok (m, rest)).
    { unfold read_tables_status. rewrite var_step by lia. unfold MAX_STRING_SIZE. destruct (N.ltb_spec (2 ^ 30) (lenN (status_entries m))); [lia|].
      unfold lenN at 1. rewrite Nat2N.id.
      rewrite (bind_step _ _ _ _ _ (dec_n read_status enc_status (status_entries m) rest (fun a r Hi => dec_status a r (proj1 (Forall_forall _ _) H2 a Hi)))).
      rewrite ret_step. now rewrite (rebuild_status m [] H3 H4). }
    now rewrite (bind_step _ _ _ _ _ E).
  - destruct H as [H1 H2]. now rewrite !str_step.
  - destruct H as [H1 H2].
    assert (E : read_part_uuids (write_var_uint (lenN l) ++ concat l ++ rest) = Ok (l, rest)).
    { unfold read_part_uuids. rewrite var_step by lia. unfold MAX_STRING_SIZE. destruct (N.ltb_spec (2 ^ 30) (lenN l)); [lia|].
      unfold lenN at 1. rewrite Nat2N.id. rewrite <- (map_id l) at 2. apply dec_n. intros u r Hi. rewrite Forall_forall in H2.
      apply read_exact_app'. symmetry. now apply H2. }
    now rewrite (bind_step _ _ _ _ _ E).
Qed.

Lemma dec_data C table body b rest id : name_fits table -> (forall ext, read_payload C (body ++ ext) = Ok (b, ext)) ->
  In id [1; 7; 8] ->
  read_packet C (enc_data id table body ++ rest) =
  Ok ((if id =? 1 then PData table b else if id =? 7 then PTotals table b else PExtremes table b), rest).
Proof.
  intros H1 H2 Hi. unfold read_packet, enc_data. rewrite <- !app_assoc.
  assert (E : forall mk, read_data C mk (enc_str table ++ body ++ rest) = Ok (mk table b, rest)).
  { intros mk. unfold read_data. rewrite str_step by exact H1. now rewrite (bind_step _ _ _ _ _ (H2 rest)). }
  destruct Hi as [<-|[<-|[<-|[]]]]; rewrite var_step by reflexivity; cbv iota beta; apply E.
Qed.

Lemma dec_unknown C id rest : 14 <= id -> id < 2 ^ 63 -> read_packet C (write_var_uint id ++ rest) = Err EProtocol.
Proof.
  intros H1 H2. unfold read_packet. rewrite var_step by exact H2.
  destruct id as [|p]; [lia|]. do 4 (destruct p as [p|p|]; try lia; try reflexivity).
Qed.

(* ---------------- locality of packets ---------------- *)

Lemma frames_local K U D rev f : forall raw inp b rest, read_frames K U D rev f raw inp = Ok (b, rest) ->
  exists used, inp = used ++ rest /\ forall ext f', (length used <= f')%nat -> read_frames K U D rev f' raw (used ++ ext) = Ok (b, ext).
Proof.
  induction f as [|f IH]; intros raw inp b rest; cbn [read_frames]; intros H.
  - destruct (read_block U D rev raw) as [[b0 r0]|e|] eqn:E; [|destruct e; discriminate|discriminate].
    injection H as <- <-. exists []. split; [reflexivity|]. intros ext f' _. cbn [app]. destruct f'; cbn [read_frames]; now rewrite E.
  - destruct (read_block U D rev raw) as [[b0 r0]|e|] eqn:E.
    + injection H as <- <-. exists []. split; [reflexivity|]. intros ext f' _. cbn [app]. destruct f'; cbn [read_frames]; now rewrite E.
    + destruct e; try discriminate. destruct (read_blob K inp) as [[v i1]|e|] eqn:E1; try discriminate.
      pose proof (uses_blob K _ _ _ E1) as HU. destruct (local_blob K _ _ _ E1) as (u1 & -> & D1).
      destruct (IH _ _ _ _ H) as (u2 & -> & D2). exists (u1 ++ u2). split; [now rewrite app_assoc|].
      intros ext f' Hf. rewrite !app_length in *. destruct f' as [|f']; [lia|]. cbn [read_frames].
      rewrite E, <- app_assoc, D1. apply D2. lia.
    + discriminate.
Qed.
Lemma local_compressed K U D rev : local (read_compressed K U D rev).
Proof.
  intros inp b rest H. unfold read_compressed in *. destruct (frames_local _ _ _ _ _ _ _ _ _ H) as (u & -> & DD).
  exists u. split; [reflexivity|]. intros ext. apply DD. rewrite app_length. lia.
Qed.
Lemma local_payload C : local (read_payload C).
Proof. unfold read_payload. destruct (c_lz4 C); [apply local_compressed|apply block_local]. Qed.
Lemma local_bool : local read_bool.
Proof. apply local_bind; [apply local_le|intros; apply local_ret]. Qed.
Lemma local_opt {A} c (r : rd A) : local r -> local (read_opt c r).
Proof. intros H. unfold read_opt. destruct c; [apply local_bind; [exact H|intros; apply local_ret]|apply local_ret]. Qed.

Ltac local_tac := repeat first
  [ apply local_ret | apply local_err | apply local_panic | apply local_var | apply local_utf8 | apply local_le | apply local_bool
  | apply local_exact | apply local_payload | apply local_opt | apply local_n | apply local_bind; [|intros]
  | match goal with |- local (if ?b then _ else _) => destruct b end
  | match goal with |- local (match ?b with _ => _ end) => destruct b end ].
Lemma packet_local C : local (read_packet C).
Proof.
  unfold read_packet, read_data, read_hello, read_exception, read_progress, read_profile, read_tables_status, read_status, read_part_uuids.
  local_tac.
Qed.

(* ---------------- reading while packets arrive ---------------- *)
Lemma frames_incremental K U D rev f : forall f' raw p q, (length p < f)%nat -> (length (p ++ q) < f')%nat ->
  read_frames K U D rev f raw p = Err EIo \/
  read_frames K U D rev f' raw (p ++ q) = extend (read_frames K U D rev f raw p) q.
Proof.
  induction f as [|f IH]; intros f' raw p q H1 H2; [lia|]. destruct f' as [|f']; [lia|]. cbn [read_frames].
  destruct (read_block U D rev raw) as [[b0 r0]|e|]; [now right| |now right].
  destruct e; try (now right). destruct (inc_blob K p q) as [E|E]; [left; now rewrite E|]. rewrite E.
  destruct (read_blob K p) as [[v i1]|e|] eqn:E1; cbn [extend]; [|now left|now right].
  apply uses_blob in E1. apply IH; rewrite ?app_length in *; lia.
Qed.
Lemma inc_compressed K U D rev : incremental (read_compressed K U D rev).
Proof. intros p q. apply frames_incremental; lia. Qed.
Lemma inc_payload C : incremental (read_payload C).
Proof. unfold read_payload. destruct (c_lz4 C); [apply inc_compressed|apply block_incremental]. Qed.
Lemma inc_bool : incremental read_bool.
Proof. apply inc_bind; [apply inc_le|intros; apply inc_ret]. Qed.
Lemma inc_opt {A} c (r : rd A) : incremental r -> incremental (read_opt c r).
Proof. intros H. unfold read_opt. destruct c; [apply inc_bind; [exact H|intros; apply inc_ret]|apply inc_ret]. Qed.
Ltac inc_tac := repeat first
  [ apply inc_ret | apply inc_err | apply inc_panic | apply inc_var | apply inc_utf8 | apply inc_le | apply inc_bool
  | apply inc_exact | apply inc_payload | apply inc_opt | apply inc_n | apply inc_bind; [|intros]
  | match goal with |- incremental (if ?b then _ else _) => destruct b end
  | match goal with |- incremental (match ?b with _ => _ end) => destruct b end ].
Lemma packet_incremental C : incremental (read_packet C).
Proof.
  unfold read_packet, read_data, read_hello, read_exception, read_progress, read_profile, read_tables_status, read_status, read_part_uuids.
  inc_tac.
Qed.

(* ---------------- termination ---------------- *)
Lemma frames_nf K U D rev f : forall raw inp, (length inp < f)%nat -> read_frames K U D rev f raw inp <> Err EFuel.
Proof.
  induction f as [|f IH]; intros raw inp H; [lia|]. cbn [read_frames].
  pose proof (block_terminates U D rev raw) as T. destruct (read_block U D rev raw) as [[b0 r0]|e|]; [discriminate| |discriminate].
  destruct e; try discriminate; try congruence. destruct (read_blob K inp) as [[v i1]|e|] eqn:E1; [|discriminate|discriminate].
  apply uses_blob in E1. apply IH. lia.
Qed.
Lemma nf_payload C : no_fuel (read_payload C).
Proof. unfold read_payload. destruct (c_lz4 C); [intros inp; apply frames_nf; lia|apply block_terminates]. Qed.
Lemma nf_bool : no_fuel read_bool.
Proof. apply nf_bind; [apply nf_le|intros; apply nf_ret]. Qed.
Lemma nf_err {A} e : e <> EFuel -> no_fuel (@rerr A e).
Proof. intros H inp. unfold rerr. congruence. Qed.
Lemma nf_opt {A} c (r : rd A) : no_fuel r -> no_fuel (read_opt c r).
Proof. intros H. unfold read_opt. destruct c; [apply nf_bind; [exact H|intros; apply nf_ret]|apply nf_ret]. Qed.
Ltac nf_tac := repeat first
  [ apply nf_ret | apply nf_panic | apply nf_var | apply nf_utf8 | apply nf_le | apply nf_bool | (apply nf_err; discriminate)
  | apply nf_exact | apply nf_payload | apply nf_opt | apply nf_n | apply nf_bind; [|intros]
  | match goal with |- no_fuel (if ?b then _ else _) => destruct b end
  | match goal with |- no_fuel (match ?b with _ => _ end) => destruct b end ].
Lemma packet_terminates C : no_fuel (read_packet C).
Proof.
  unfold read_packet, read_data, read_hello, read_exception, read_progress, read_profile, read_tables_status, read_status, read_part_uuids.
  nf_tac.
Qed.

(* ---------------- the server reads what the client writes ---------------- *)

(** Client infos that fit the wire. *)
Definition info_ok (i : client_info) : Prop :=
  (ci_kind i = 1 \/ ci_kind i = 2) /\ name_fits (ci_user i) /\ name_fits (ci_query_id i) /\ name_fits (ci_address i) /\
  name_fits (ci_os_user i) /\ name_fits (ci_hostname i) /\ name_fits (ci_client i) /\ name_fits (ci_quota i) /\
  ci_major i < 2 ^ 63 /\ ci_minor i < 2 ^ 63 /\ ci_tcp_version i < 2 ^ 63 /\ ci_depth i < 2 ^ 63 /\ ci_patch i < 2 ^ 63.
(** What a server of revision [R] gets to know of it. *)
Definition info_seen (R : N) (i : client_info) : client_info := {|
  ci_kind := ci_kind i; ci_user := ci_user i; ci_query_id := ci_query_id i; ci_address := ci_address i; ci_os_user := ci_os_user i;
  ci_hostname := ci_hostname i; ci_client := ci_client i; ci_major := ci_major i; ci_minor := ci_minor i;
  ci_tcp_version := ci_tcp_version i;
  ci_quota := if 54060 <=? R then ci_quota i else [];
  ci_depth := if 54448 <=? R then ci_depth i else 0;
  ci_patch := if 54401 <=? R then ci_patch i else ci_tcp_version i |}.

Lemma when_dec {A B} (c : bool) (r : rd A) (d : A) (f : A -> rd B) bs a rest :
  r (bs ++ rest) = Ok (a, rest) ->
  rdbind (if c then r else rret d) f ((if c then bs else []) ++ rest) = f (if c then a else d) rest.
Proof. intros H. apply bind_step. destruct c; [exact H|reflexivity]. Qed.

Lemma read_client_info R i rest : info_ok i ->
  server_client_info R 54448 (write_client_info i R ++ rest) = Ok (info_seen R i, rest).
Proof.
  intros (HK & H1 & H2 & H3 & H4 & H5 & H6 & H7 & V1 & V2 & V3 & V4 & V5).
  unfold server_client_info, write_client_info. rewrite <- app_assoc. rewrite byte_step by lia.
  assert (K0 : ci_kind i =? 0 = false) by lia. rewrite K0. rewrite <- !app_assoc.
  change write_text with enc_str.
  rewrite !dstr_step by assumption. rewrite byte_step by reflexivity. change (negb (1 =? 1)) with false. cbv iota.
  rewrite !dstr_step by assumption. rewrite !var_step by assumption.
  assert (KN : forall f, f <= 54448 -> knows R 54448 f = (f <=? R)) by (intros f Hf; unfold knows; lia).
  rewrite !KN by lia. unfold REV_QUOTA_KEY, REV_DISTRIBUTED_DEPTH, REV_VERSION_PATCH, REV_OPENTELEMETRY.
  rewrite (when_dec _ _ _ _ _ (ci_quota i)) by (now apply read_write_text).
  rewrite (when_dec _ _ _ _ _ (ci_depth i)) by (now apply read_write_var_uint).
  rewrite (when_dec _ _ _ _ _ (ci_patch i)) by (now apply read_write_var_uint).
  rewrite (when_dec _ _ _ _ [0] 0) by (exact (read_le_app 1 0 rest eq_refl)).
  replace (if 54442 <=? R then 0 else 0) with 0 by (destruct (54442 <=? R); reflexivity).
  change (negb (0 =? 0)) with false. cbv iota. reflexivity.
Qed.

Definition query_ok (q : query_packet) : Prop :=
  name_fits (q_id q) /\ info_ok (q_info q) /\ q_stage q < 2 ^ 63 /\ name_fits (q_text q).

Theorem server_reads_query R q rest : query_ok q ->
  exists body, send_query R q = write_var_uint 1 ++ body /\
  server_query R 54448 (body ++ rest) =
  Ok ((q_id q, (if 54032 <=? R then Some (info_seen R (q_info q)) else None), [], q_stage q,
       (if q_lz4 q then 1 else 0), q_text q), rest).
Proof.
  intros (H1 & H2 & H3 & H4). unfold send_query. eexists. split; [reflexivity|].
  assert (KN : forall f, f <= 54448 -> knows R 54448 f = (f <=? R)) by (intros f Hf; unfold knows; lia).
  assert (F0 : name_fits []) by (split; [reflexivity|vm_compute; discriminate]).
  unfold server_query. rewrite <- !app_assoc. change write_text with enc_str.
  rewrite dstr_step by assumption. rewrite !KN by lia. unfold REV_CLIENT_INFO, REV_INTERSERVER_SECRET.
  rewrite (opt_step _ _ _ (if 54032 <=? R then write_client_info (q_info q) R else []) (if 54032 <=? R then Some (info_seen R (q_info q)) else None)).
  2:{ intros C. rewrite C. eexists. split; [reflexivity|]. now apply read_client_info. }
  2:{ intros C. rewrite C. now split. }
  rewrite dstr_step by exact F0. change (negb (lenN [] =? 0)) with false. cbv iota.
  erewrite bind_step; [|instantiate (1 := write_var_uint (q_stage q) ++ [if q_lz4 q then 1 else 0] ++ enc_str (q_text q) ++ rest); instantiate (1 := []);
    destruct (54441 <=? R); [exact (read_write_text [] _ F0)|reflexivity]].
  rewrite var_step by exact H3.
  replace [if q_lz4 q then 1 else 0] with (write_var_uint (if q_lz4 q then 1 else 0)) by (destruct (q_lz4 q); reflexivity).
  rewrite var_step by (destruct (q_lz4 q); reflexivity).
  rewrite (bind_step dec_str _ _ (q_text q) rest); [reflexivity|]. now apply read_write_text.
Qed.

Theorem server_reads_client_hello db user password rest : name_fits db -> name_fits user -> name_fits password ->
  exists body, send_hello db user password = write_var_uint 0 ++ body /\
  server_reads_hello (body ++ rest) = Ok ((CLIENT_NAME, 22, 9, 54448, db, user, password), rest).
Proof.
  intros H1 H2 H3. unfold send_hello. eexists. split; [reflexivity|]. unfold server_reads_hello. rewrite <- !app_assoc.
  change write_text with enc_str.
  rewrite dstr_step by (split; [reflexivity|vm_compute; discriminate]).
  rewrite !var_step by reflexivity. rewrite !dstr_step by assumption.
  reflexivity.
Qed.
