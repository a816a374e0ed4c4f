(** Property C91: what of a block that cannot be written reaches the server. *)
From Coq Require Import String Lia.
From Verif Require Import Base Io IoProofs Types Text TypeText TypeTextProofs IndexMap Ser Deser Block BlockSpec BlockProofs Compression CompressionProofs
  Progress Protocol Connection Api ApiProofs Partial PartialProofs Props_TypeText Props_Block Props_Protocol Props_Api.
Local Open Scope list_scope.
Local Open Scope N_scope.

Local Lemma Ok_inj {A} (a b : A) : Ok a = Ok b -> a = b.
Proof. now intros [= ->]. Qed.

(** Written piece by piece a block goes out as described by C16 and C62, or fails in the same way. *)
Theorem C91_same_outcome : forall part C b name,
  rmap (fun _ => tt) (send_data C b name false) = snd (data_until part C b name) /\
  forall bytes, send_data C b name false = Ok bytes -> fst (data_until part C b name) = bytes.
Proof.
  intros part C b name. unfold send_data, data_until. destruct (c_lz4 C).
  - destruct (write_compressed (c_codec C) (c_tz C) (c_rev C) b); cbn [rbind rmap fst snd]; (split; [reflexivity|]); intros bytes H; try discriminate H.
    apply Ok_inj in H. subst bytes. now rewrite <- app_assoc.
  - destruct (block_same part (c_tz C) (c_rev C) b) as [S1 S2]. destruct (block_until part (c_tz C) (c_rev C) b) as [body r]. cbn [fst snd] in *.
    destruct (write_block (c_tz C) (c_rev C) b); cbn [rbind rmap fst snd] in *; (split; [exact S1|]); intros bytes H; try discriminate H.
    apply Ok_inj in H. subst bytes. rewrite (S2 _ eq_refl). now rewrite <- app_assoc.
Qed.
Print Assumptions C91_same_outcome.

(** With compression nothing of a block that cannot be written is sent, only the packet's head. *)
Theorem C91_compressed_sends_nothing : forall part C b name, c_lz4 C = true -> is_ok (send_data C b name false) = false ->
  fst (data_until part C b name) = write_var_uint 2 ++ write_text name.
Proof.
  intros part C b name L H. unfold data_until. unfold send_data in H. rewrite L in H |- *.
  destruct (write_compressed (c_codec C) (c_tz C) (c_rev C) b); [discriminate H|reflexivity|reflexivity].
Qed.
Print Assumptions C91_compressed_sends_nothing.

(** Without compression the columns before the first one of the wrong length have been handed to the
    socket.  However much of that the server receives, it is not a complete block. *)
Theorem C91_ragged_never_complete : forall part U D rev b before name t vs after p r,
  tzdb_ok D -> NoDup (im_keys (b_types b)) -> NoDup (im_keys (b_data b)) -> (- 2 ^ 31 <= bucket_num (b_info b) < 2 ^ 31)%Z ->
  0 < b_rows b < 2 ^ 63 -> lenN (b_types b) < 2 ^ 63 ->
  b_types b = before ++ (name, t) :: after ->
  (forall k t' vs', In (k, t') before -> im_get k (b_data b) = Some vs' -> column_ok U D (b_rows b) k t' vs') ->
  im_get name (b_data b) = Some vs -> lenN vs <> b_rows b ->
  name_fits name -> name_fits (show_ty D t) -> printable U t -> ~ no_bytes t ->
  block_until part D rev b = (p, r) ->
  r = Err EProtocol /\ forall received more, p = received ++ more -> is_ok (read_block U D rev received) = false.
Proof.
  intros part U D rev b before name t vs after p r HD NT ND HB HR HL HT BO G RG HN HS HP Z0 H. pose proof (not_zero_width t Z0) as Z.
  set (f := fun e : text * ty => match im_get (fst e) (b_data b) with Some vs => [(fst e, snd e, vs)] | None => [] end).
  assert (J : join_columns (b_types b) (b_data b) = flat_map f before ++ (name, t, vs) :: flat_map f after).
  { rewrite join_columns_spec by assumption. rewrite HT, flat_map_app. cbn [flat_map fst snd]. rewrite G. reflexivity. }
  assert (LJ : forall l, (length (flat_map f l) <= length l)%nat).
  { induction l as [|e l IH]; [cbn; lia|]. cbn [flat_map length]. rewrite app_length. unfold f at 1. destruct (im_get (fst e) (b_data b)); cbn [length]; lia. }
  destruct (ragged_not_a_block part U D rev b (flat_map f before) name t vs (flat_map f after) p r HD HB HR J) as [R F]; try assumption.
  - revert HL. rewrite HT. unfold lenN. rewrite !app_length. cbn [length]. pose proof (LJ before). pose proof (LJ after). lia.
  - intros k t' vs' I. apply in_flat_map in I as ([k' t''] & I & X). unfold f in X. cbn [fst snd] in X. destruct (im_get k' (b_data b)) eqn:E; [|destruct X].
    destruct X as [X|[]]. injection X as -> -> ->. exact (BO k t' vs' I E).
  - split; [exact R|]. intros received more E. destruct (read_block U D rev received) as [[b' rest]| |] eqn:RB; try reflexivity.
    destruct (C51_block_local U D rev received b' rest RB) as (used & -> & K). subst p. rewrite <- app_assoc, K in F. discriminate F.
Qed.
Print Assumptions C91_ragged_never_complete.

(** In particular a batch some of whose rows cannot be serialized (C56) gets no further than the name
    and the type of its first column: no value of any of its rows is sent. *)
Theorem C91_skipped_rows_send_no_value : forall part T (ser_row : T -> imap ty -> res (list (text * value))) types rows b bad e good kv row D rev,
  insert_block ser_row types rows = Ok b -> NoDup (im_keys types) ->
  (forall x r, In x rows -> ser_row x types = Ok r -> NoDup (map fst r)) ->
  In bad rows -> ser_row bad types = Err e -> In good rows -> ser_row good types = Ok (kv :: row) ->
  exists n k t, In (k, t) types /\ block_until part D rev b =
    ((if 0 <? rev then write_info default_info else []) ++ write_var_uint n ++ write_var_uint (lenN rows) ++ write_text k ++ write_text (show_ty D t), Err EProtocol).
Proof.
  intros part T ser_row types rows b bad e good kv row D rev I NT ND B SB GD SG.
  assert (NDS : forall r, In r rows -> NoDup (map fst (serialized ser_row types r))).
  { intros r R. unfold serialized. destruct (ser_row r types) as [x| |] eqn:E; [exact (ND r x R E)|constructor|constructor]. }
  pose proof I as I'. unfold insert_block in I'. destruct (push_rows ser_row types rows []) as [m| |] eqn:P; try discriminate I'. cbn [rbind] in I'. apply Ok_inj in I'.
  destruct (push_rows_spec ser_row types rows [] m P) as (_ & N & F & K). specialize (N (NoDup_nil _)).
  assert (SR : serialized ser_row types good = kv :: row) by (unfold serialized; now rewrite SG).
  (* every column is ragged *)
  assert (RG : forall k vs, im_get k m = Some vs -> lenN vs <> lenN rows).
  { intros k vs G. assert (IK : In k (im_keys m)) by (apply im_get_some_in in G; apply (in_map fst) in G; exact G).
    destruct (proj1 (K k) IK) as [[]|(g & Gg & KG)].
    destruct (skipped_row_short ser_row types rows b bad g k e I B SB Gg KG NDS) as (vs' & t & GM & _ & L). subst b. cbn [b_data b_rows] in *. congruence. }
  (* there is a column *)
  assert (CO : exists k t vs rest, join_columns types m = (k, t, vs) :: rest /\ In (k, t) types /\ im_get k m = Some vs).
  { rewrite join_columns_spec by assumption. destruct (proj1 (Forall_forall _ _) F good GD) as [_ V]. rewrite SR in V. destruct (Forall_inv V) as (t & GT & _).
    assert (IK : In (fst kv) (im_keys m)). { apply K. right. exists good. split; [exact GD|]. rewrite SR. now left. }
    apply in_map_iff in IK as ([k' vs] & E & IK). cbn [fst] in E. pose proof (im_get_in k' m vs N IK) as GM. rewrite E in GM. apply im_get_some_in in GT.
    clear - GT GM. induction types as [|[k1 t1] types IH]; [destruct GT|]. cbn [flat_map fst snd]. destruct (im_get k1 m) as [vs1|] eqn:G1.
    - exists k1, t1, vs1. eexists. split; [reflexivity|]. split; [now left|exact G1].
    - destruct GT as [GT|GT]; [injection GT as -> ->; congruence|]. destruct (IH GT) as (k & t2 & vs2 & rest & E & X & Y). exists k, t2, vs2, rest. split; [exact E|]. split; [now right|exact Y]. }
  destruct CO as (k & t & vs & rest & J & IT & G). exists (lenN (join_columns types m)), k, t. split; [exact IT|]. subst b. unfold block_until. cbn [b_types b_data b_rows b_info].
  rewrite J. cbn [columns_until column_until]. specialize (RG k vs G). destruct (N.eqb_spec (lenN vs) (lenN rows)); [contradiction|reflexivity].
Qed.
Print Assumptions C91_skipped_rows_send_no_value.

(** The condition that the block has rows is needed: a block that says it has none but whose last
    column has values has been handed over completely by the time its writing fails. *)
Definition rowless_block : block := {| b_info := default_info; b_rows := 0; b_types := [(txt "id", TUInt I64)]; b_data := [(txt "id", [VUInt I64 1])] |}.
Theorem C91_without_rows_refuted : forall part, exists p,
  block_until part demo_tz 54429 rowless_block = (p, Err EProtocol) /\
  rmap (fun x => (im_keys (b_types (fst x)), b_rows (fst x), snd x)) (read_block demo_uni demo_tz 54429 p) = Ok ([txt "id"], 0, []).
Proof. intros part. eexists. split; [reflexivity|]. vm_compute. reflexivity. Qed.
Print Assumptions C91_without_rows_refuted.

(** A block of two columns, the second one too short: the first one's values are handed over. *)
Definition short_block : block := {| b_info := default_info; b_rows := 2; b_types := [(txt "id", TUInt I8); (txt "name", TString)];
  b_data := [(txt "id", [VUInt I8 1; VUInt I8 2]); (txt "name", [VString [97]])] |}.
Example C91_nonvacuous :
  (exists p, block_until (fun _ _ => []) demo_tz 0 short_block = (p, Err EProtocol) /\ p = [2; 2; 2; 105; 100; 5; 85; 73; 110; 116; 56; 1; 2; 4; 110; 97; 109; 101; 6; 83; 116; 114; 105; 110; 103] /\
     is_ok (read_block demo_uni demo_tz 0 p) = false) /\
  (forall k t' vs', In (k, t') [(txt "id", TUInt I8)] -> im_get k (b_data short_block) = Some vs' -> column_ok demo_uni demo_tz 2 k t' vs') /\
  name_fits (txt "name") /\ name_fits (show_ty demo_tz TString) /\ printable demo_uni TString /\
  (exists b, insert_block demo_ser demo_types [Some (1, [97]); None] = Ok b /\
     fst (block_until (fun _ _ => []) demo_tz 0 b) = [2; 2; 2; 105; 100; 6; 85; 73; 110; 116; 54; 52]).
Proof.
  split; [eexists; split; [vm_compute; reflexivity|split; vm_compute; reflexivity]|]. split.
  - intros k t' vs' [[= <- <-]|[]] G. vm_compute in G. injection G as <-. split; [split; [vm_compute; reflexivity|apply N.leb_le; vm_compute; reflexivity]|].
    split; [split; [vm_compute; reflexivity|apply N.leb_le; vm_compute; reflexivity]|]. split; [exact Logic.I|]. split; [vm_compute; reflexivity|].
    intros _. split; [vm_compute; reflexivity|]. split; [repeat (constructor; [vm_compute; reflexivity|]); constructor|]. vm_compute. split; [discriminate|exact Logic.I].
  - split; [split; [vm_compute; reflexivity|apply N.leb_le; vm_compute; reflexivity]|]. split; [split; [vm_compute; reflexivity|apply N.leb_le; vm_compute; reflexivity]|].
    split; [exact Logic.I|]. eexists. split; [vm_compute; reflexivity|vm_compute; reflexivity].
Qed.
