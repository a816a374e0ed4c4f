(** Property C83: a server that keeps the rows gives them back, however it sends them. *)
From Coq Require Import String Permutation Lia.
From Verif Require Import Base Io Types IndexMap Text TypeText TypeTextProofs Block BlockSpec BlockWire Compression CompressionProofs FrameWire Protocol ProtocolSpec
  ProtocolProofs ColumnSpec DecodeProofs2 WireProofs WireSpec WireDecode WireEncode Utf8 Connection Api ApiProofs RawRow Numeric Convert ConvertSpec ConvertProofs ConvertWire
  Derive DeriveSpec DeriveProofs3 TripSpec TripProofs StoreSpec StoreProofs Props_TypeText Props_Convert Props_Block Props_Compression Props_Protocol Props_Derive Props_Trip.
Local Open Scope list_scope.
Local Open Scope N_scope.

(** The server finds in what an insert sends exactly the rows that were given, with the header's
    columns and types, each value as a column of that type holds it; it cannot find anything else. *)
Theorem C83_server_has_the_rows : forall C T (ser : T -> imap ty -> res (list (text * value))) h (f : T -> list (text * value)) (batches : list (list T)),
  tzdb_ok (c_tz C) -> header_ok C (b_types h) ->
  (forall rows, In rows batches -> batch_fits (b_types h) (map f rows)) ->
  (forall r, In r (concat batches) -> ser r (b_types h) = Ok (f r) /\ row_ok (b_types h) (f r)) ->
  exists blocks, insert_native ser (Some (IBlock h)) batches = (blocks, Ok tt) /\
  (Forall (compressible C) blocks ->
   exists bodies, Forall2 (fun b body => send_data C b [] false = Ok (enc_data 2 [] body)) blocks bodies /\
   forall table, stores C bodies table <-> table = map (fun r => as_stored (b_types h) (f r)) (concat batches)).
Proof.
  intros C T ser h f batches DB HO FI SR.
  destruct (batches_stored C ser f (b_types h) DB HO batches) as (blocks & I & G).
  - intros rows R. split; [now apply FI|]. intros r RR. apply SR. apply in_concat. eauto.
  - exists blocks. split; [exact I|]. intros K. destruct (G K) as (bodies & S & ST). exists bodies. split; [exact S|]. intros table. split.
    + intros H. exact (stores_det C bodies _ DB ST table H).
    + intros ->. exact ST.
Qed.
Print Assumptions C83_server_has_the_rows.

(** Whatever a server that has these rows in its table sends in answer to a query for all of them -
    the rows in any order, cut into blocks anywhere, each block with its own order of columns and
    its own encoding, compressed in any frames - the client can read it in one way only, and
    [query_collect] gives all rows, in the server's order; so if the server kept the order, exactly
    the rows that were inserted, in order. *)
Theorem C83_rows_come_back : forall C T (de : list (text * ty * value) -> res T) types (f : T -> list (text * value)) (rows : list T) table bytes,
  tzdb_ok (c_tz C) ->
  (forall r cols, In r rows -> Permutation cols (read_back types (f r)) -> de cols = Ok r) ->
  same_table (map (fun r => as_stored types (f r)) rows) table -> replies C table bytes ->
  exists items out, receives C bytes items /\ (forall items', receives C bytes items' -> items' = items) /\
    query_collect de items = Ok out /\ Permutation out rows /\
    (Forall2 same_row (map (fun r => as_stored types (f r)) rows) table -> out = rows).
Proof.
  intros C T de types f rows table bytes DB RE (table' & P & F) RP.
  destruct (replies_read C T de table bytes DB RP) as (items & R & Q).
  apply Permutation_sym in P. destruct (Permutation_map_inv _ _ P) as (rows' & -> & PR).
  exists items, rows'. split; [exact R|]. split; [intros items' R'; exact (receives_det C _ _ R items' R')|]. split; [|split; [now symmetry|]].
  - unfold query_collect. rewrite Q. apply collect_ok. apply (answered de types f rows'); [|exact F].
    intros r cols I. apply RE. eapply Permutation_in; [symmetry; exact PR|exact I].
  - intros F'. assert (E : map (@Ok T) rows' = map Ok rows).
    { rewrite <- (answered de types f rows RE table F'). symmetry. apply (answered de types f rows'); [|exact F].
      intros r cols I. apply RE. eapply Permutation_in; [symmetry; exact PR|exact I]. }
    clear -E. revert rows E. induction rows' as [|x l IH]; intros [|y m] E; try discriminate; [reflexivity|]. injection E as -> E. f_equal. now apply IH.
Qed.
Print Assumptions C83_rows_come_back.

(** The two together for derived structs: what is inserted is what a query reads. *)
Theorem C83_structs_come_back : forall C h fs (batches : list (list (list sval))),
  tzdb_ok (c_tz C) -> header_ok C (b_types h) -> sane fs ->
  Permutation (column_names fs) (im_keys (b_types h)) ->
  let ser := fun xs types => serialize (hints_of types) fs xs in
  (forall xs, In xs (concat batches) -> faithful (hints_of (b_types h)) (columns (b_types h)) fs xs /\
     forall row k t, ser xs (b_types h) = Ok row -> In (k, t) (b_types h) ->
       validate_value t (cell k row) = Ok tt /\ representable (cell k row) = true /\ shape_ok t (cell k row) = true /\ canonical t (cell k row) = true) ->
  (forall rows raw, In rows batches -> mapM (fun xs => ser xs (b_types h)) rows = Ok raw -> batch_fits (b_types h) raw) ->
  exists blocks, insert_native ser (Some (IBlock h)) batches = (blocks, Ok tt) /\
  (Forall (compressible C) blocks ->
   exists bodies, Forall2 (fun b body => send_data C b [] false = Ok (enc_data 2 [] body)) blocks bodies /\
   exists stored, stores C bodies stored /\ (forall other, stores C bodies other -> other = stored) /\
   forall table bytes, same_table stored table -> replies C table bytes ->
     exists items out, receives C bytes items /\ (forall items', receives C bytes items' -> items' = items) /\
       query_collect (deserialize fs) items = Ok out /\ Permutation out (concat batches) /\ (Forall2 same_row stored table -> out = concat batches)).
Proof.
  intros C h fs batches DB HO SA PM ser FF FI. set (types := b_types h) in *.
  set (f := fun xs : list sval => match ser xs types with Ok row => row | _ => [] end).
  assert (K : forall xs, In xs (concat batches) -> ser xs types = Ok (f xs) /\ row_ok types (f xs) /\ forall cols, Permutation cols (read_back types (f xs)) -> deserialize fs cols = Ok xs).
  { intros xs X. destruct (FF xs X) as [FA AC]. destruct (struct_recovered types fs xs (proj1 (proj2 HO)) SA PM FA AC) as (row & S & R & D).
    unfold f, ser. rewrite S. auto. }
  destruct (C83_server_has_the_rows C _ ser h f batches DB HO) as (blocks & I & G).
  - intros rows R. apply (FI rows (map f rows) R).
    assert (Q : forall l, (forall x, In x l -> In x (concat batches)) -> mapM (fun xs => ser xs types) l = Ok (map f l)).
    { induction l as [|x l IH]; intros L; [reflexivity|]. cbn [mapM map]. rewrite (proj1 (K x (L x (or_introl eq_refl)))). cbn [rbind].
      rewrite IH by (intros y Y; apply L; now right). reflexivity. }
    apply Q. intros x X. apply in_concat. eauto.
  - intros r R. destruct (K r R) as (A & B & _). auto.
  - exists blocks. split; [exact I|]. intros KK. destruct (G KK) as (bodies & S & ST). exists bodies. split; [exact S|].
    eexists. split; [apply ST; reflexivity|]. split; [intros other H; now apply ST|]. intros table bytes SM RP.
    apply (C83_rows_come_back C _ (deserialize fs) types f (concat batches) table bytes DB); auto.
    intros r cols R. apply K. exact R.
Qed.
Print Assumptions C83_structs_come_back.

(** The three rows of [trip_batches] (Props_Trip.v), sent back in one block, the last row first, the
    columns in another order and the LowCardinality column as a plain String. *)
Definition reply_block : block :=
  {| b_info := default_info; b_rows := 3; b_types := [([97], TString); ([99], TNullable (TUInt I8)); ([98], TString)];
     b_data := [([97], [VString [195; 169]; VString []; VString [120]]); ([99], [VUInt I8 255; VNull; VUInt I8 3]); ([98], [VString []; VString [121]; VString [121]])] |}.
Definition trip_values (xs : list sval) : list (text * value) := match trip_ser xs (b_types trip_header) with Ok row => row | _ => [] end.
Example C83_nonvacuous :
  let stored := map (fun r => as_stored (b_types trip_header) (trip_values r)) (concat trip_batches) in
  exists table bytes, same_table stored table /\ ~ Forall2 same_row stored table /\ replies (demo_conn false) table bytes /\
    rows_in (b_rows reply_block) (map (fun e : text * ty => (fst e, snd e, match im_get (fst e) (b_data reply_block) with Some vs => vs | None => [] end)) (b_types reply_block)) = table.
Proof.
  cbv zeta. destruct (conforms (demo_conn false) reply_block Props_TypeText.demo_tz_ok) as (body & info & S & H).
  - split; [repeat (apply NoDup_cons || apply NoDup_nil); vm_compute; intuition discriminate|].
    split; [repeat (apply NoDup_cons || apply NoDup_nil); vm_compute; intuition discriminate|]. split; [|split; vm_compute; reflexivity].
    intros k t [[= <- <-]|[[= <- <-]|[[= <- <-]|[]]]]; eexists; (split; [reflexivity|]); (split; [split; [reflexivity|vm_compute; discriminate]|]);
      (split; [split; [reflexivity|vm_compute; discriminate]|]); (split; [exact I|]); (split; [reflexivity|]); intros _; (split; [reflexivity|]);
      (split; [repeat (apply Forall_cons || apply Forall_nil); reflexivity|]);
      repeat match goal with
             | |- fits _ _ => unfold fits; fold fits; unfold within
             | |- _ /\ _ => split
             | |- Forall _ _ => repeat (apply Forall_cons || apply Forall_nil)
             | |- _ => exact I || (vm_compute; (discriminate || reflexivity))
             end.
  - reflexivity.
  - intros E. discriminate E.
  - discriminate.
  - vm_compute. reflexivity.
  - exists (rows_in (b_rows reply_block) (map (fun e : text * ty => (fst e, snd e, match im_get (fst e) (b_data reply_block) with Some vs => vs | None => [] end)) (b_types reply_block))).
    exists (enc_data 1 (txt "t") body). split; [|split; [|split; [|reflexivity]]].
    + eexists. split; [apply Permutation_rev|]. vm_compute.
      repeat (apply Forall2_cons || apply Forall2_nil); unfold same_row, unwrapped; cbn [map fst snd strip_low_cardinality].
      all: match goal with |- Permutation (?c :: ?a :: [?b]) (?a :: ?c :: [?b]) => apply perm_swap end.
    + intros F. vm_compute in F. inversion F as [|? ? ? ? X F']; subst. unfold same_row, unwrapped in X. cbn [map fst snd strip_low_cardinality] in X.
      apply Permutation_sym in X. pose proof (Permutation_in ([97], TString, VString [195; 169]) X (or_introl eq_refl)) as Y. clear X. rename Y into X.
      repeat destruct X as [X|X]; discriminate X || contradiction X.
    + pose proof (rp_packet (demo_conn false)
        (rows_in (b_rows reply_block) (map (fun e : text * ty => (fst e, snd e, match im_get (fst e) (b_data reply_block) with Some vs => vs | None => [] end)) (b_types reply_block)))
        (txt "t") body [] []) as RP. rewrite !app_nil_r in RP. apply RP; [split; [reflexivity|vm_compute; discriminate]| |constructor].
      exists info. do 2 eexists. split; [exact H|]. vm_compute. reflexivity.
Qed.
