(** Property C71: what is inserted is what a query reads. *)
From Coq Require Import String Permutation Lia.
From Verif Require Import Base Io Types IndexMap Text TypeText TypeTextProofs Block BlockSpec Compression CompressionProofs Protocol ProtocolSpec
  ProtocolProofs ColumnSpec DecodeProofs2 WireProofs Utf8 Connection Api ApiProofs RawRow Numeric Convert ConvertSpec ConvertProofs ConvertWire
  Derive DeriveSpec DeriveProofs3 TripSpec TripProofs Props_TypeText Props_Convert Props_Block Props_Compression Props_Protocol Props_Derive.
Local Open Scope list_scope.
Local Open Scope N_scope.

(** For any row type: if each row serializes to a row of the header's columns, and is recovered
    from those values as they come back, then insert_native hands over its blocks without an
    error, every block can be put on the wire, and if the server sends the payloads back as data
    packets, whatever tables it names, the client reads exactly those packets and
    [query_collect] gives the rows of all batches in order. *)
Theorem C71_rows_come_back : forall C T (ser : T -> imap ty -> res (list (text * value))) (de : list (text * ty * value) -> res T) h
    (f : T -> list (text * value)) (batches : list (list T)),
  tzdb_ok (c_tz C) -> header_ok C (b_types h) ->
  (forall rows, In rows batches -> batch_fits (b_types h) (map f rows)) ->
  (forall r, In r (concat batches) -> ser r (b_types h) = Ok (f r) /\ row_ok (b_types h) (f r) /\ de (read_back (b_types h) (f r)) = Ok r) ->
  exists blocks, insert_native ser (Some (IBlock h)) batches = (blocks, Ok tt) /\
  (Forall (compressible C) blocks ->
   exists bodies, Forall2 (fun b body => send_data C b [] false = Ok (enc_data 2 [] body)) blocks bodies /\
   forall tables, List.length tables = List.length bodies -> Forall name_fits tables ->
     exists items, receives C (echo tables bodies) items /\ (forall items', receives C (echo tables bodies) items' -> items' = items) /\
       query_collect de items = Ok (concat batches)).
Proof.
  intros C T ser de h f batches DB HO FI SR.
  destruct (batches_come_back C ser de f (b_types h) DB HO batches) as (blocks & I & G).
  - intros rows R. split; [now apply FI|]. intros r RR. apply SR. apply in_concat. eauto.
  - exists blocks. split; [exact I|]. intros K. destruct (G K) as (bodies & S & EC). exists bodies. split; [exact S|]. intros tables L F.
    destruct (EC tables L F) as (items & RC & Q). exists items. split; [exact RC|]. split; [intros items' R'; exact (receives_det C _ _ RC items' R')|].
    unfold query_collect. rewrite Q. now apply collect_ok.
Qed.
Print Assumptions C71_rows_come_back.

(** What is asked of the fields of a derived struct: the Rust type is stored in the column type
    and the value is one such a column can hold (C44); a field not written has its default. *)
Definition field_fits (types : imap ty) (fd : info * kind) (x : sval) : Prop :=
  match snd fd with
  | KPlain r =>
    if i_skip_ser (fst fd) then i_default (fst fd) = Some x
    else i_skip_de (fst fd) = false /\ exists y t, x = SPlain y /\ im_get (i_name (fst fd)) types = Some t /\
      validate t = true /\ stores r (strip_low_cardinality t) = true /\ member r (strip_low_cardinality t) y /\ survives r (strip_low_cardinality t) y
  | _ => False
  end.
Definition hints_of (types : imap ty) (n : text) : option ty := im_get n types.

Lemma plain_row types fs : forall xs, all2 (field_fits types) fs xs -> exists row, serialize (hints_of types) fs xs = Ok row /\
  Forall (fun kv => exists t, im_get (fst kv) types = Some t /\ validate t = true /\ inner_validate t (snd kv) = true /\ good t (snd kv) = true) row.
Proof.
  induction fs as [|[i k] fs IH]; intros [|x xs] H; try (now elim H); [exists []; split; [reflexivity|constructor]|].
  destruct H as [H1 H2]. destruct (IH xs H2) as (row & S & F). cbn [serialize]. unfold field_fits in H1. cbn [fst snd] in H1.
  destruct k as [r| |]; [|now elim H1..]. destruct (i_skip_ser i); [eauto|].
  destruct H1 as (_ & y & t & -> & G & V & ST & M & SU). cbn [kind_serialize]. unfold hints_of at 1. rewrite G.
  destruct (C44_roundtrip r t y V ST M) as (v & A & B & _). rewrite A. cbn [rbind]. rewrite S. cbn [rbind]. eexists. split; [reflexivity|].
  constructor; [|exact F]. exists t. cbn [fst snd]. split; [exact G|]. split; [exact V|]. split; [exact B|].
  pose proof (stays r _ y (Some t) v (validate_strip t V) ST M SU (hint_strip t V) A) as GD. now rewrite good_strip in GD.
Qed.
Definition columns (types : imap ty) (n : text) : ty := match im_get n types with Some t => strip_low_cardinality t | None => TString end.
Lemma plain_faithful types fs : forall xs, all2 (field_fits types) fs xs -> faithful (hints_of types) (columns types) fs xs.
Proof.
  unfold faithful. induction fs as [|[i k] fs IH]; intros [|x xs] H; try exact H. destruct H as [H1 H2]. split; [|now apply IH].
  unfold field_fits in H1. cbn [fst snd] in *. destruct k as [r| |]; [|now elim H1..]. cbn [kind_faithful]. destruct (i_skip_ser i); [exact H1|].
  destruct H1 as (D & y & t & -> & G & V & ST & M & SU). split; [exact D|]. destruct (C44_roundtrip r t y V ST M) as (v & A & _ & B).
  exists y, v. split; [reflexivity|]. unfold hints_of, columns. rewrite G. split; [exact A|].
  replace (strip_low_cardinality (strip_low_cardinality t)) with (strip_low_cardinality t); [exact B|].
  destruct t; try reflexivity. cbn in V |- *. destruct t; cbn in V; try reflexivity. discriminate V.
Qed.

(** A struct that can be written and read back field by field, under a header with its columns, is
    recovered from its values in any order of columns. *)
Lemma struct_recovered types fs xs : NoDup (im_keys types) -> sane fs -> Permutation (column_names fs) (im_keys types) ->
  faithful (hints_of types) (columns types) fs xs ->
  (forall row k t, serialize (hints_of types) fs xs = Ok row -> In (k, t) types ->
     validate_value t (cell k row) = Ok tt /\ representable (cell k row) = true /\ shape_ok t (cell k row) = true /\ canonical t (cell k row) = true) ->
  exists row, serialize (hints_of types) fs xs = Ok row /\ row_ok types row /\
    forall cols, Permutation cols (read_back types row) -> deserialize fs cols = Ok xs.
Proof.
  intros NK SA PM FA AC.
  assert (ND : NoDup (column_names fs)) by (eapply Permutation_NoDup; [symmetry; exact PM|exact NK]).
    destruct (roundtrip_all (hints_of types) (columns types) fs xs SA ND FA) as (row & S & N & D).
    specialize (AC row). exists row. split; [exact S|].
    assert (NR : NoDup (map fst row)) by (rewrite N; exact ND).
    assert (GO : forall k t, In (k, t) types -> validate_value t (cell k row) = Ok tt /\ representable (cell k row) = true /\ shape_ok t (cell k row) = true /\ normal t (cell k row) = cell k row).
    { intros k t IT. destruct (AC k t S IT) as (X1 & X2 & X3 & X4). split; [exact X1|]. split; [exact X2|]. split; [exact X3|].
      apply normal_canonical; [|exact X3|exact X4]. unfold validate_value in X1. destruct (validate t); [|discriminate X1]. cbn [negb] in X1.
      destruct (inner_validate t (cell k row)); [reflexivity|]. cbn [negb] in X1. destruct (fmt_panics (cell k row)); discriminate X1. }
    split; [split|].
    - now rewrite N.
    - intros k t IT. destruct (GO k t IT) as (X1 & X2 & X3 & _). auto.
    - intros cols PC. apply D. rewrite PC. clear cols PC. unfold sent_as, read_back.
      assert (E : map (fun e => (fst e, strip_low_cardinality (snd e), normal (snd e) (cell (fst e) row))) types =
                  map (fun k => (k, columns types k, cell k row)) (im_keys types)).
      { unfold im_keys. rewrite map_map. apply map_ext_in. intros [k t] IT. cbn [fst snd]. destruct (GO k t IT) as (_ & _ & _ & X4).
        rewrite X4. unfold columns. rewrite (im_get_in k types t); [reflexivity|exact NK|exact IT]. }
      assert (E2 : map (fun nv : text * value => (fst nv, columns types (fst nv), snd nv)) row = map (fun k => (k, columns types k, cell k row)) (map fst row)).
      { rewrite map_map. apply map_ext_in. intros [k v] IV. cbn [fst snd]. rewrite cell_val. unfold val. now rewrite (of_key_one k v row NR IV). }
      rewrite E, E2.
      apply Permutation_map. rewrite N. now symmetry.
Qed.

(** Derived structs, with nested and flattened fields too (C43): if the struct can be written and
    read back field by field, the header's columns are the struct's in any order, and the columns
    accept the values as they are, the structs come back as they were inserted. *)
Theorem C71_structs_come_back : forall C h fs (batches : list (list (list sval))),
  tzdb_ok (c_tz C) -> header_ok C (b_types h) -> sane fs ->
  Permutation (column_names fs) (im_keys (b_types h)) ->
  let ser := fun xs types => serialize (hints_of types) fs xs in
  (forall xs, In xs (concat batches) -> faithful (hints_of (b_types h)) (columns (b_types h)) fs xs /\
     forall row k t, ser xs (b_types h) = Ok row -> In (k, t) (b_types h) ->
       validate_value t (cell k row) = Ok tt /\ representable (cell k row) = true /\ shape_ok t (cell k row) = true /\ canonical t (cell k row) = true) ->
  (forall rows raw, In rows batches -> mapM (fun xs => ser xs (b_types h)) rows = Ok raw -> batch_fits (b_types h) raw) ->
  exists blocks, insert_native ser (Some (IBlock h)) batches = (blocks, Ok tt) /\
  (Forall (compressible C) blocks ->
   exists bodies, Forall2 (fun b body => send_data C b [] false = Ok (enc_data 2 [] body)) blocks bodies /\
   forall tables, List.length tables = List.length bodies -> Forall name_fits tables ->
     exists items, receives C (echo tables bodies) items /\ (forall items', receives C (echo tables bodies) items' -> items' = items) /\
       query_collect (deserialize fs) items = Ok (concat batches)).
Proof.
  intros C h fs batches DB HO SA PM ser FF FI. set (types := b_types h) in *.
  set (f := fun xs : list sval => match ser xs types with Ok row => row | _ => [] end).
  assert (ND : NoDup (column_names fs)) by (eapply Permutation_NoDup; [symmetry; exact PM|apply HO]).
  assert (K : forall xs, In xs (concat batches) -> ser xs types = Ok (f xs) /\ row_ok types (f xs) /\ deserialize fs (read_back types (f xs)) = Ok xs).
  { intros xs X. destruct (FF xs X) as [FA AC]. destruct (struct_recovered types fs xs (proj1 (proj2 HO)) SA PM FA AC) as (row & S & R & D).
    unfold f, ser. rewrite S. split; [reflexivity|]. split; [exact R|]. apply D. reflexivity. }
  apply (C71_rows_come_back C _ ser (deserialize fs) h f batches DB HO); [|exact K].
  intros rows R. apply (FI rows (map f rows) R).
  assert (G : forall l, (forall x, In x l -> In x (concat batches)) -> mapM (fun xs => ser xs types) l = Ok (map f l)).
  { induction l as [|x l IH]; intros L; [reflexivity|]. cbn [mapM map]. rewrite (proj1 (K x (L x (or_introl eq_refl)))). cbn [rbind].
    rewrite IH by (intros y Y; apply L; now right). reflexivity. }
  apply G. intros x X. apply in_concat. eauto.
Qed.
Print Assumptions C71_structs_come_back.


(** The conditions spelled out for structs of plain fields. *)
Theorem C71_plain_structs_come_back : forall C h fs (batches : list (list (list sval))),
  tzdb_ok (c_tz C) -> header_ok C (b_types h) -> sane fs ->
  Permutation (column_names fs) (im_keys (b_types h)) ->
  Forall (all2 (field_fits (b_types h)) fs) (concat batches) ->
  let ser := fun xs types => serialize (hints_of types) fs xs in
  (forall rows raw, In rows batches -> mapM (fun xs => ser xs (b_types h)) rows = Ok raw -> batch_fits (b_types h) raw) ->
  exists blocks, insert_native ser (Some (IBlock h)) batches = (blocks, Ok tt) /\
  (Forall (compressible C) blocks ->
   exists bodies, Forall2 (fun b body => send_data C b [] false = Ok (enc_data 2 [] body)) blocks bodies /\
   forall tables, List.length tables = List.length bodies -> Forall name_fits tables ->
     exists items, receives C (echo tables bodies) items /\ (forall items', receives C (echo tables bodies) items' -> items' = items) /\
       query_collect (deserialize fs) items = Ok (concat batches)).
Proof.
  intros C h fs batches DB HO SA PM FF ser FI. apply (C71_structs_come_back C h fs batches DB HO SA PM); [|exact FI].
  intros xs X. pose proof (proj1 (Forall_forall _ _) FF xs X) as A. split; [now apply plain_faithful|].
  intros row k t S IT. set (types := b_types h) in *.
  assert (ND : NoDup (column_names fs)) by (eapply Permutation_NoDup; [symmetry; exact PM|apply HO]).
  destruct (plain_row types fs xs A) as (row0 & S0 & G).
  destruct (roundtrip_all (hints_of types) (columns types) fs xs SA ND (plain_faithful types fs xs A)) as (row1 & S1 & N & _).
  rewrite S0 in S1. injection S1 as <-. rewrite S0 in S. injection S as <-.
  assert (NR : NoDup (map fst row0)) by (rewrite N; exact ND).
  assert (CE : In (k, cell k row0) row0).
  { rewrite cell_val. assert (IK : In k (map fst row0)) by (rewrite N; eapply Permutation_in; [symmetry; exact PM|]; apply (in_map fst) in IT; exact IT).
    apply in_map_iff in IK as ([k2 v] & E & IK). cbn in E. subst k2. unfold val. now rewrite (of_key_one k v row0 NR IK). }
  pose proof (proj1 (Forall_forall _ _) G _ CE) as (t' & GT & X1 & X2 & X3). cbn [fst snd] in *.
  rewrite (im_get_in k types t) in GT; [|apply HO|exact IT]. injection GT as <-. apply good_iff in X3 as (Y1 & Y2 & Y3).
  split; [unfold validate_value; now rewrite X1, X2|auto].
Qed.
Print Assumptions C71_plain_structs_come_back.

(** A struct with a String, a LowCardinality and an Option field, the last one first in the header; two batches around an empty one. *)
Definition trip_fields : list (info * kind) :=
  [(ex_info [97], KPlain RString); (ex_info [98], KPlain RString); (ex_skip [122] (s8 9), KPlain u8); (ex_info [99], KPlain (ROpt u8))].
Definition trip_header : block :=
  {| b_info := default_info; b_rows := 0; b_types := [([99], TNullable (TUInt I8)); ([97], TString); ([98], TLowCard TString)]; b_data := [([99], []); ([97], []); ([98], [])] |}.
Definition trip_row (a b : list N) (c : option N) : list sval :=
  [SPlain (XStr a); SPlain (XStr b); s8 9; SPlain (XOpt (option_map (fun n => XLeaf (VUInt I8 n)) c))].
Definition trip_batches : list (list (list sval)) := [[trip_row [120] [121] (Some 3); trip_row [] [121] None]; []; [trip_row [233] [] (Some 255)]].
Definition trip_ser (xs : list sval) (types : imap ty) := serialize (hints_of types) trip_fields xs.
Example C71_nonvacuous : tzdb_ok (c_tz (demo_conn true)) /\ header_ok (demo_conn true) (b_types trip_header) /\ sane trip_fields /\
  Permutation (column_names trip_fields) (im_keys (b_types trip_header)) /\
  Forall (all2 (field_fits (b_types trip_header)) trip_fields) (concat trip_batches) /\
  (forall rows raw, In rows trip_batches -> mapM (fun xs => trip_ser xs (b_types trip_header)) rows = Ok raw -> batch_fits (b_types trip_header) raw) /\
  Forall (compressible (demo_conn true)) (fst (insert_native trip_ser (Some (IBlock trip_header)) trip_batches)) /\
  map b_rows (fst (insert_native trip_ser (Some (IBlock trip_header)) trip_batches)) = [2; 1; 0].
Proof.
  split; [exact Props_TypeText.demo_tz_ok|]. split; [|split; [|split; [|split; [|split; [|split]]]]].
  - split; [discriminate|]. split; [repeat (apply NoDup_cons || apply NoDup_nil); vm_compute; intuition discriminate|]. split; [reflexivity|].
    intros k t [[= <- <-]|[[= <- <-]|[[= <- <-]|[]]]]; (split; [split; [reflexivity|vm_compute; discriminate]|]);
      (split; [split; [reflexivity|vm_compute; discriminate]|exact I]).
  - unfold sane, names_ok. cbn [kind_sane]. unfold names_ok. assert (D : forall n : N, n <> 46 -> ~ In 46 [n]) by (intros n H [E|[]]; congruence).
    repeat match goal with |- _ /\ _ => split | |- True => exact I end;
      try (cbn; repeat constructor; cbn; intros H; repeat destruct H as [H|H]; congruence); repeat constructor; try (apply D; discriminate).
  - cbn [column_names trip_fields flat_map kind_names i_skip_ser ex_info ex_skip fst snd i_name app trip_header b_types im_keys map].
    symmetry. change ([97] :: [98] :: [[99]]) with ([[97]; [98]] ++ [[99]]). apply (Permutation_cons_append [[97]; [98]]).
  - unfold trip_batches, trip_row. cbn [concat app].
    assert (STR : forall n a, In n [[97]; [98]] -> forallb scalar a = true -> field_fits (b_types trip_header) (ex_info n, KPlain RString) (SPlain (XStr a))).
    { intros n a H S. split; [reflexivity|]. destruct H as [<-|[<-|[]]]; (do 2 eexists; split; [reflexivity|]; split; [reflexivity|]; split; [reflexivity|]; split; [reflexivity|]; split; [exact S|exact I]). }
    assert (SKIP : field_fits (b_types trip_header) (ex_skip [122] (s8 9), KPlain u8) (s8 9)) by reflexivity.
    assert (OPT : forall c, match c with Some n => n < 256 | None => True end ->
      field_fits (b_types trip_header) (ex_info [99], KPlain (ROpt u8)) (SPlain (XOpt (option_map (fun n => XLeaf (VUInt I8 n)) c)))).
    { intros c H. split; [reflexivity|]. do 2 eexists. split; [reflexivity|]. split; [reflexivity|]. split; [reflexivity|]. split; [reflexivity|].
      destruct c as [n|]; cbn; repeat split; try reflexivity. now apply N.ltb_lt. }
    repeat (apply Forall_cons || apply Forall_nil); (split; [apply STR; [cbn; auto|reflexivity]|]); (split; [apply STR; [cbn; auto|reflexivity]|]);
      (split; [exact SKIP|]); (split; [|exact I]); apply OPT; cbn; (exact I || reflexivity).
  - intros rows raw H E. destruct H as [<-|[<-|[<-|[]]]]; vm_compute in E; injection E as <-; (split; [reflexivity|]);
      intros k t [[= <- <-]|[[= <- <-]|[[= <- <-]|[]]]]; cbn [map cell]; 
      repeat match goal with
             | |- fits _ _ => unfold fits; fold fits; unfold within
             | |- _ /\ _ => split
             | |- Forall _ _ => repeat (apply Forall_cons || apply Forall_nil)
             | |- _ => exact I || (vm_compute; (discriminate || reflexivity))
             end.
  - assert (K : forall b, In b (fst (insert_native trip_ser (Some (IBlock trip_header)) trip_batches)) -> forall bytes, write_block demo_tz 54429 b = Ok bytes -> payload_ok demo_codec bytes).
    { intros b H. vm_compute in H. destruct H as [<-|[<-|[<-|[]]]]; intros bytes W; vm_compute in W; injection W as <-;
        (split; [reflexivity|eexists; split; [reflexivity|vm_compute; discriminate]]). }
    apply Forall_forall. intros b H _. split; [exact demo_codec_ok|exact (K b H)].
  - vm_compute. reflexivity.
Qed.
