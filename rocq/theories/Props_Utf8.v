(** Property C84: text on the wire and in String columns is UTF-8. *)
From Coq Require Import Lia.
From Verif Require Import Base Io Types Utf8 Utf8Spec Utf8Proofs WireProofs IoExact Block Numeric Convert.
Local Open Scope list_scope.
Local Open Scope N_scope.

(** Texts of the protocol (column names, type names, messages of the server, ...) are read from any
    input exactly if it holds a length, at most 2^30, and that many bytes of well-formed UTF-8. *)
Theorem C84_text_read : forall inp s rest,
  read_utf8_string inp = Ok (s, rest) <->
  exists bs mid, read_var_uint inp = Ok (lenN bs, mid) /\ lenN bs <= 2 ^ 30 /\ mid = bs ++ rest /\ encodes s bs.
Proof.
  intros inp s rest. unfold read_utf8_string, rdbind, rret, rerr. split.
  - destruct (read_string inp) as [[bs r]|e|] eqn:R; try discriminate. cbn [rbind]. destruct (utf8_decode bs) as [s'|] eqn:D; [|discriminate].
    intros E. injection E as -> ->. apply read_string_exact in R as (mid & V & L & M). apply decode_iff in D. exists bs, mid. auto.
  - intros (bs & mid & V & L & M & E). rewrite (proj2 (read_string_exact inp bs rest)) by eauto. cbn [rbind]. apply decode_iff in E. rewrite E. reflexivity.
Qed.
Print Assumptions C84_text_read.

(** Bytes that are not well-formed are an error of their own kind, never a guess at the text. *)
Theorem C84_ill_formed : forall inp bs rest, read_string inp = Ok (bs, rest) ->
  (read_utf8_string inp = Err EUtf8 <-> ~ exists s, encodes s bs).
Proof.
  intros inp bs rest R. unfold read_utf8_string, rdbind, rret, rerr. rewrite R. cbn [rbind]. destruct (utf8_decode bs) as [s|] eqn:D.
  - split; [discriminate|]. intros N. elim N. exists s. now apply decode_iff.
  - split; [|reflexivity]. intros _ (s & E). apply decode_iff in E. congruence.
Qed.
Print Assumptions C84_ill_formed.

(** Written texts are the length in bytes and the one well-formed encoding. *)
Theorem C84_text_written : forall s, forallb scalar s = true ->
  exists bs, write_text s = write_var_uint (lenN bs) ++ bs /\ encodes s bs /\ forall bs', encodes s bs' -> bs' = bs.
Proof.
  intros s F. exists (utf8 s). split; [reflexivity|]. split; [now apply encode_spec|]. intros bs' E. now apply encode_spec in E.
Qed.
Print Assumptions C84_text_written.

(** A [String] field reads a String or FixedString column exactly as the text its bytes are, and
    fails with an error otherwise; what it writes are the bytes of its text. *)
Theorem C84_string_field : forall t bs, t = TString \/ (exists n, t = TFixedString n) ->
  (forall s, from_sql RString t (VString bs) = Ok (XStr s) <-> encodes s bs) /\
  (from_sql RString t (VString bs) = Err EUtf8 <-> ~ exists s, encodes s bs).
Proof.
  intros t bs T. assert (E : from_sql RString t (VString bs) = match utf8_decode bs with Some s => Ok (XStr s) | None => Err EUtf8 end) by (destruct T as [->|[n ->]]; reflexivity).
  rewrite E. clear E T. destruct (utf8_decode bs) as [s|] eqn:D.
  - split; [|split; [discriminate|]].
    + intros s'. rewrite <- decode_iff, D. split; intros [= <-]; reflexivity.
    + intros N. elim N. exists s. now apply decode_iff.
  - split; [|split; [|reflexivity]].
    + intros s'. rewrite <- decode_iff, D. split; discriminate.
    + intros _ (s & E). apply decode_iff in E. congruence.
Qed.
Print Assumptions C84_string_field.
Theorem C84_string_written : forall s hint, forallb scalar s = true ->
  exists bs, to_sql RString (XStr s) hint = Ok (VString bs) /\ encodes s bs.
Proof. intros s hint F. exists (utf8 s). split; [reflexivity|]. now apply encode_spec. Qed.
Print Assumptions C84_string_written.

(** No bytes are two texts, and every text has code points only that a Rust [char] can be. *)
Theorem C84_one_reading : forall s s' bs, encodes s bs -> encodes s' bs -> s = s'.
Proof. intros s s' bs E E'. apply decode_iff in E, E'. congruence. Qed.
Print Assumptions C84_one_reading.
Theorem C84_code_points : forall s bs, encodes s bs -> Forall (fun c => c < 0xD800 \/ 0xE000 <= c < 0x110000) s.
Proof. exact encodes_scalar. Qed.
Print Assumptions C84_code_points.

(** The examples of the Unicode Standard (table 3-4 and 3-5): a four-character text; C0 AF, an
    encoded surrogate and a truncated sequence are no text. *)
Example C84_nonvacuous :
  encodes [0x4D; 0x430; 0x4E8C; 0x10302] [0x4D; 0xD0; 0xB0; 0xE4; 0xBA; 0x8C; 0xF0; 0x90; 0x8C; 0x82] /\
  read_utf8_string [2; 0xD0; 0xB0; 7] = Ok ([0x430], [7]) /\
  read_utf8_string [2; 0xC0; 0xAF] = Err EUtf8 /\ read_utf8_string [3; 0xED; 0xA0; 0x80] = Err EUtf8 /\
  read_utf8_string [2; 0xF4; 0x80; 0x83] = Err EUtf8 /\ ~ exists s, encodes s [0xC0; 0xAF].
Proof.
  split; [apply decode_iff; reflexivity|]. do 4 (split; [reflexivity|]). intros (s & E). apply decode_iff in E. discriminate E.
Qed.
