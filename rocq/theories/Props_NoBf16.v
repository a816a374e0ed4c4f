(** Property C88: a client built without the feature [bfloat16]. *)
From Coq Require Import String Lia.
From Verif Require Import Base Io Types Ser Deser Text TypeText Utf8 Block ReserveSpec NoBf16 NoBf16Spec NoBf16Proofs Props_TypeText.
Local Open Scope list_scope.
Local Open Scope N_scope.

(** The names of types it understands are those of the full build without BFloat16 in them, with the
    same meaning; *)
Theorem C88_parse : forall U D s t, parse_off U D s = Ok t <-> parse_ty U D s = Ok t /\ bf_free t = true.
Proof.
  intros U D s t. split; [apply parse_off_free|]. intros [E F]. destruct (parse_agree U D s) as [_ X]. rewrite (X t E), F. reflexivity.
Qed.
(** the others are an error, never a panic the full build does not have. *)
Theorem C88_parse_refused : forall U D s t, parse_ty U D s = Ok t -> bf_free t = false -> parse_off U D s = Err ETypeParse.
Proof. intros U D s t E F. destruct (parse_agree U D s) as [_ X]. now rewrite (X t E), F. Qed.

(** A reply is read just as the full build reads it, or is refused as a type that cannot be parsed; the latter
    only if a type with BFloat16 in it is spelled out in the reply, or the full build cannot read it either. *)
Theorem C88_reply : forall U D revision inp,
  read_block_off U D revision inp = read_block U D revision inp \/
  read_block_off U D revision inp = Err ETypeParse /\
    (is_ok (read_block U D revision inp) = false \/ exists t, announces U D inp t /\ bf_free t = false).
Proof. exact block_off. Qed.
(** So the stubs that panic are never reached by a reply, *)
Theorem C88_reply_no_new_panic : forall U D revision inp,
  read_block_off U D revision inp = Panic -> read_block U D revision inp = Panic.
Proof. intros U D revision inp H. destruct (block_off U D revision inp) as [E|[E _]]; congruence. Qed.
(** a block that was read has no BFloat16 column and is the block the full build reads, *)
Theorem C88_reply_types : forall U D revision inp b rest, read_block_off U D revision inp = Ok (b, rest) ->
  read_block U D revision inp = Ok (b, rest) /\ forall name t, In (name, t) (b_types b) -> bf_free t = true.
Proof.
  intros U D revision inp b rest H. destruct (block_off_types U D revision inp b rest H) as [E F]. split; [exact E|].
  intros name t I. exact (proj1 (Forall_forall _ _) F _ I).
Qed.
(** and a reply with such a column is refused. *)
Theorem C88_reply_refused : forall U D revision inp b rest name t,
  read_block U D revision inp = Ok (b, rest) -> In (name, t) (b_types b) -> bf_free t = false ->
  read_block_off U D revision inp = Err ETypeParse.
Proof. exact block_refused. Qed.

(** Inserting: for a column without BFloat16 and values that pass the type check of an insert, the
    bytes are the same (or it fails the same way). *)
Theorem C88_insert : forall t vs, bf_free t = true -> (forall v, In v vs -> validate_value t v = Ok tt) ->
  ser_off t vs = ser t vs.
Proof.
  intros t vs F H. apply ser_same; [exact F|]. apply Forall_forall. intros v I. right. specialize (H v I). unfold validate_value in H.
  destruct (negb (validate t)); [discriminate H|]. destruct (inner_validate t v); [reflexivity|]. cbn [negb] in H. destruct (fmt_panics v); discriminate H.
Qed.

(** Only a column type the program makes up itself can reach the stubs: then writing a value, or
    reading one, panics. *)
Theorem C88_stub_refuted : forall v vs x y rest,
  ser_off TBFloat16 (VBFloat16 v :: vs) = Panic /\ ser_off TBFloat16 (VNull :: vs) = Panic /\
  deser_off TBFloat16 1 (x :: y :: rest) = Panic.
Proof. intros v vs x y rest. split; [reflexivity|]. split; [reflexivity|]. destruct rest; vm_compute; reflexivity. Qed.

Definition bf_reply (t : string) : list N :=
  write_var_uint 1 ++ write_var_uint 1 ++ write_text (txt "a") ++ write_text (txt t) ++ [1; 2].
Example C88_nonvacuous :
  parse_ty demo_uni demo_tz (txt "Map(String, Array(BFloat16))") = Ok (TMap TString (TArray TBFloat16)) /\
  parse_off demo_uni demo_tz (txt "Map(String, Array(BFloat16))") = Err ETypeParse /\
  parse_off demo_uni demo_tz (txt "Map(String, Array(Float32))") = Ok (TMap TString (TArray TFloat32)) /\
  is_ok (read_block demo_uni demo_tz 0 (bf_reply "BFloat16")) = true /\
  read_block_off demo_uni demo_tz 0 (bf_reply "BFloat16") = Err ETypeParse /\
  is_ok (read_block_off demo_uni demo_tz 0 (bf_reply "UInt16")) = true /\
  validate_value (TTuple [TFloat32; TNullable (TUInt I16)]) (VTuple [VFloat32 7; VNull]) = Ok tt /\
  ser_off (TTuple [TFloat32; TNullable (TUInt I16)]) [VTuple [VFloat32 7; VNull]] = Ok [7; 0; 0; 0; 1; 0; 0].
Proof. repeat split; vm_compute; reflexivity. Qed.

Print Assumptions C88_parse.
Print Assumptions C88_parse_refused.
Print Assumptions C88_reply.
Print Assumptions C88_reply_no_new_panic.
Print Assumptions C88_reply_types.
Print Assumptions C88_reply_refused.
Print Assumptions C88_insert.
Print Assumptions C88_stub_refuted.
