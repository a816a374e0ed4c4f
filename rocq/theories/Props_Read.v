(** C77: what reading an SQL value into a Rust type gives.  C78: what a Rust value is sent as.
    The rules are in ReadSpec.v and ToSqlSpec.v. *)
From Verif Require Import Base Io Types Utf8 ColumnSpec Convert Numeric ReadSpec ReadProofs ToSqlSpec ToSqlProofs.

(** Whatever a read returns is what the rules say. *)
Theorem C77_reads : forall r t v x, representable v = true -> from_sql r t v = Ok x -> reads r t v x.
Proof. exact from_sql_reads. Qed.
(** Whatever the rules give a meaning to is read. *)
Theorem C77_complete : forall r t v x, representable v = true -> reads r t v x -> exists x', from_sql r t v = Ok x' /\ reads r t v x'.
Proof.
  intros r t v x R H. destruct (reads_from_sql r t v x R H) as (x' & E & _). exists x'. split; [exact E|]. exact (from_sql_reads r t v x' R E).
Qed.
(** Without maps, whose entries the rules leave unordered, the rules determine the result. *)
Theorem C77_exactly : forall r t v x, no_map r = true -> representable v = true -> (from_sql r t v = Ok x <-> reads r t v x).
Proof.
  intros r t v x N R. split; [exact (from_sql_reads r t v x R)|]. intros H.
  destruct (reads_from_sql r t v x R H) as (x' & E & D). now rewrite <- (D N).
Qed.
(** A map read from a column has every key once, with the value the key has last. *)
Theorem C77_maps : forall rk rv tk tv ks vs x, representable (VMap ks vs) = true ->
  from_sql (RMap rk rv) (TMap tk tv) (VMap ks vs) = Ok x ->
  exists kvs m, read_entries rk rv (strip_low_cardinality tk) (strip_low_cardinality tv) ks vs kvs /\ x = XMap m /\ last_values kvs m.
Proof.
  intros rk rv tk tv ks vs x R H. apply from_sql_reads in H; [|exact R]. inversion H; subst. eauto.
Qed.

Section ReadDemo.
  Local Open Scope Z_scope.
  (** Map(String, Array(Nullable(Int8))) into HashMap<String, Vec<Option<i8>>>, with a key twice. *)
  Let r := RMap RString (RVec (ROpt (RLeaf (LInt I8)))).
  Let t := TMap (TLowCard TString) (TArray (TNullable (TInt I8))).
  Let key (n : N) := VString [n].
  Let v := VMap [key 97; key 98; key 97] [VArray [VInt I8 1]; VArray []; VArray [VNull; VInt I8 (-5)]].
  Let x := XMap [(XStr [97%N], XList [XOpt None; XOpt (Some (XLeaf (VInt I8 (-5))))]); (XStr [98%N], XList [])].
  Example read_demo : representable v = true /\ from_sql r t v = Ok x.
  Proof. vm_compute. auto. Qed.
  Example C77_maps_nonvacuous : reads r t v x.
  Proof. apply C77_reads; apply read_demo. Qed.
  (** (bool, Vec<u8>, Bytes) from (UInt8, Array(UInt8), Array(Int8)). *)
  Let r2 := RTuple [RBool; RVec (RLeaf (LUInt I8)); RBytes].
  Let t2 := TTuple [TUInt I8; TArray (TUInt I8); TArray (TInt I8)].
  Let v2 := VTuple [VUInt I8 2; VArray [VUInt I8 7]; VArray [VInt I8 (-1); VInt I8 3]].
  Let x2 := XTuple [XBool true; XList [XLeaf (VUInt I8 7)]; XBytes [255%N; 3%N]].
  Example C77_nonvacuous : no_map r2 = true /\ representable v2 = true /\ reads r2 t2 v2 x2.
  Proof.
    assert (N : no_map r2 = true) by reflexivity. assert (R : representable v2 = true) by (vm_compute; reflexivity).
    repeat split; try assumption. apply C77_exactly; [assumption..|]. vm_compute. reflexivity.
  Qed.
End ReadDemo.

(** A Rust value is sent as the rules say, or not at all. *)
Theorem C78_sent : forall r x h v, bytes_are_bytes r x -> (to_sql r x h = Ok v <-> sent r h x v).
Proof. intros r x h v B. split; [exact (to_sql_sent r x h v B)|exact (sent_to_sql r x h v)]. Qed.

Section SendDemo.
  Local Open Scope Z_scope.
  (** (bool, HashMap<String, Option<i8>>, Bytes, Vec<i8>) for (UInt8, Map(String, Nullable(Int8)), Array(Int8), Array(String)) *)
  Let r := RTuple [RBool; RMap RString (ROpt (RLeaf (LInt I8))); RBytes; RVec (RLeaf (LInt I8))].
  Let h := Some (TTuple [TUInt I8; TMap TString (TNullable (TInt I8)); TArray (TInt I8); TArray TString]).
  Let x := XTuple [XBool true; XMap [(XStr [233%N], XOpt None); (XStr [97%N], XOpt (Some (XLeaf (VInt I8 4))))]; XBytes [200%N]; XList [XLeaf (VInt I8 (-1))]].
  Let v := VTuple [VUInt I8 1; VMap [VString [195%N; 169%N]; VString [97%N]] [VNull; VInt I8 4]; VArray [VInt I8 (-56)]; VString [255%N]].
  Example C78_nonvacuous : bytes_are_bytes r x /\ sent r h x v.
  Proof.
    assert (B : bytes_are_bytes r x).
    { cbn. repeat split; try (repeat (apply Forall_cons || apply Forall_nil || split || exact I)).
      intros _. constructor; [|constructor]. eexists. constructor. }
    split; [exact B|]. apply C78_sent; [exact B|]. vm_compute. reflexivity.
  Qed.
End SendDemo.

Print Assumptions C77_reads.
Print Assumptions C77_complete.
Print Assumptions C77_exactly.
Print Assumptions C77_maps.
Print Assumptions C78_sent.
