(** Properties C31, C32, C54, C55: inserts and queries through the public API. *)
From Coq Require Import String Lia.
From Verif Require Import Base Types Text IndexMap Block BlockSpec BlockProofs Progress Protocol Connection ConnectionSpec ConnectionProofs ConnectionExact
  Api ApiProofs MarkerProofs Props_Block Props_Protocol Props_Connection.
Local Open Scope list_scope.
Local Open Scope N_scope.

(* ===================== C31 ===================== *)

(** What an insert hands over, if it succeeds: one block for every non-empty batch, in order,
    then the empty block. *)
Theorem C31_one_block_per_batch : forall T ser_row types (batches : list (list T)) blocks,
  insert_batches ser_row types batches = (blocks, Ok tt) ->
  exists data, blocks = data ++ [empty_block] /\
    Forall2 (fun rows b => insert_block ser_row types rows = Ok b) (filter (fun l => match l with [] => false | _ => true end) batches) data.
Proof. intros T. exact (@insert_batches_ok T). Qed.

(** Each block holds exactly its batch: read row by row it is the rows as serialized, in
    order, under the header's types, and every value was checked against its column. *)
Theorem C31_block_holds_the_rows : forall T ser_row types (rows : list T) names b, rows <> [] -> NoDup names ->
  (forall r, In r rows -> exists row, ser_row r types = Ok row /\ map fst row = names) ->
  insert_block ser_row types rows = Ok b ->
  b_rows b = lenN rows /\ b_types b = types /\
  map (fun r => Ok r) (iter_rows b) = map (fun r => ser_row r types) rows /\
  Forall (fun e => Forall (fun v => exists t, im_get (fst e) types = Some t /\ validate_value t v = Ok tt) (snd e)) (b_data b).
Proof.
  intros T ser_row types rows names b NE ND H I.
  destruct (insert_block_rows ser_row types rows names b NE ND H I) as (E1 & E2 & _ & _ & E3 & E4).
  split; [exact E1|]. split; [exact E2|]. split; [|exact E4]. rewrite E3, map_map. apply map_ext_in. intros r R.
  unfold serialized. destruct (H r R) as (row & -> & _). reflexivity.
Qed.

(** An insert does succeed when all rows can be serialized and all values are accepted. *)
Theorem C31_succeeds : forall T ser_row types (rows : list T),
  (forall r, In r rows -> exists row, ser_row r types = Ok row /\
     forall k v, In (k, v) row -> exists t, im_get k types = Some t /\ validate_value t v = Ok tt) ->
  exists b, insert_block ser_row types rows = Ok b.
Proof.
  intros T ser_row types rows H. apply insert_block_succeeds.
  - intros r R. destruct (H r R) as (row & -> & _). discriminate.
  - intros r k v R I. destruct (H r R) as (row & E & V). unfold serialized in I. rewrite E in I. now apply V.
Qed.

(** How a batch is refused, exactly: at the first row whose serialization panics (the insert panics) or
    that has a value for a column the server does not have (a protocol error) or a value its column
    does not accept (the error of validation).  Rows whose serialization is an error do not count. *)
Definition accepted (types : imap ty) (kv : text * value) : Prop := exists t, im_get (fst kv) types = Some t /\ validate_value t (snd kv) = Ok tt.
Definition value_refused (types : imap ty) (kv : text * value) (r : res unit) : Prop :=
  (im_get (fst kv) types = None /\ r = Err EProtocol) \/ (exists t, im_get (fst kv) types = Some t /\ validate_value t (snd kv) = r /\ r <> Ok tt).
Definition row_taken {T} (ser_row : T -> imap ty -> res (list (text * value))) types (x : T) : Prop :=
  (exists e, ser_row x types = Err e) \/ (exists row, ser_row x types = Ok row /\ Forall (accepted types) row).
Definition row_refused {T} (ser_row : T -> imap ty -> res (list (text * value))) types (x : T) (r : res unit) : Prop :=
  (ser_row x types = Panic /\ r = Panic) \/
  (exists a kv b, ser_row x types = Ok (a ++ kv :: b) /\ Forall (accepted types) a /\ value_refused types kv r).
Lemma push_row_outcome types row : forall m,
  (Forall (accepted types) row /\ exists m', push_row types row m = Ok m') \/
  (exists a kv b r, row = a ++ kv :: b /\ Forall (accepted types) a /\ value_refused types kv r /\ rmap (fun _ => tt) (push_row types row m) = r /\ r <> Ok tt).
Proof.
  induction row as [|[k v] row IH]; intros m; [left; split; [constructor|cbn; eauto]|]. cbn [push_row].
  destruct (im_get k types) as [t|] eqn:G.
  - destruct (validate_value t v) as [[]|e|] eqn:V; cbn [rbind].
    + assert (A : accepted types (k, v)) by (exists t; auto). destruct (IH (push_value k v m)) as [[F E]|(a & kv & b & r & -> & F & R)].
      * left. split; [now constructor|exact E].
      * right. exists ((k, v) :: a), kv, b, r. split; [reflexivity|]. split; [now constructor|exact R].
    + right. exists [], (k, v), row, (Err e). split; [reflexivity|]. split; [constructor|]. split; [|split; [reflexivity|discriminate]]. right. exists t. split; [exact G|]. split; [exact V|discriminate].
    + right. exists [], (k, v), row, Panic. split; [reflexivity|]. split; [constructor|]. split; [|split; [reflexivity|discriminate]]. right. exists t. split; [exact G|]. split; [exact V|discriminate].
  - right. exists [], (k, v), row, (Err EProtocol). split; [reflexivity|]. split; [constructor|]. split; [|split; [reflexivity|discriminate]]. left. auto.
Qed.
Lemma push_rows_outcome {T} (ser_row : T -> imap ty -> res (list (text * value))) types rows : forall m,
  (Forall (row_taken ser_row types) rows /\ exists m', push_rows ser_row types rows m = Ok m') \/
  (exists a x b r, rows = a ++ x :: b /\ Forall (row_taken ser_row types) a /\ row_refused ser_row types x r /\ rmap (fun _ => tt) (push_rows ser_row types rows m) = r /\ r <> Ok tt).
Proof.
  induction rows as [|x rows IH]; intros m; [left; split; [constructor|cbn; eauto]|]. cbn [push_rows].
  assert (NEXT : forall m1, row_taken ser_row types x ->
    (Forall (row_taken ser_row types) (x :: rows) /\ exists m', push_rows ser_row types rows m1 = Ok m') \/
    (exists a y b r, x :: rows = a ++ y :: b /\ Forall (row_taken ser_row types) a /\ row_refused ser_row types y r /\ rmap (fun _ => tt) (push_rows ser_row types rows m1) = r /\ r <> Ok tt)).
  { intros m1 A. destruct (IH m1) as [[F E]|(a & y & b & r & -> & F & R)].
    - left. split; [now constructor|exact E].
    - right. exists (x :: a), y, b, r. split; [reflexivity|]. split; [now constructor|exact R]. }
  destruct (ser_row x types) as [row|e|] eqn:S.
  - destruct (push_row_outcome types row m) as [[F [m1 E]]|(a & kv & b & r & -> & F & V & R & NE)].
    + rewrite E. cbn [rbind]. apply NEXT. right. eauto.
    + right. exists [], x, rows, r. split; [reflexivity|]. split; [constructor|]. split; [right; exists a, kv, b; auto|]. split; [|exact NE].
      destruct (push_row types (a ++ kv :: b) m); cbn [rmap rbind] in *; congruence.
  - apply NEXT. left. eauto.
  - right. exists [], x, rows, Panic. split; [reflexivity|]. split; [constructor|]. split; [left; auto|]. split; [reflexivity|discriminate].
Qed.
Lemma taken_not_refused {T} (ser_row : T -> imap ty -> res (list (text * value))) types x r : row_taken ser_row types x -> row_refused ser_row types x r -> False.
Proof.
  intros [[e E]|[row [E F]]] [[P _]|(a & kv & b & S & _ & V)]; try congruence. rewrite S in E. injection E as <-. apply Forall_app in F as [_ F].
  inversion F as [|? ? [t [G K]] _]; subst. destruct V as [[V _]|(t' & V & W & NE)]; congruence.
Qed.
Lemma first_refused {T} (ser_row : T -> imap ty -> res (list (text * value))) types a : forall x b r a' x' b' r',
  a ++ x :: b = a' ++ x' :: b' -> Forall (row_taken ser_row types) a -> Forall (row_taken ser_row types) a' ->
  row_refused ser_row types x r -> row_refused ser_row types x' r' -> x = x'.
Proof.
  induction a as [|y a IH]; intros x b r [|y' a'] x' b' r' E F F' R R'; cbn [app] in E; injection E as -> E; try reflexivity.
  - inversion F'; subst. elim (taken_not_refused _ _ _ _ H1 R).
  - inversion F; subst. elim (taken_not_refused _ _ _ _ H1 R').
  - inversion F; inversion F'; subst. eapply IH; eauto.
Qed.
Lemma accepted_not_refused types kv r : accepted types kv -> value_refused types kv r -> False.
Proof. intros [t [G K]] [[V _]|(t' & V & W & NE)]; congruence. Qed.
Lemma refused_once {T} (ser_row : T -> imap ty -> res (list (text * value))) types x r r' : row_refused ser_row types x r -> row_refused ser_row types x r' -> r = r'.
Proof.
  intros [[P ->]|(a & kv & b & S & F & V)] [[P' ->]|(a' & kv' & b' & S' & F' & V')]; try congruence. rewrite S in S'. injection S' as E.
  assert (K : kv = kv').
  { clear S. revert a' E F'. induction a as [|y a IH]; intros [|y' a'] E F'; cbn [app] in E; injection E as -> E; try reflexivity.
    - inversion F'; subst. elim (accepted_not_refused _ _ _ H1 V).
    - inversion F; subst. elim (accepted_not_refused _ _ _ H1 V').
    - inversion F; inversion F'; subst. eapply IH; eauto. }
  subst kv'. destruct V as [[V ->]|(t & V & W & NE)], V' as [[V' ->]|(t' & V' & W' & NE')]; congruence.
Qed.
Theorem C31_refusal : forall T ser_row types (rows : list T),
  ((exists b, insert_block ser_row types rows = Ok b) <-> Forall (row_taken ser_row types) rows) /\
  (forall r, rmap (fun _ => tt) (insert_block ser_row types rows) = r /\ r <> Ok tt <->
     exists before x after, rows = before ++ x :: after /\ Forall (row_taken ser_row types) before /\ row_refused ser_row types x r).
Proof.
  intros T ser_row types rows. unfold insert_block. destruct (push_rows_outcome ser_row types rows []) as [[F [m E]]|(a & x & b & r0 & -> & F & R & E & NE)].
  - rewrite E. cbn [rbind rmap]. split; [split; [auto|eauto]|]. intros r. split; [intros [<- NE]; now elim NE|].
    intros (before & x & after & -> & _ & R). apply Forall_app in F as [_ F]. inversion F; subst. elim (taken_not_refused _ _ _ _ H1 R).
  - destruct (push_rows ser_row types (a ++ x :: b) []) as [m|e|]; cbn [rbind rmap] in *; [now elim NE| |].
    + split; [split; [intros [? H]; discriminate H|]|].
      * intros G. apply Forall_app in G as [_ G]. inversion G; subst. elim (taken_not_refused _ _ _ _ H1 R).
      * intros r. split; [intros [<- _]; subst r0; exists a, x, b; auto|]. intros (before & x' & after & E' & F' & R').
        rewrite <- (first_refused _ _ _ _ _ _ _ _ _ _ E' F F' R R') in R'. rewrite (refused_once _ _ _ _ _ R' R). auto.
    + split; [split; [intros [? H]; discriminate H|]|].
      * intros G. apply Forall_app in G as [_ G]. inversion G; subst. elim (taken_not_refused _ _ _ _ H1 R).
      * intros r. split; [intros [<- _]; subst r0; exists a, x, b; auto|]. intros (before & x' & after & E' & F' & R').
        rewrite <- (first_refused _ _ _ _ _ _ _ _ _ _ E' F F' R R') in R'. rewrite (refused_once _ _ _ _ _ R' R). auto.
Qed.
Print Assumptions C31_refusal.
Example C31_refusal_nonvacuous :
  let types := [([97], TUInt I8)] in
  let ser := fun (v : value) (_ : imap ty) => match v with VNull => Panic | VArray _ => Err EOther | VTuple _ => Ok [([97], VUInt I8 1); ([98], v)] | _ => Ok [([97], v)] end in
  rmap (fun _ => tt) (insert_block ser types [VUInt I8 3; VArray []; VUInt I8 4]) = Ok tt /\
  rmap (fun _ => tt) (insert_block ser types [VUInt I8 3; VNull; VTuple []]) = Panic /\
  rmap (fun _ => tt) (insert_block ser types [VUInt I8 3; VTuple []; VNull]) = Err EProtocol /\
  row_refused ser types (VTuple []) (Err EProtocol) /\ row_taken ser types (VArray []).
Proof.
  cbv zeta. split; [reflexivity|]. split; [reflexivity|]. split; [reflexivity|]. split; [|left; eauto].
  right. exists [([97], VUInt I8 1)], ([98], VTuple []), []. split; [reflexivity|]. split; [|left; split; reflexivity].
  constructor; [|constructor]. exists (TUInt I8). split; reflexivity.
Qed.

(** If it fails, the blocks of the batches before the failing one have been handed over. *)
Theorem C31_failure : forall T ser_row types (batches : list (list T)) blocks r,
  insert_batches ser_row types batches = (blocks, r) -> r <> Ok tt ->
  exists done bad todo, filter (fun l => match l with [] => false | _ => true end) batches = done ++ bad :: todo /\
    Forall2 (fun rows b => insert_block ser_row types rows = Ok b) done blocks /\
    rmap (fun _ => tt) (insert_block ser_row types bad) = r.
Proof. intros T. exact (@insert_batches_fail T). Qed.

(** Finding: a row that fails to serialize is skipped, but still counted, so its whole batch
    cannot be written and the connection is lost. *)
Theorem C56_bad_row_ends_connection : forall T ser_row types (rows : list T) b bad good k e C s q rest id w s',
  insert_block ser_row types rows = Ok b ->
  In bad rows -> ser_row bad types = Err e ->
  In good rows -> (exists row v, ser_row good types = Ok row /\ In (k, v) row) ->
  (forall r row, In r rows -> ser_row r types = Ok row -> NoDup (map fst row)) -> NoDup (im_keys types) ->
  k_queue s = RData q b :: rest -> step C s (Take id w) = Some s' ->
  k_task s' = TEnded /\ k_log s' = k_log s /\ forall evs s'', run C s' evs = Some s'' -> k_log s'' = k_log s /\ k_task s'' = TEnded.
Proof.
  intros T ser_row types rows b bad good k e C s q rest id w s' I B S G (row & v & SG & KV) ND NT Q H.
  assert (SR : serialized ser_row types good = row) by (unfold serialized; now rewrite SG).
  destruct (skipped_row_short ser_row types rows b bad good k e I B S G) as (vs & t & GM & GT & L).
  - rewrite SR. apply (in_map fst) in KV. exact KV.
  - intros r R. unfold serialized. destruct (ser_row r types) as [row'| |] eqn:E; [now apply (ND r)|constructor|constructor].
  - cbn [step] in H. rewrite Q in H. destruct (k_task s); try discriminate H. injection H as <-. cbn [handle_request].
    assert (BT : b_types b = types /\ NoDup (im_keys (b_data b))).
    { unfold insert_block in I. destruct (push_rows ser_row types rows []) as [m| |] eqn:P; try discriminate I. cbn [rbind] in I. injection I as <-.
      split; [reflexivity|]. destruct (push_rows_spec ser_row types rows [] m P) as (_ & N & _). apply N. constructor. }
    destruct BT as [BT ND'].
    assert (W : forall D rev, is_ok (write_block D rev b) = false).
    { intros D rev. apply (C18_ragged_fails D rev b k t vs); try assumption; [now rewrite BT|]. rewrite BT. now apply im_get_some_in. }
    assert (SD : is_ok (send_data C b [] false) = false).
    { unfold send_data. destruct (c_lz4 C).
      - unfold Compression.write_compressed. specialize (W (c_tz C) (c_rev C)). destruct (write_block (c_tz C) (c_rev C) b); [discriminate W|reflexivity|reflexivity].
      - specialize (W (c_tz C) (c_rev C)). destruct (write_block (c_tz C) (c_rev C) b); [discriminate W|reflexivity|reflexivity]. }
    assert (FIN : handle_request C (set_queue s rest) (RData q b) id w = finish (set_queue s rest)).
    { cbn [handle_request]. destruct (send_data C b [] false); [discriminate SD|reflexivity|reflexivity]. }
    cbn [handle_request] in FIN. rewrite FIN. clear. split; [reflexivity|]. split; [reflexivity|].
    assert (G : forall evs (z : state), k_task z = TEnded -> forall z', run C z evs = Some z' -> k_log z' = k_log z /\ k_task z' = TEnded).
    { induction evs as [|ev evs IH]; intros z T z' H; cbn in H; [injection H as <-; auto|].
      destruct (step C z ev) as [z1|] eqn:E; [|discriminate H]. destruct (task_ended_step C z ev z1 T E) as [T1 L1].
      destruct (IH z1 T1 z' H) as [A B]. split; [congruence|exact B]. }
    intros evs s'' H. destruct (G evs (finish (set_queue s rest)) eq_refl s'' H) as [A B]. split; [rewrite A; reflexivity|exact B].
Qed.

(** A row type for the examples: an id and a name; [None] fails to serialize. *)
Definition demo_types : imap ty := [(txt "id", TUInt I64); (txt "name", TString)].
Definition demo_ser (r : option (N * list N)) (_ : imap ty) : res (list (text * value)) :=
  match r with Some (i, n) => Ok [(txt "id", VUInt I64 i); (txt "name", VString n)] | None => Err ESer end.
Example C31_nonvacuous :
  (exists b, insert_block demo_ser demo_types [Some (1, [97]); Some (2, [98])] = Ok b /\
     is_ok (send_data (demo_conn false) b [] false) = true /\
     insert_batches demo_ser demo_types [[]; [Some (1, [97]); Some (2, [98])]; []] = ([b; empty_block], Ok tt)) /\
  (exists b, insert_block demo_ser demo_types [Some (1, [97]); None] = Ok b /\
     send_data (demo_conn false) b [] false = Err EProtocol).
Proof.
  split; eexists; (split; [vm_compute; reflexivity|]).
  - split; vm_compute; reflexivity.
  - vm_compute. reflexivity.
Qed.

Example C56_nonvacuous : exists b s s',
  insert_block demo_ser demo_types [Some (1, [97]); None; Some (2, [98])] = Ok b /\ demo_ser None demo_types = Err ESer /\
  (exists row v, demo_ser (Some (1, [97])) demo_types = Ok row /\ In (txt "id", v) row) /\
  run (demo_conn false) init [Submit (txt "INSERT INTO t FORMAT Native"); Take (txt "id0") WOk; SubmitData 0 b] = Some s /\
  k_queue s = [RData 0 b] /\ step (demo_conn false) s (Take [] WOk) = Some s' /\ NoDup (im_keys demo_types).
Proof.
  do 3 eexists. split; [vm_compute; reflexivity|]. split; [reflexivity|]. split; [do 2 eexists; split; [reflexivity|left; reflexivity]|].
  split; [vm_compute; reflexivity|]. split; [reflexivity|]. split; [reflexivity|].
  vm_compute. constructor; [intros [A|[]]; discriminate A|constructor; [intros []|constructor]].
Qed.

Print Assumptions C31_one_block_per_batch.
Print Assumptions C31_block_holds_the_rows.
Print Assumptions C31_succeeds.
Print Assumptions C31_failure.
Print Assumptions C56_bad_row_ends_connection.

(* ===================== C32 ===================== *)

(** [query] yields for every block one item per row, in order, and for an exception one error.
    [row_of b i] is row [i] of the block: the [i]-th value of every column. *)
Theorem C32_query : forall T (deserialize : list (text * ty * value) -> res T) items, Forall proper_item items ->
  query deserialize items =
  flat_map (fun i => match i with
                     | IBlock b => map (fun n => deserialize (row_of b n)) (seq 0 (N.to_nat (b_rows b)))
                     | IError _ => [Err EServerException]
                     end) items.
Proof.
  intros T d items H. rewrite query_spec by exact H. apply flat_map_ext. intros [b|e]; [|reflexivity]. cbn. unfold rows_of. apply map_map.
Qed.

(** [query_collect] succeeds with exactly the rows if every item is a row, and otherwise
    returns the first error of the stream. *)
Theorem C32_collect_ok : forall T (deserialize : list (text * ty * value) -> res T) items out,
  query_collect deserialize items = Ok out <-> query deserialize items = map Ok out.
Proof. intros T d items out. apply collect_ok. Qed.
Theorem C32_collect_error : forall T (deserialize : list (text * ty * value) -> res T) items e,
  query_collect deserialize items = Err e <-> exists rows rest, query deserialize items = map Ok rows ++ Err e :: rest.
Proof. intros T d items e. apply collect_err. Qed.

(** [query_one] and [query_opt] are the first item. *)
Theorem C32_one_and_opt : forall T (deserialize : list (text * ty * value) -> res T) items,
  query_one deserialize items = match query deserialize items with [] => Err EMissingRow | r :: _ => r end /\
  (forall r, query_opt deserialize items = Ok (Some r) <-> exists rest, query deserialize items = Ok r :: rest) /\
  (query_opt deserialize items = Ok None <-> query deserialize items = []) /\
  (forall e, query_opt deserialize items = Err e <-> exists rest, query deserialize items = Err e :: rest).
Proof.
  intros T d items. unfold query_one, query_opt. destruct (query d items) as [|r rest].
  - split; [reflexivity|]. split; [|split].
    + intros r. split; [discriminate|]. intros [rest H]. discriminate H.
    + now split.
    + intros e. split; [discriminate|]. intros [rest H]. discriminate H.
  - split; [reflexivity|]. split; [|split].
    + intros x. split; [destruct r; cbn; intros H; try discriminate H; injection H as ->; eauto|]. intros [rest' H]. injection H as -> _. reflexivity.
    + split; [destruct r; cbn; discriminate|discriminate].
    + intros e. split; [destruct r; cbn; intros H; try discriminate H; injection H as ->; eauto|]. intros [rest' H]. injection H as -> _. reflexivity.
Qed.

(** [execute] succeeds iff the server reported no exception. *)
Theorem C32_execute : forall items, Forall proper_item items ->
  execute items = if existsb (fun i => match i with IError _ => true | _ => false end) items then Err EServerException else Ok tt.
Proof. exact execute_spec. Qed.

Example C32_nonvacuous : Forall proper_item [IBlock demo_block; IBlock empty_block; IError demo_exception] /\
  query (fun row => Ok (lenN row)) [IBlock demo_block; IBlock empty_block; IError demo_exception] = [Ok 2; Ok 2; Err EServerException].
Proof.
  split; [|vm_compute; reflexivity].
  assert (P : proper demo_block).
  { split; [repeat (apply Forall_cons || apply Forall_nil); reflexivity|]. split; [|split; [discriminate|reflexivity]].
    intros k K. cbn in K. destruct K as [<-|[<-|[]]]; vm_compute; discriminate. }
  repeat (apply Forall_cons || apply Forall_nil); [exact P| |exact I].
  split; [constructor|]. split; [intros k []|split; reflexivity].
Qed.

Print Assumptions C32_query.
Print Assumptions C32_collect_ok.
Print Assumptions C32_collect_error.
Print Assumptions C32_one_and_opt.
Print Assumptions C32_execute.

(* ===================== C54 ===================== *)

Definition demo_header : block := {| b_info := default_info; b_rows := 0; b_types := demo_types; b_data := [(txt "id", []); (txt "name", [])] |}.
Definition demo_batches : list (list (option (N * list N))) := [[Some (1, [97])]].

(** And of one that failed: without a header from the server nothing was handed over; otherwise the blocks of the batches before
    the first that cannot be made into a block. *)
Theorem C54_failed : forall T ser_row first (batches : list (list T)) blocks r,
  insert_native ser_row first batches = (blocks, r) -> r <> Ok tt ->
  (first = None /\ blocks = [] /\ r = Err EProtocol) \/
  (exists e, first = Some (IError e) /\ blocks = [] /\ r = Err EServerException) \/
  exists h before rows after, first = Some (IBlock h) /\ batches = before ++ rows :: after /\
    Forall2 (fun rows b => insert_block ser_row (b_types h) rows = Ok b) (filter (fun l => match l with [] => false | _ => true end) before) blocks /\
    rows <> [] /\ rmap (fun _ => tt) (insert_block ser_row (b_types h) rows) = r.
Proof.
  intros T ser_row first batches blocks r H NE. destruct first as [[h|e]|]; cbn [insert_native] in H; [|injection H as <- <-; right; left; now exists e|injection H as <- <-; now left].
  right. right. exists h. revert blocks H. induction batches as [|rows batches IH]; intros blocks H; cbn [insert_batches] in H; [injection H as <- <-; now elim NE|].
  destruct rows as [|x rows].
  - destruct (IH blocks H) as (before & rows & after & F & -> & F2 & N & R). exists ([] :: before), rows, after. repeat split; auto.
  - destruct (insert_block ser_row (b_types h) (x :: rows)) as [b|e|] eqn:E.
    + destruct (insert_batches ser_row (b_types h) batches) as [bs r'] eqn:EB. injection H as <- <-. destruct (IH bs eq_refl) as (before & rows' & after & F & -> & F2 & N & R).
      exists ((x :: rows) :: before), rows', after. split; [exact F|]. split; [reflexivity|]. split; [|split; [exact N|exact R]]. cbn [filter]. constructor; [exact E|exact F2].
    + injection H as <- <-. exists [], (x :: rows), batches. rewrite E. repeat split; [constructor|discriminate].
    + injection H as <- <-. exists [], (x :: rows), batches. rewrite E. repeat split; [constructor|discriminate].
Qed.
Print Assumptions C54_failed.

(** What a successful insert does tell: all its blocks were handed over, the final one included. *)
Theorem C54_sent_when_ok : forall T ser_row first (batches : list (list T)) blocks,
  insert_native ser_row first batches = (blocks, Ok tt) ->
  exists h data, first = Some (IBlock h) /\ blocks = data ++ [empty_block] /\
    Forall2 (fun rows b => insert_block ser_row (b_types h) rows = Ok b) (filter (fun l => match l with [] => false | _ => true end) batches) data.
Proof.
  intros T ser_row first batches blocks H. destruct first as [[h|e]|]; [|discriminate H|discriminate H].
  destruct (insert_batches_ok ser_row (b_types h) batches blocks H) as (data & E & F). eauto.
Qed.

(** What it does not tell: once the insert has returned nobody listens to its query any more, and
    an exception the server answers with then reaches nobody, this caller or another. *)
Theorem C54_later_exception_reaches_nobody : forall C s q u st e id w s', reachable C s -> in_flight (k_log s) = Some (q, u) ->
  k_view s q = VStream st -> s_rx st = false -> step C s (Packet (PException e) id w) = Some s' ->
  forall n, heard (k_view s' n) = heard (k_view s n).
Proof. exact exception_unheard. Qed.

Definition demo_inserted : block := {| b_info := default_info; b_rows := 1; b_types := demo_types; b_data := [(txt "id", [VUInt I64 1]); (txt "name", [VString [97]])] |}.
(** Finding: an insert returns [Ok] although the server rejects it: the exception arrives after
    the insert has returned and nobody sees it. *)
Theorem C54_rejected_insert_is_ok_refuted : exists data s,
  insert_native demo_ser (Some (IBlock demo_header)) demo_batches = (data ++ [empty_block], Ok tt) /\
  run (demo_conn false) init
    ([Submit (txt "INSERT INTO t FORMAT Native"); Take (txt "id0") WOk; Packet (PData [] demo_header) [] WOk; Consume 0] ++
     flat_map (fun b => [SubmitData 0 b; Take [] WOk]) (data ++ [empty_block]) ++
     [Abandon 0; Packet (PException demo_exception) [] WOk]) = Some s /\
  answer 0 (k_log s) = [IBlock demo_header; IError demo_exception] /\
  k_view s 0%nat = VStream {| s_read := [IBlock demo_header]; s_buf := []; s_tx := false; s_rx := false |}.
Proof. exists [demo_inserted]. eexists. split; [vm_compute; reflexivity|]. split; [vm_compute; reflexivity|]. vm_compute. split; reflexivity. Qed.

Example C54_nonvacuous : exists blocks, insert_native demo_ser (Some (IBlock demo_header)) demo_batches = (blocks, Ok tt) /\ lenN blocks = 2.
Proof. eexists. split; vm_compute; reflexivity. Qed.
Print Assumptions C54_sent_when_ok.
Print Assumptions C54_later_exception_reaches_nobody.
Print Assumptions C54_rejected_insert_is_ok_refuted.

(* ===================== C55 ===================== *)

(** As long as the server does not end the query in flight nothing else is sent, whatever the
    callers do. *)
Theorem C55_waits_for_the_server : forall C s s' evs x, reachable C s -> in_flight (k_log s) = Some x ->
  Forall (fun ev => match ev with Packet p _ _ => ends p = false | _ => True end) evs -> run C s evs = Some s' ->
  sent_queries (k_log s') = sent_queries (k_log s).
Proof. intros C s s' evs x R F Q H. exact (held_run C evs s s' x (reachable_inv C s R) F Q H). Qed.

(** A failing insert sends nothing after the failure, in particular no final block: every block
    handed over has rows and columns, as long as each batch has a row with a value (C90 is about
    batches without). *)
Theorem C55_failed_insert_sends_no_end : forall T ser_row types (batches : list (list T)) blocks r,
  insert_batches ser_row types batches = (blocks, r) -> r <> Ok tt ->
  (forall rows, In rows batches -> rows <> [] -> exists x kv row, In x rows /\ ser_row x types = Ok (kv :: row)) ->
  Forall (fun b => is_empty b = false) blocks.
Proof.
  intros T ser_row types batches blocks r H NR GS. destruct (insert_batches_fail ser_row types batches blocks r H NR) as (done & bad & todo & E & F & _).
  assert (NE : Forall (fun l : list T => l <> [] /\ In l batches) done).
  { apply Forall_forall. intros l L. assert (X : In l (filter (nonempty (T := T)) batches)) by (rewrite E; apply in_or_app; now left).
    apply filter_In in X as [IN X]. split; [now destruct l|exact IN]. }
  clear E H. induction F as [|rows b done blocks I _ IH]; [constructor|]. constructor; [|exact (IH (Forall_inv_tail NE))].
  destruct (Forall_inv NE) as [N IN]. unfold is_empty. apply Bool.orb_false_iff. split.
  - unfold insert_block in I. destruct (push_rows ser_row types rows []); try discriminate I. cbn [rbind] in I. injection I as <-.
    apply N.eqb_neq. cbn. unfold lenN. destruct rows; [contradiction|cbn; lia].
  - destruct (no_columns b) eqn:NC; [exfalso|reflexivity]. pose proof (proj1 (marker_iff ser_row types rows b I) NC) as G.
    destruct (GS rows IN N) as (x & kv & row & X & S). destruct (proj1 (Forall_forall _ _) G x X) as [[e S']|S']; congruence.
Qed.

(** So from any state with an insert in flight for which no final block has been sent or queued,
    on any schedule in which nobody sends one and the server ends the query only after having
    got it, no other query is ever sent and the insert stays in flight. *)
Theorem C55_open_insert_blocks : forall C s s' evs q u, reachable C s -> in_flight (k_log s) = Some (q, u) ->
  (closing_blocks (k_log s) <= 1)%nat -> Forall no_closing (k_queue s) -> Forall no_closing_event evs ->
  server_waits C s evs -> run C s evs = Some s' ->
  in_flight (k_log s') = Some (q, u) /\ sent_queries (k_log s') = sent_queries (k_log s).
Proof. intros C s s' evs q u R F CB NC NE SW H. exact (open_insert_run C evs s s' (q, u) (reachable_inv C s R) F CB NC NE SW H). Qed.

(** Finding: so an insert that fails on a value (here a UInt64 column given a string) leaves
    its query open on the connection: the server waits for data, and every later query of this
    connection waits for the server. *)
Definition demo_bad_ser (r : N) (_ : imap ty) : res (list (text * value)) := Ok [(txt "id", VString [r])].
Theorem C55_failed_insert_blocks_connection_refuted : exists s,
  insert_native demo_bad_ser (Some (IBlock demo_header)) [[7]] = ([], Err ETypeParse) /\
  run (demo_conn false) init
    [Submit (txt "INSERT INTO t FORMAT Native"); Take (txt "id0") WOk; Packet (PData [] demo_header) [] WOk; Consume 0; Abandon 0;
     Submit (txt "SELECT 1"); Take [] WOk] = Some s /\ k_task s = TSelect /\
  (forall evs s', Forall quiet evs -> run (demo_conn false) s evs = Some s' -> ~ In 1%nat (map fst (sent_queries (k_log s')))).
Proof.
  match goal with |- exists s, ?a /\ ?r = Some s /\ _ => destruct r as [s|] eqn:E; [|vm_compute in E; discriminate E] end.
  exists s. pose proof (run_reachable _ _ _ _ (reach_init _) E) as R. split; [vm_compute; reflexivity|]. split; [reflexivity|].
  assert (F : k_task s = TSelect /\ in_flight (k_log s) = Some (0%nat, txt "id0") /\ map fst (sent_queries (k_log s)) = [0%nat]).
  { vm_compute in E. injection E as <-. vm_compute. repeat split. }
  destruct F as (T & F & S). split; [exact T|]. intros evs s' Q H. rewrite (C55_waits_for_the_server _ _ _ _ _ R F Q H), S.
  intros [X|[]]. discriminate X.
Qed.
Example C55_nonvacuous : exists s, run (demo_conn false) init (firstn 12 demo_run) = Some s /\ in_flight (k_log s) = Some (1%nat, txt "id1").
Proof.
  destruct (run (demo_conn false) init (firstn 12 demo_run)) as [s|] eqn:E; [|vm_compute in E; discriminate E].
  vm_compute in E. injection E as <-. eexists. split; reflexivity.
Qed.
Example C55_open_nonvacuous : exists s, run (demo_conn false) init
    [Submit (txt "INSERT INTO t FORMAT Native"); Take (txt "id0") WOk; Packet (PData [] demo_header) [] WOk; Consume 0; SubmitData 0 demo_inserted] = Some s /\
  in_flight (k_log s) = Some (0%nat, txt "id0") /\ closing_blocks (k_log s) = 1%nat /\ Forall no_closing (k_queue s) /\
  server_waits (demo_conn false) s [Take [] WOk; Submit (txt "SELECT 1"); Take [] WOk; Packet (PProgress demo_progress) [] WOk] /\
  Forall no_closing_event [Take [] WOk; Submit (txt "SELECT 1"); Take [] WOk; Packet (PProgress demo_progress) [] WOk].
Proof.
  match goal with |- exists s, ?r = Some s /\ _ => destruct r as [s|] eqn:E; [|vm_compute in E; discriminate E] end.
  vm_compute in E. injection E as <-. eexists. split; [reflexivity|]. vm_compute. repeat split; try (intros X; discriminate X).
  - constructor; [reflexivity|constructor].
  - repeat constructor.
Qed.
Print Assumptions C55_waits_for_the_server.
Print Assumptions C55_failed_insert_sends_no_end.
Print Assumptions C55_open_insert_blocks.
Print Assumptions C55_failed_insert_blocks_connection_refuted.
