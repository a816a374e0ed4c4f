(** Property C85: on a shared connection every caller gets the rows of its own query, from the bytes up. *)
From Coq Require Import String Permutation Lia.
From Verif Require Import Base Io Types IndexMap Text TypeText TypeTextProofs Block BlockSpec Progress Protocol ProtocolSpec ProtocolProofs Connection ConnectionSpec ConnectionProofs
  ReaderLoop Session SessionSpec SessionProofs ColumnSpec DecodeProofs2 WireProofs WireSpec Api ApiProofs TripSpec StoreSpec StoreProofs ServeSpec ServeProofs Props_TypeText Props_Protocol Props_Connection Props_Session.
Local Open Scope list_scope.
Local Open Scope N_scope.

Lemma hello_read B h more : hello_ok h -> (h_revision h <> 54058 /\ h_revision h <> 54372 /\ h_revision h <> 54401) ->
  receive_hello (at_revision B 0) (enc_packet (PHello h) ++ more) = Ok (h, more).
Proof.
  intros H R. unfold receive_hello, rdbind. rewrite (C40_packets (at_revision B 0) (PHello h) more H R). reflexivity.
Qed.

Lemma both_nth {A A'} (R : A -> A' -> Prop) l m da db : Forall2 R l m -> forall q,
  (exists a b, nth_error l q = Some a /\ nth q l da = a /\ nth q m db = b /\ R a b) \/ (nth q l da = da /\ nth q m db = db).
Proof.
  induction 1 as [|a b l m H F IH]; intros q; [right; now destruct q|]. destruct q as [|q]; [left; exists a, b; auto|]. apply IH.
Qed.
Lemma session_reachable O B es z : zrun O B session_init es = Some z -> exists C, reachable C (z_conn z).
Proof.
  intros R. pose proof (live_inv _ _ _ (zrun_live _ _ _ _ _ (live_init _ _) R)) as Z. unfold zinv in Z.
  destruct (z_phase z); [exists B; apply Z|exists B; apply Z|eexists; apply Z].
Qed.

(** A session in which the server greets and then answers the queries it is sent, one after the
    other, its bytes arriving in any pieces, while any number of callers submit queries, send
    blocks, read their streams slowly or not at all, or go away.  The row stream of the caller of
    query [q] is at every moment the beginning of: the rows of the [q]-th answer, each decoded, and the
    server's exception if the answer ends with one.  When the stream has ended (and the connection has
    not) it is all of that. *)
Theorem C85_each_caller_its_answer : forall O B h es z (rs : list reply) bss T (de : list (text * ty * value) -> res T) q st,
  let C := at_revision B (h_revision h) in
  tzdb_ok (c_tz B) -> hello_ok h -> (h_revision h <> 54058 /\ h_revision h <> 54372 /\ h_revision h <> 54401) ->
  Forall2 (fun r bs => reply_wire C (fst r) (snd r) bs) rs bss ->
  zrun O B session_init es = Some z -> calm O B es -> in_turn O B (enc_packet (PHello h)) bss es ->
  k_view (z_conn z) q = VStream st ->
  let whole := fun r : reply => map de (map unwrapped (fst r)) ++ match snd r with Some _ => [Err EServerException] | None => [] end in
  (exists r later, nth q rs ([], None) = r /\ whole r = query de (s_read st) ++ later) /\
  (k_task (z_conn z) <> TEnded -> s_rx st = true -> s_tx st = false -> s_buf st = [] ->
   exists r, nth_error rs q = Some r /\ query de (s_read st) = whole r).
Proof.
  intros O B h es z rs bss T de q st C DB HO RV F R K IT V whole.
  destruct (replies_groups C rs bss DB F) as (pss & G & L & D & Q).
  destruct (session_answers O B _ h es z bss pss (fun more => hello_read B h more HO RV) D G R K IT q) as (used & left & E & A & FIN).
  destruct (session_reachable _ _ _ _ R) as [C' RE].
  assert (SPLIT : forall r, nth q rs ([], None) = r -> whole r = query de (items_of used) ++ query de (items_of left)).
  { intros r <-. rewrite <- query_app, <- items_app, <- E. destruct (@both_nth reply _ _ _ _ ([], None) [] Q q) as [(a & b & _ & E1 & E2 & X)|[E1 E2]]; rewrite E1, E2; [|reflexivity].
    symmetry. apply X. }
  split.
  - destruct (C27_delivery C' _ q st RE V) as [_ [rest RD]]. eexists. exists (query de rest ++ query de (items_of left)). split; [reflexivity|].
    rewrite (SPLIT _ eq_refl), <- A, RD, query_app, <- app_assoc. reflexivity.
  - intros TA RX TX BF. destruct (C52_complete_while_alive C' _ q st RE TA V TX BF RX) as [EN RD]. rewrite EN in FIN. destruct (FIN eq_refl) as [-> NE].
    destruct (@both_nth reply _ _ _ _ ([], None) [] Q q) as [(a & b & N & NA & _)|[_ NB]]; [|rewrite NB in E; now destruct used].
    exists a. split; [exact N|]. rewrite (SPLIT a NA), RD, A, app_nil_r. reflexivity.
Qed.
Print Assumptions C85_each_caller_its_answer.

(** So a caller that collects its rows gets those of its own answer, in the order in which the server
    sent them, or the server's exception; and one that only executes learns whether its query succeeded. *)
Theorem C85_collects_its_rows : forall O B h es z (rs : list reply) bss q st,
  let C := at_revision B (h_revision h) in
  tzdb_ok (c_tz B) -> hello_ok h -> (h_revision h <> 54058 /\ h_revision h <> 54372 /\ h_revision h <> 54401) ->
  Forall2 (fun r bs => reply_wire C (fst r) (snd r) bs) rs bss ->
  zrun O B session_init es = Some z -> calm O B es -> in_turn O B (enc_packet (PHello h)) bss es ->
  k_view (z_conn z) q = VStream st -> k_task (z_conn z) <> TEnded -> s_rx st = true -> s_tx st = false -> s_buf st = [] ->
  exists table failure, nth_error rs q = Some (table, failure) /\
  execute (s_read st) = match failure with None => Ok tt | Some _ => Err EServerException end /\
  forall T (de : list (text * ty * value) -> res T) types (f : T -> list (text * value)) (rows : list T),
    (forall r cols, In r rows -> Permutation cols (read_back types (f r)) -> de cols = Ok r) ->
    Forall2 same_row (map (fun r => as_stored types (f r)) rows) table ->
    query_collect de (s_read st) = match failure with None => Ok rows | Some _ => Err EServerException end.
Proof.
  intros O B h es z rs bss q st C DB HO RV F R K IT V TA RX TX BF.
  pose proof (fun T de => proj2 (C85_each_caller_its_answer O B h es z rs bss T de q st DB HO RV F R K IT V) TA RX TX BF) as A. cbv zeta in A.
  assert (COL : forall T (l : list T) (f : option server_exception),
    collect (map Ok l ++ match f with Some _ => [Err EServerException] | None => [] end) = match f with None => Ok l | Some _ => Err EServerException end).
  { intros T l f. induction l as [|x l IH]; cbn [map app collect].
    - destruct f; reflexivity.
    - rewrite IH. destruct f; reflexivity. }
  destruct (A _ (fun row => Ok row)) as ([table failure] & N & X). cbn [fst snd] in X. exists table, failure. split; [exact N|]. split.
  - unfold execute, query_collect. rewrite X, COL. destruct failure; reflexivity.
  - intros T de types f rows RE SR. destruct (A T de) as (r & N' & Y). rewrite N in N'. injection N' as <-. cbn [fst snd] in Y.
    unfold query_collect. rewrite Y, (answered de types f rows RE table SR). apply COL.
Qed.
Print Assumptions C85_collects_its_rows.

(** Two callers on one connection, their queries submitted before either is answered: one gets two
    rows (with progress in between, the bytes in pieces), the other one an exception. *)
Definition serve_conn : conn := at_revision (demo_conn false) 54429.
Definition serve_block : block :=
  {| b_info := default_info; b_rows := 2; b_types := [([97], TUInt I8); ([98], TString)]; b_data := [([97], [VUInt I8 7; VUInt I8 8]); ([98], [VString [120]; VString []])] |}.
Definition serve_progress : progress :=
  {| read_rows := 5; read_bytes := 40; new_total_rows_to_read := 10; new_written_rows := Some 0; new_written_bytes := Some 0 |}.
Definition serve_body : list N := match send_data serve_conn serve_block [] false with Ok (_ :: _ :: body) => body | _ => [] end.
Definition serve_rows : list stored_row := [[([97], TUInt I8, VUInt I8 7); ([98], TString, VString [120])]; [([97], TUInt I8, VUInt I8 8); ([98], TString, VString [])]].
Definition serve_bytes : list (list N) :=
  [enc_packet PEndOfStream; enc_packet (PProgress serve_progress) ++ enc_data 1 [] serve_body ++ enc_packet PPong ++ enc_packet PEndOfStream; enc_packet (PException demo_exception)].
Definition serve_replies : list reply := [([], None); (serve_rows, None); ([], Some demo_exception)].
Definition serve_session : list zevent :=
  [ ZCall (Submit start_query); ZSendHello true; ZArrive demo_greeting; ZPoll [] WOk; ZTake (txt "id0") WOk; ZArrive (nth 0 serve_bytes []); ZPoll (txt "x") WOk;
    ZCall (Submit (txt "SELECT a, b FROM t")); ZCall (Submit (txt "SELECT x FROM u")); ZTake (txt "id1") WOk; ZTake [] WOk;
    ZArrive (firstn 9 (nth 1 serve_bytes [])); ZPoll [] WOk; ZArrive (skipn 9 (nth 1 serve_bytes []));
    ZPoll [] WOk; ZPoll [] WOk; ZPoll [] WOk; ZPoll (txt "id2") WOk; ZArrive (nth 2 serve_bytes []); ZPoll [] WOk; ZCall (Consume 1); ZCall (Consume 2) ].
Lemma serve_payload : payload_wire serve_conn serve_rows serve_body.
Proof.
  destruct (conforms serve_conn serve_block Props_TypeText.demo_tz_ok) as (body & info & S & H).
  - split; [repeat (apply NoDup_cons || apply NoDup_nil); vm_compute; intuition discriminate|].
    split; [repeat (apply NoDup_cons || apply NoDup_nil); vm_compute; intuition discriminate|]. split; [|split; vm_compute; reflexivity].
    intros k t [[= <- <-]|[[= <- <-]|[]]]; eexists; (split; [reflexivity|]); (split; [split; [reflexivity|vm_compute; discriminate]|]);
      (split; [split; [reflexivity|vm_compute; discriminate]|]); (split; [exact I|]); (split; [reflexivity|]); intros _; (split; [reflexivity|]);
      (split; [repeat (apply Forall_cons || apply Forall_nil); reflexivity|]);
      repeat match goal with
             | |- fits _ _ => unfold fits; fold fits; unfold within
             | |- _ /\ _ => split
             | |- Forall _ _ => repeat (apply Forall_cons || apply Forall_nil)
             | |- _ => exact I || (vm_compute; (discriminate || reflexivity))
             end.
  - reflexivity.
  - intros E. discriminate E.
  - discriminate.
  - vm_compute. reflexivity.
  - assert (E : serve_body = body). { unfold serve_body. rewrite S. reflexivity. } rewrite E. do 3 eexists. split; [exact H|]. vm_compute. reflexivity.
Qed.
Example C85_nonvacuous :
  Forall2 (fun r bs => reply_wire serve_conn (fst r) (snd r) bs) serve_replies serve_bytes /\
  exists z, zrun demo_options (demo_conn false) session_init serve_session = Some z /\ calm demo_options (demo_conn false) serve_session /\
    in_turn demo_options (demo_conn false) demo_greeting serve_bytes serve_session /\ k_task (z_conn z) = TSelect /\
    (exists st, k_view (z_conn z) 1 = VStream st /\ s_rx st = true /\ s_tx st = false /\ s_buf st = [] /\ length (s_read st) = 1%nat) /\
    (exists st, k_view (z_conn z) 2 = VStream st /\ s_rx st = true /\ s_tx st = false /\ s_buf st = [] /\ s_read st = [IError demo_exception]).
Proof.
  split.
  - assert (EO : exception_ok demo_exception) by (repeat match goal with |- _ /\ _ => split | |- _ => progress unfold exception_ok, progress_ok, name_fits end; vm_compute; first [reflexivity|discriminate|exact I|intuition discriminate]).
    assert (PO : progress_ok 54429 serve_progress) by (repeat match goal with |- _ /\ _ => split | |- _ => progress unfold exception_ok, progress_ok, name_fits end; vm_compute; first [reflexivity|discriminate|exact I|intuition discriminate]).
    repeat (apply Forall2_cons || apply Forall2_nil); cbn [fst snd].
    + constructor.
    + apply rw_aside; [exact I|exact PO|]. rewrite <- (app_nil_r serve_rows). apply rw_rows; [split; [reflexivity|vm_compute; discriminate]|exact serve_payload|].
      apply rw_aside; [exact I|exact I|]. constructor.
    + constructor. exact EO.
  - match goal with |- exists z, ?r = Some z /\ _ => destruct r as [z|] eqn:E; [|vm_compute in E; discriminate E] end.
    exists z. split; [reflexivity|]. split; [apply calmb_calm; vm_compute; reflexivity|]. split; [apply in_turnb_ok; vm_compute; reflexivity|].
    vm_compute in E. apply (f_equal (fun o => match o with Some z => z_conn z | None => init end)) in E. cbn [z_conn] in E. rewrite <- E.
    split; [reflexivity|]. split; (eexists; split; [reflexivity|]; repeat split).
Qed.
