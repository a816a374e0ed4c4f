(** C50: migrations. *)
From Coq Require Import String Permutation.
From Verif Require Import Base Types Text ConvertSpec Numeral NumeralProofs Literal Query Lock RawRow Numeric Convert Migrate MigrateProofs.
Local Open Scope list_scope.
Local Open Scope N_scope.

(** An error message that says that the lock table exists. *)
Definition taken (m : text) : Prop := exists x y, m = x ++ txt "already exists" ++ y.
Lemma prefix_iff pat : forall s, prefix pat s = true <-> exists y, s = pat ++ y.
Proof.
  induction pat as [|p pat IH]; intros s; cbn [prefix app]; [split; eauto|]. destruct s as [|c s]; [split; [discriminate|intros [y H]; discriminate H]|].
  rewrite Bool.andb_true_iff, N.eqb_eq, IH. split; [intros [-> [y ->]]; eauto|intros [y H]; injection H as -> ->; eauto].
Qed.
Lemma contains_iff pat s : contains pat s = true <-> exists x y, s = x ++ pat ++ y.
Proof.
  induction s as [|c s IH]; cbn [contains].
  - rewrite Bool.orb_false_r, prefix_iff. split; [intros [y H]; exists [], y; exact H|intros ([|] & y & H); [eauto|discriminate H]].
  - rewrite Bool.orb_true_iff, prefix_iff, IH. split.
    + intros [[y H]|(x & y & H)]; [exists [], y; exact H|exists (c :: x), y; now rewrite H].
    + intros ([|c' x] & y & H); [left; eauto|injection H as -> H; right; eauto].
Qed.

(** The whole behaviour of [execute], for every list of scripts and every sequence of answers of the
    server (answer number [i] is to the [i]-th statement the call waits for):
    the trace is [a] (CREATE/DROP of the lock table), then the first [k] statements of the scripts
    in order, then [b] (the release). *)
Theorem C50_runs_in_order_under_the_lock : forall U tokenize t scripts rs trace out,
  execute U tokenize t scripts rs = (trace, out) ->
  let all := flat_map (statements_of U tokenize t) scripts in
  exists a k b,
    trace = a ++ map Sent (firstn k all) ++ b /\ (k <= List.length all)%nat /\
    (* before the script: only CREATE and DROP of the lock table, a DROP only after a refusal and more than a minute *)
    Forall (fun x => x = Sent (create_lock t) \/ x = Sent (drop_lock t)) a /\
    (forall i, nth_error a i = Some (Sent (drop_lock t)) ->
       exists j m, i = S j /\ nth_error rs j = Some (RErr m, true) /\ taken m) /\
    (* nothing of the scripts before a CREATE succeeded *)
    ((k <> 0)%nat \/ b <> [] -> exists a', a = a' ++ [Sent (create_lock t)] /\ reply_at rs (List.length a') = Some ROk) /\
    (* each statement only after the previous one succeeded *)
    (forall i, (S i < k)%nat -> reply_at rs (List.length a + i) = Some ROk) /\
    match out with
    (* success: all of them succeeded, the lock was released, the number of scripts is returned *)
    | Done n => n = List.length scripts /\ k = List.length all /\ b = [Sent (drop_lock t)] /\
                (forall i, (i <= k)%nat -> reply_at rs (List.length a + i) = Some ROk)
    (* failure: of the locking (nothing ran), of statement k (the lock is released), or of the release *)
    | Failed m => (k = 0%nat /\ b = [] /\ exists i, S i = List.length a /\ reply_at rs i = Some (RErr m)) \/
                  (b = [Spawned (drop_lock t)] /\ exists i, S i = k /\ reply_at rs (List.length a + i) = Some (RErr m)) \/
                  (k = List.length all /\ b = [Sent (drop_lock t)] /\ reply_at rs (List.length a + k) = Some (RErr m))
    (* otherwise it is waiting for the answer to its last statement *)
    | Pending => S (List.length rs) = List.length trace /\ (b = [] \/ (k = List.length all /\ b = [Sent (drop_lock t)]))
    end.
Proof.
  intros U tokenize t scripts rs trace out H. destruct (execute_ok U tokenize t scripts rs trace out H) as (a & k & b & E & L & F & D & Q).
  exists a, k, b. split; [exact E|]. split; [exact L|]. split; [exact F|]. split; [|exact Q].
  intros i I. destruct (D i I) as (j & m & X & Y & Z). exists j, m. split; [exact X|]. split; [exact Y|]. now apply contains_iff.
Qed.
Print Assumptions C50_runs_in_order_under_the_lock.

(** When the lock is refused: an error that does not say that the lock exists fails the call at once,
    with nothing sent but the CREATE; otherwise the call tries again, first dropping the lock table if more than a
    minute has passed. *)
Theorem C50_refused : forall U tokenize t scripts m late rs,
  (~ taken m -> execute U tokenize t scripts ((RErr m, late) :: rs) = ([Sent (create_lock t)], Failed m)) /\
  (taken m -> forall trace out, execute U tokenize t scripts rs = (trace, out) ->
     execute U tokenize t scripts ((RErr m, false) :: rs) = (Sent (create_lock t) :: trace, out) /\
     (forall b, execute U tokenize t scripts ((RErr m, true) :: (ROk, b) :: rs) = (Sent (create_lock t) :: Sent (drop_lock t) :: trace, out)) /\
     (forall m' b, execute U tokenize t scripts ((RErr m, true) :: (RErr m', b) :: rs) = ([Sent (create_lock t); Sent (drop_lock t)], Failed m'))).
Proof.
  intros U tokenize t scripts m late rs. split.
  - intros N. unfold execute. cbn [acquire]. destruct (contains (txt "already exists") m) eqn:C; [|reflexivity]. elim N. now apply contains_iff.
  - intros T trace out. apply contains_iff in T. unfold execute. cbn [acquire]. rewrite T. destruct (acquire t rs) as [a [rs1|o]].
    + destruct (run_all _ rs1) as [b [rs2|[| |]]]; intros [= <- <-]; repeat split.
    + intros [= <- <-]. repeat split.
Qed.
Print Assumptions C50_refused.
Example C50_refused_nonvacuous : taken (txt "Code: 57. Table default._lock already exists.") /\ ~ taken (txt "Code: 497. Not enough privileges").
Proof.
  split; [exists (txt "Code: 57. Table default._lock "), (txt "."); reflexivity|]. intros H. apply contains_iff in H. vm_compute in H. discriminate H.
Qed.

(** The statements of a script are those of [split_query_statements] (C24): an empty or blank script
    has none, on a single server they are sent as they are. *)
Theorem C50_statements : forall U tokenize script, tokenize [] = [] ->
  statements_of U tokenize OnClient script = split_query_statements U (tokenize script).
Proof. exact client_statements. Qed.
Print Assumptions C50_statements.

(** On a cluster each of them has its placeholders filled in, and nothing else is done to it. *)
Theorem C50_cluster_statements : forall U tokenize cluster database script ls,
  split_query_statements U (tokenize script) = map (render (txt "%DATABASE%") (txt "%CLUSTER%")) ls ->
  Forall (fun l => template l = true) ls -> clean database = true ->
  statements_of U tokenize (OnCluster cluster database) script = map (render database cluster) ls.
Proof. exact cluster_statements. Qed.
Print Assumptions C50_cluster_statements.

(** On a cluster the placeholders are filled in, for every text made of literals and placeholders
    in which they can be told apart, every cluster name, and every database name without "%C", "%D"
    or a final "%". *)
Theorem C50_placeholders : forall cluster database l, template l = true -> clean database = true ->
  fill (OnCluster cluster database) (render (txt "%DATABASE%") (txt "%CLUSTER%") l) = render database cluster l.
Proof. exact fill_template. Qed.
Print Assumptions C50_placeholders.

(** Not for every database name: one that contains the other placeholder is changed. *)
Theorem C50_database_name_refuted : exists cluster database, template [PLit (txt "USE "); PDatabase] = true /\
  fill (OnCluster cluster database) (render (txt "%DATABASE%") (txt "%CLUSTER%") [PLit (txt "USE "); PDatabase]) <> render database cluster [PLit (txt "USE "); PDatabase].
Proof. exists (txt "c"), (txt "a%CLUSTER%"). split; [reflexivity|]. vm_compute. discriminate. Qed.
Print Assumptions C50_database_name_refuted.

(** A history row is read successfully exactly if its columns are the four expected ones in some order,
    each convertible, with a valid time and checksum; then it has their contents. *)
Theorem C50_history_row : forall (A : Type) (parse_time : text -> option A) cols m, mig_row parse_time cols = Ok m <->
  exists tv v tn n ta a tc c applied checksum,
    Permutation cols [(txt "version", tv, v); (txt "name", tn, n); (txt "applied_on", ta, a); (txt "checksum", tc, c)] /\
    from_sql (RLeaf (LInt I32)) tv v = Ok (XLeaf (VInt I32 (m_version m))) /\
    from_sql RString tn n = Ok (XStr (m_name m)) /\
    from_sql RString ta a = Ok (XStr applied) /\ parse_time applied = Some (m_applied m) /\
    from_sql RString tc c = Ok (XStr checksum) /\ unsigned_text checksum (m_checksum m).
Proof.
  intros A P cols m. split; intros H.
  - apply mig_row_ok in H as (tv & v & tn & n & ta & a & tc & c & ap & ck & H0 & H1 & H2 & H3 & H4 & H5 & H6). exists tv, v, tn, n, ta, a, tc, c, ap, ck.
    apply parse_usize_iff in H6. auto 10.
  - destruct H as (tv & v & tn & n & ta & a & tc & c & ap & ck & H0 & H1 & H2 & H3 & H4 & H5 & H6). apply mig_row_ok. exists tv, v, tn, n, ta, a, tc, c, ap, ck.
    apply parse_usize_iff in H6. auto 10.
Qed.
Print Assumptions C50_history_row.

(** Any other row is an error, never a panic. *)
Theorem C50_history_no_panic : forall (A : Type) (parse_time : text -> option A) cols,
  Forall (fun c => typed (snd (fst c)) (snd c) = true) cols -> mig_row parse_time cols <> Panic.
Proof. exact @mig_row_safe. Qed.
Print Assumptions C50_history_no_panic.

(** The statements of the locking. *)
Theorem C50_lock_statements : forall c d,
  create_lock OnClient = txt "CREATE TABLE _lock_refinery_exec (i Int64)ENGINE=Null" /\
  drop_lock OnClient = txt "DROP TABLE IF EXISTS _lock_refinery_exec SYNC" /\
  create_lock (OnCluster c d) = txt "CREATE TABLE _lock_refinery_exec ON CLUSTER " ++ c ++ txt " (i Int64)ENGINE=Null" /\
  drop_lock (OnCluster c d) = txt "DROP TABLE IF EXISTS _lock_refinery_exec ON CLUSTER " ++ c ++ txt " SYNC".
Proof. intros c d. repeat split. Qed.
Print Assumptions C50_lock_statements.

(** Every version number, every name and every checksum below 2^64 written in decimal is read back. *)
Theorem C50_history_values : forall (A : Type) (parse_time : text -> option A) cols ver name applied when_ checksum,
  forallb Utf8.scalar name = true -> forallb Utf8.scalar applied = true -> parse_time applied = Some when_ -> checksum < 2 ^ 64 ->
  Permutation cols [(txt "version", TInt I32, VInt I32 ver); (txt "name", TString, VString (Utf8.utf8 name));
                    (txt "applied_on", TString, VString (Utf8.utf8 applied)); (txt "checksum", TString, VString (Utf8.utf8 (show_N checksum)))] ->
  mig_row parse_time cols = Ok {| m_version := ver; m_name := name; m_applied := when_; m_checksum := checksum |}.
Proof. exact @mig_row_values. Qed.
Print Assumptions C50_history_values.

(** Non-vacuity: two scripts, three statements, a refusal first; a failure in the middle. *)
Definition W : text -> list token := fun s => match s with [] => [] | _ => [TkOther (txt "A"); TkSemicolon; TkOther (txt " B")] end.
Definition U0 : unicode := {| u_alpha := fun _ => false; u_num := fun _ => false; u_space := fun _ => false |}.
Example C50_nonvacuous :
  execute U0 W OnClient [txt "x"; []; txt "y"]
    [(RErr (txt "Table already exists."), false); (ROk, false); (ROk, false); (ROk, false); (ROk, false); (ROk, false); (ROk, false)] =
  ([Sent (create_lock OnClient); Sent (create_lock OnClient); Sent (txt "A;"); Sent (txt "B"); Sent (txt "A;"); Sent (txt "B"); Sent (drop_lock OnClient)], Done 3) /\
  execute U0 W OnClient [txt "x"; []; txt "y"] [(ROk, false); (ROk, false); (RErr (txt "no"), false)] =
  ([Sent (create_lock OnClient); Sent (txt "A;"); Sent (txt "B"); Spawned (drop_lock OnClient)], Failed (txt "no")).
Proof. split; vm_compute; reflexivity. Qed.
(** The history-table statement of migrate.rs 246-262 is a template. *)
Example C50_template_nonvacuous :
  let l := [PLit (txt "ON CLUSTER "); PCluster; PLit (txt "("); PLit (txt "x % 2, Distributed("); PCluster; PLit (txt ", "); PDatabase; PLit (txt ", m_local, rand());")] in
  template l = true /\ clean (txt "main") = true /\
  fill (OnCluster (txt "all") (txt "main")) (render DATABASE CLUSTER l) = txt "ON CLUSTER all(x % 2, Distributed(all, main, m_local, rand());".
Proof. repeat split; vm_compute; reflexivity. Qed.
Example C50_history_nonvacuous :
  mig_row (fun s => Some s) [(txt "name", TString, VString [97]); (txt "checksum", TString, VString [55; 49]); (txt "version", TInt I32, VInt I32 3); (txt "applied_on", TFixedString 2, VString [98])] =
  Ok {| m_version := 3; m_name := [97]; m_applied := [98]; m_checksum := 71 |} /\
  mig_row (fun s => Some s) [(txt "name", TString, VString [97]); (txt "name", TString, VString [97]); (txt "version", TInt I32, VInt I32 3); (txt "applied_on", TString, VString [98])] = Err EDeser.
Proof. split; vm_compute; reflexivity. Qed.
