(** Property C94: plain scripts, the history table of the migrations, reading the history. *)
From Coq Require Import String Lia.
From Verif Require Import Base Types Text Literal Query QuerySpec QueryProofs Lock LockSql Migrate MigrateProofs Bootstrap BootstrapProofs Props_QueryText Props_Migrate.
Local Open Scope list_scope.
Local Open Scope N_scope.

(** A script in which nothing is quoted or commented out and no here-document begins is cut after every semicolon, however
    the tokenizer reads the rest of it (any cutting into tokens in which a semicolon inside another token needs an opening
    quote, comment or here-document mark, as the declaration of the tokens says). *)
Theorem C94_plain_script : forall U query toks, lexes query toks -> Forall as_declared toks ->
  (forall before after, query = before ++ after -> opens after = false) ->
  exists groups last, query = concat (map (fun g => g ++ txt ";") groups) ++ last /\ (forall g, In g (last :: groups) -> ~ In 59 g) /\
    split_query_statements U toks = filter (fun s => match s with [] => false | _ => true end) (map (trim U) (map (fun g => g ++ txt ";") groups ++ [last])).
Proof.
  intros U query toks L D P. rewrite (split_plain_script U _ _ L D P).
  assert (G : forall s cur, ~ In 59 cur -> exists groups last, cur ++ s = concat (map (fun g => g ++ txt ";") groups) ++ last /\ (forall g, In g (last :: groups) -> ~ In 59 g) /\
    pieces_from cur s = map (fun g => g ++ txt ";") groups ++ [last]).
  { clear. induction s as [|c s IH]; intros cur N; cbn [pieces_from].
    - exists [], cur. split; [now rewrite app_nil_r|]. split; [|reflexivity]. intros g [<-|[]]. exact N.
    - destruct (N.eqb_spec c 59) as [->|X].
      + destruct (IH [] (fun x => x)) as (gs & last & E & F & Q). cbn [app] in E. exists (cur :: gs), last. split; [|split].
        * cbn [map concat]. rewrite <- !app_assoc. cbn [txt app]. rewrite E. reflexivity.
        * intros g [<-|[<-|I]]; [apply F; now left|exact N|apply F; now right].
        * rewrite Q. reflexivity.
      + destruct (IH (cur ++ [c])) as (gs & last & E & F & Q).
        { rewrite in_app_iff. intros [I|[I|[]]]; [now apply N|now apply X]. }
        exists gs, last. split; [now rewrite <- E, <- app_assoc|]. now split. }
  destruct (G query [] (fun x => x)) as (gs & last & E & F & Q). exists gs, last. split; [exact E|]. split; [exact F|]. now rewrite Q.
Qed.
Print Assumptions C94_plain_script.
(** Something quoted can hide one. *)
Example C94_plain_nonvacuous :
  let q := txt "SELECT 1 - 2; SELECT a / b;" in
  (forall before after, q = before ++ after -> opens after = false) /\
  (exists toks, lexes q toks /\ Forall as_declared toks /\ split_query_statements U0 toks = [txt "SELECT 1 - 2;"; txt "SELECT a / b;"]) /\
  as_declared (TkOther (txt "'a;b'")) /\ ~ as_declared (TkOther (txt "a;b")).
Proof.
  split.
  { intros p a E. 
    assert (C : forallb (fun n => negb (opens (skipn n (txt "SELECT 1 - 2; SELECT a / b;")))) (seq 0 28) = true) by (vm_compute; reflexivity).
    assert (A : a = skipn (List.length p) (txt "SELECT 1 - 2; SELECT a / b;")) by (unfold text in *; rewrite E, skipn_app, skipn_all, Nat.sub_diag; reflexivity).
    assert (I : In (List.length p) (seq 0 28)).
    { apply in_seq. apply (f_equal (@List.length N)) in E. rewrite app_length in E. change (List.length (txt "SELECT 1 - 2; SELECT a / b;")) with 27%nat in E. lia. }
    pose proof (proj1 (forallb_forall _ _) C _ I) as R. cbv beta in R. rewrite <- A in R. now destruct (opens a). }
  split.
  { exists [TkOther (txt "SELECT 1 - 2"); TkSemicolon; TkOther (txt " SELECT a / b"); TkSemicolon].
    split; [split; [reflexivity|repeat (constructor; [exact Logic.I|]); constructor]|].
    split; [|vm_compute; reflexivity].
    repeat (constructor; [cbn; try exact Logic.I; intros X; repeat (destruct X as [X|X]; [discriminate X|]); elim X|]). constructor. }
  split; [cbn; reflexivity|]. cbn [as_declared]. intros X. discriminate X. right; now left.
Qed.

(** Creating the history table, for a table whose name is made of letters, digits, underscores and dots: on a single server one
    statement, the text as it is. *)
Theorem C94_table : forall U tokenize name, table_name name ->
  lexes (table_query OnClient name) (tokenize (table_query OnClient name)) -> Forall as_declared (tokenize (table_query OnClient name)) ->
  execute U tokenize OnClient [table_query OnClient name] [(ROk, false); (ROk, false); (ROk, false)] =
    ([Sent (create_lock OnClient);
      Sent (txt "CREATE TABLE IF NOT EXISTS " ++ name ++ txt "(" ++ NL ++ txt "            version INT," ++ NL ++ txt "            name VARCHAR(255)," ++ NL ++
            txt "            applied_on VARCHAR(255)," ++ NL ++ txt "            checksum VARCHAR(255)) Engine=MergeTree() ORDER BY version;");
      Sent (drop_lock OnClient)], Done 1).
Proof.
  intros U tokenize name T L D. unfold execute. cbn [acquire flat_map].
  assert (S : statements_of U tokenize OnClient (table_query OnClient name) = [table_query_client name]).
  { unfold statements_of. cbn [table_query] in *. rewrite (client_table U _ _ name eq_refl T L D). reflexivity. }
  rewrite S. reflexivity.
Qed.
Print Assumptions C94_table.

(** On a cluster two statements, one after the other, with the cluster and the database filled in. *)
Theorem C94_cluster_table : forall U tokenize cl db name, table_name name -> clean db = true ->
  lexes (table_query (OnCluster cl db) name) (tokenize (table_query (OnCluster cl db) name)) ->
  Forall as_declared (tokenize (table_query (OnCluster cl db) name)) ->
  execute U tokenize (OnCluster cl db) [table_query (OnCluster cl db) name] [(ROk, false); (ROk, false); (ROk, false); (ROk, false)] =
    ([Sent (create_lock (OnCluster cl db));
      Sent (txt "CREATE TABLE IF NOT EXISTS " ++ name ++ txt "_local ON CLUSTER " ++ cl ++ txt "(" ++ NL ++
            txt "                version INT," ++ NL ++ txt "                name VARCHAR(255)," ++ NL ++
            txt "                applied_on VARCHAR(255)," ++ NL ++ txt "                checksum VARCHAR(255)" ++ NL ++
            txt "            ) Engine=MergeTree() ORDER BY version;");
      Sent (txt "CREATE TABLE IF NOT EXISTS" ++ NL ++ txt "                " ++ name ++ NL ++ txt "            ON CLUSTER " ++ cl ++ NL ++
            txt "            AS " ++ name ++ txt "_local ENGINE = Distributed(" ++ cl ++ txt ", " ++ db ++ txt ", " ++ name ++ txt "_local, rand());");
      Sent (drop_lock (OnCluster cl db))], Done 1).
Proof.
  intros U tokenize cl db name T C L D. unfold execute. cbn [acquire flat_map].
  assert (S : statements_of U tokenize (OnCluster cl db) (table_query (OnCluster cl db) name) = map (render db cl) [cluster_first name; cluster_second name]).
  { apply cluster_statements; [exact (cluster_table U _ _ name eq_refl T L D)| |exact C].
    destruct (name_harmless _ T) as (_ & _ & CN). repeat (constructor; [cbn [template cluster_first cluster_second]; rewrite CN; reflexivity|]). constructor. }
  rewrite S. cbn [map app run_all]. unfold cluster_first, cluster_second, render. cbn [flat_map]. rewrite !app_nil_r, <- !app_assoc. reflexivity.
Qed.
Print Assumptions C94_cluster_table.
Example C94_table_nonvacuous : table_name (txt "refinery_schema_history") /\ clean (txt "main") = true /\
  (exists tokenize, lexes (table_query OnClient (txt "h")) (tokenize (table_query OnClient (txt "h"))) /\ Forall as_declared (tokenize (table_query OnClient (txt "h")))).
Proof.
  split; [split; [discriminate|repeat (constructor; [left; reflexivity|]); constructor]|]. split; [reflexivity|].
  exists (fun s => map (fun c => if c =? 59 then TkSemicolon else TkOther [c]) s). split; [split|].
  - vm_compute. reflexivity.
  - apply Forall_forall. intros t I. apply in_map_iff in I. destruct I as (c & <- & _). now destruct (c =? 59).
  - apply Forall_forall. intros t I. apply in_map_iff in I. destruct I as (c & <- & _). destruct (N.eqb_spec c 59); [exact Logic.I|].
    intros [X|[]]. congruence.
Qed.

(** Reading the history sends one statement, with the placeholders filled in on a cluster, and none for the lock: it neither
    waits for a running migration nor keeps one from starting. *)
Theorem C94_history_is_read_without_lock : forall t q,
  history_query t q = [Sent match t with OnClient => q | OnCluster c d => replace (txt "%CLUSTER%") c (replace (txt "%DATABASE%") d q) end].
Proof. now intros [|c d] q. Qed.
Print Assumptions C94_history_is_read_without_lock.

Definition times (s : text) (log : list text) : nat := List.length (filter (text_eqb s) log).
(** Runners that take turns - each reads the history and applies what is pending before the next one reads - execute a migration
    at most once, however many there are. *)
Theorem C94_taking_turns : forall script record runners, script <> record ->
  (times script (ms_log (mrun script record (flat_map (fun i => [SRead i; SRun i]) runners))) <= 1)%nat.
Proof.
  intros script record runners NE. unfold mrun.
  assert (RF : forall s, text_eqb s s = true) by (intros s; now apply text_eqb_eq).
  assert (SR : text_eqb script record = false) by (destruct (text_eqb script record) eqn:E; [apply text_eqb_eq in E; contradiction|reflexivity]).
  assert (RS : text_eqb record script = false) by (destruct (text_eqb record script) eqn:E; [apply text_eqb_eq in E; symmetry in E; contradiction|reflexivity]).
  assert (G : forall rs s, (ms_log s = [] \/ ms_log s = [script; record]) ->
    (ms_log (fold_left (mnext script record) (flat_map (fun i => [SRead i; SRun i]) rs) s) = [] \/
     ms_log (fold_left (mnext script record) (flat_map (fun i => [SRead i; SRun i]) rs) s) = [script; record])).
  { induction rs as [|i rs IH]; intros s H; [exact H|]. cbn [flat_map app fold_left]. apply IH. cbn [mnext ms_log ms_todo]. unfold mput. rewrite Nat.eqb_refl.
    destruct H as [-> | ->]; cbn [existsb]; [right; reflexivity|]. rewrite RF, RS. cbn. now right. }
  destruct (G runners minit (or_introl eq_refl)) as [-> | ->]; unfold times; cbn [filter List.length]; [lia|]. rewrite RF, SR. cbn. lia.
Qed.
Print Assumptions C94_taking_turns.
(** Exactly once, and it is in the history then; and a runner that has not read the history executes nothing. *)
Theorem C94_taking_turns_log : forall script record i runners, script <> record ->
  ms_log (mrun script record (flat_map (fun i => [SRead i; SRun i]) (i :: runners))) = [script; record].
Proof.
  intros script record i runners NE. unfold mrun. cbn [flat_map app fold_left].
  assert (RF : forall s, text_eqb s s = true) by (intros s; now apply text_eqb_eq).
  assert (G : forall rs s, ms_log s = [script; record] -> ms_log (fold_left (mnext script record) (flat_map (fun i => [SRead i; SRun i]) rs) s) = [script; record]).
  { induction rs as [|j rs IH]; intros s H; [exact H|]. cbn [flat_map app fold_left]. apply IH. cbn [mnext ms_log ms_todo]. unfold mput. rewrite Nat.eqb_refl, H. cbn [existsb].
    rewrite RF. now rewrite orb_true_r. }
  apply G. cbn [mnext ms_log ms_todo minit]. unfold mput. rewrite Nat.eqb_refl. reflexivity.
Qed.
Print Assumptions C94_taking_turns_log.
Theorem C94_nothing_unread : forall script record runners, ms_log (mrun script record (map SRun runners)) = [].
Proof.
  intros script record runners. unfold mrun.
  assert (G : forall rs s, ms_log s = [] -> (forall i, ms_todo s i = false) -> ms_log (fold_left (mnext script record) (map SRun rs) s) = []).
  { induction rs as [|j rs IH]; intros s H T; [exact H|]. cbn [map fold_left]. apply IH; cbn [mnext ms_log ms_todo].
    - now rewrite H, T.
    - intros i. unfold mput. destruct (Nat.eqb i j); [reflexivity|apply T]. }
  now apply G.
Qed.
Print Assumptions C94_nothing_unread.
(** But the lock does not make them take turns: every runner that reads the history before the first one has finished applies
    the migration as well - two runners started together execute it twice, one after the other, under the lock. *)
Theorem C94_applied_twice_refuted : forall script record runners, script <> record -> NoDup runners ->
  times script (ms_log (mrun script record (map SRead runners ++ map SRun runners))) = List.length runners.
Proof.
  intros script record runners NE ND. unfold mrun. rewrite fold_left_app.
  assert (RF : forall s, text_eqb s s = true) by (intros s; now apply text_eqb_eq).
  assert (SR : text_eqb script record = false) by (destruct (text_eqb script record) eqn:E; [apply text_eqb_eq in E; contradiction|reflexivity]).
  assert (A : forall rs s, ms_log s = [] -> ms_log (fold_left (mnext script record) (map SRead rs) s) = [] /\
    forall i, In i rs \/ ms_todo s i = true -> ms_todo (fold_left (mnext script record) (map SRead rs) s) i = true).
  { induction rs as [|j rs IH]; intros s H; [split; [exact H|]; now intros i [[]|X]|]. cbn [map fold_left].
    destruct (IH (mnext script record s (SRead j)) H) as [I1 I2]. split; [exact I1|]. intros i X. apply I2.
    cbn [mnext ms_todo]. unfold mput. rewrite H. cbn [existsb negb]. destruct (Nat.eqb_spec i j); [now right|].
    destruct X as [[X|X]|X]; [congruence|now left|now right]. }
  destruct (A runners minit eq_refl) as [L T]. revert L T. generalize (fold_left (mnext script record) (map SRead runners) minit). intros s L T.
  assert (B : forall rs s, NoDup rs -> (forall i, In i rs -> ms_todo s i = true) ->
    times script (ms_log (fold_left (mnext script record) (map SRun rs) s)) = (times script (ms_log s) + List.length rs)%nat).
  { clear - RF SR. induction rs as [|j rs IH]; intros s ND H; cbn [map fold_left List.length]; [lia|]. inversion ND; subst. rewrite IH; [|assumption|].
    - cbn [mnext ms_log]. rewrite (H j) by now left. unfold times. rewrite filter_app, app_length. cbn [filter]. rewrite RF, SR. cbn [List.length]. lia.
    - intros i X. cbn [mnext ms_todo]. unfold mput. destruct (Nat.eqb_spec i j) as [->|_]; [contradiction|]. apply H. now right. }
  rewrite B; [|exact ND|intros i X; apply T; now left]. rewrite L. reflexivity.
Qed.
Print Assumptions C94_applied_twice_refuted.
