(** C94: proofs about Bootstrap.v. *)
From Coq Require Import String Lia.
From Verif Require Import Base Types Text Literal Query QuerySpec QueryProofs Lock LockSql Migrate MigrateProofs Bootstrap Props_QueryText.
Local Open Scope list_scope.
Local Open Scope N_scope.

(** A text in which nothing is quoted or commented out, and no here-document begins. *)
Definition plain_script (s : text) : Prop := forall p q, s = p ++ q -> opens q = false.

(** The pieces of a text cut after every semicolon. *)
Fixpoint pieces_from (cur s : text) : list text :=
  match s with
  | [] => [cur]
  | c :: r => if c =? 59 then (cur ++ [59]) :: pieces_from [] r else pieces_from (cur ++ [c]) r
  end.
Lemma pieces_from_app a : ~ In 59 a -> forall cur s, pieces_from cur (a ++ s) = pieces_from (cur ++ a) s.
Proof.
  induction a as [|c a IH]; intros N cur s; [now rewrite app_nil_r|]. cbn [app pieces_from].
  destruct (N.eqb_spec c 59) as [->|_]; [elim N; now left|]. rewrite IH by (intros X; apply N; now right). now rewrite <- app_assoc.
Qed.

Lemma split_plain toks : forall out cur, Forall as_declared toks -> (forall p q, concat (map token_text toks) = p ++ q -> opens q = false) ->
  split_loop toks out cur = out ++ pieces_from cur (concat (map token_text toks)).
Proof.
  induction toks as [|t toks IH]; intros out cur F P; [reflexivity|]. inversion F as [|? ? D F']; subst.
  assert (P' : forall p q, concat (map token_text toks) = p ++ q -> opens q = false).
  { intros p q E. apply (P (token_text t ++ p)). cbn [map concat]. now rewrite E, app_assoc. }
  cbn [map concat]. destruct t as [ds| | |s]; cbn [split_loop token_text].
  - pose proof (P [] _ eq_refl) as X. cbn in X. discriminate X.
  - pose proof (P [] _ eq_refl) as X. cbn in X. discriminate X.
  - rewrite IH by assumption. cbn [app pieces_from]; change (59 =? 59) with true; cbv iota. now rewrite <- app_assoc.
  - rewrite IH by assumption. rewrite pieces_from_app; [reflexivity|]. intros X. specialize (D X).
    pose proof (P [] _ eq_refl) as Y. cbn [map concat token_text] in Y.
    assert (G : forall r, opens (s ++ r) = true); [|rewrite G in Y; discriminate Y]. intros r. clear - D.
    destruct s as [|a [|b s]]; cbn in D |- *; [discriminate D| |]; revert D;
    repeat match goal with |- context [match ?x with _ => _ end] => is_var x; destruct x end; try discriminate; trivial.
Qed.

Lemma split_plain_script U query toks : lexes query toks -> Forall as_declared toks -> plain_script query ->
  split_query_statements U toks = filter (fun s => match s with [] => false | _ => true end) (map (trim U) (pieces_from [] query)).
Proof.
  intros [L _] D P. unfold split_query_statements. change spelling with token_text in L. rewrite split_plain; [now rewrite L|exact D|now rewrite L].
Qed.

(** Enough for a text to be plain: none of the characters that could open something. *)
Definition harmless (c : N) : bool := negb (existsb (N.eqb c) [36; 35; 39; 96; 34; 45; 47]).
Lemma harmless_plain s : forallb harmless s = true -> plain_script s.
Proof.
  intros H p q ->. rewrite forallb_app in H. apply andb_prop in H as [_ H]. destruct q as [|c q]; [reflexivity|].
  cbn [forallb] in H. apply andb_prop in H as [H _]. unfold harmless in H. cbn [existsb] in H.
  destruct (opens (c :: q)) eqn:E; [|reflexivity]. exfalso. cbn in E. revert H E.
  repeat match goal with |- context [match ?x with _ => _ end] => is_var x; destruct x; try discriminate end.
Qed.

(** A table name: letters, digits, underscores, perhaps with the database in front. *)
Definition table_name (s : text) : Prop := s <> [] /\ Forall (fun c => word_char c = true \/ c = 46) s.
Lemma name_harmless s : table_name s -> forallb harmless s = true /\ ~ In 59 s /\ clean s = true.
Proof.
  intros [_ F]. induction F as [|c s H _ (A & B & C)]; [split; [reflexivity|]; split; [intros []|reflexivity]|].
  assert (Q : harmless c = true /\ c <> 59 /\ c <> 37).
  { destruct H as [H| ->]; [|split; [reflexivity|split; discriminate]]. unfold word_char in H.
    assert (R : c <> 36 /\ c <> 35 /\ c <> 39 /\ c <> 96 /\ c <> 34 /\ c <> 45 /\ c <> 47 /\ c <> 59 /\ c <> 37).
    { repeat split; intros ->; discriminate H. }
    destruct R as (R1 & R2 & R3 & R4 & R5 & R6 & R7 & R8 & R9). split; [|now split].
    unfold harmless. cbn [existsb]. apply N.eqb_neq in R1, R2, R3, R4, R5, R6, R7. now rewrite R1, R2, R3, R4, R5, R6, R7. }
  destruct Q as (Q1 & Q2 & Q3). cbn [forallb clean]. rewrite Q1, A, C. apply N.eqb_neq in Q3. rewrite Q3. split; [reflexivity|]. split; [|reflexivity].
  intros [X|X]; [now apply Q2|now apply B].
Qed.

Lemma trim_start_spaces U p : Forall (fun c => is_space U c = true) p -> forall s, trim_start U (p ++ s) = trim_start U s.
Proof. induction 1 as [|c p H _ IH]; intros s; [reflexivity|]. cbn [app trim_start]. now rewrite H. Qed.
Lemma trim_spaces U p x : Forall (fun c => is_space U c = true) p -> edge_ok U x -> trim U (p ++ x) = x.
Proof.
  intros P X. unfold trim. rewrite trim_start_spaces by exact P. change (trim U x = x). now apply trim_id.
Qed.

Lemma client_table U query toks name : query = table_query_client name -> table_name name -> lexes query toks -> Forall as_declared toks ->
  split_query_statements U toks = [table_query_client name].
Proof.
  intros -> T L D. destruct (name_harmless _ T) as (H & N & _).
  rewrite (split_plain_script U _ _ L D).
  2:{ apply harmless_plain. unfold table_query_client. rewrite !forallb_app, H. reflexivity. }
  set (body := txt "CREATE TABLE IF NOT EXISTS " ++ name ++ txt "(" ++ NL ++ txt "            version INT," ++ NL ++ txt "            name VARCHAR(255)," ++ NL ++
    txt "            applied_on VARCHAR(255)," ++ NL ++ txt "            checksum VARCHAR(255)) Engine=MergeTree() ORDER BY version").
  assert (E : table_query_client name = body ++ [59]).
  { unfold table_query_client, body. rewrite <- !app_assoc. reflexivity. }
  assert (NB : ~ In 59 body).
  { unfold body. rewrite !in_app_iff. intros X. repeat (destruct X as [X|X]; [revert X; try exact N; cbn; intros X; repeat (destruct X as [X|X]; [discriminate X|]); exact X|]).
    cbn in X. repeat (destruct X as [X|X]; [discriminate X|]); exact X. }
  assert (TR : trim U (body ++ [59]) = body ++ [59]).
  { apply trim_id. split; [reflexivity|]. rewrite rev_app_distr. reflexivity. }
  clearbody body. rewrite E, pieces_from_app by exact NB. cbn [app pieces_from]. change (59 =? 59) with true. cbn [map filter].
  rewrite TR. change (trim U []) with (@nil BinNums.N). now destruct body.
Qed.
Lemma pieces_two (b1 sp b2 sp' : text) : ~ In 59 b1 -> ~ In 59 sp -> ~ In 59 b2 -> ~ In 59 sp' ->
  pieces_from [] ((b1 ++ [59]) ++ sp ++ (b2 ++ [59]) ++ sp') = [b1 ++ [59]; sp ++ b2 ++ [59]; sp'].
Proof.
  intros A B C D. rewrite <- !app_assoc. rewrite pieces_from_app by exact A. cbn [app pieces_from]. change (59 =? 59) with true. cbv iota.
  rewrite !pieces_from_app by assumption. cbn [app pieces_from]. change (59 =? 59) with true. cbv iota.
  rewrite <- (app_nil_r sp') at 1. rewrite pieces_from_app by exact D. cbn [app pieces_from]. now rewrite <- app_assoc.
Qed.
Definition cluster_first (name : text) : list piece :=
  [PLit (txt "CREATE TABLE IF NOT EXISTS "); PLit name; PLit (txt "_local ON CLUSTER "); PCluster;
   PLit (txt "(" ++ NL ++ txt "                version INT," ++ NL ++ txt "                name VARCHAR(255)," ++ NL ++
         txt "                applied_on VARCHAR(255)," ++ NL ++ txt "                checksum VARCHAR(255)" ++ NL ++
         txt "            ) Engine=MergeTree() ORDER BY version;")].
Definition cluster_second (name : text) : list piece :=
  [PLit (txt "CREATE TABLE IF NOT EXISTS" ++ NL ++ txt "                "); PLit name; PLit (NL ++ txt "            ON CLUSTER "); PCluster;
   PLit (NL ++ txt "            AS "); PLit name; PLit (txt "_local ENGINE = Distributed("); PCluster; PLit (txt ", "); PDatabase; PLit (txt ", ");
   PLit name; PLit (txt "_local, rand());")].
Lemma cluster_table U query toks name : query = table_query_cluster name -> table_name name -> lexes query toks -> Forall as_declared toks ->
  split_query_statements U toks = map (render (txt "%DATABASE%") (txt "%CLUSTER%")) [cluster_first name; cluster_second name].
Proof.
  intros -> T L D. destruct (name_harmless _ T) as (H & N & _).
  rewrite (split_plain_script U _ _ L D).
  2:{ apply harmless_plain. unfold table_query_cluster. rewrite !forallb_app, H. reflexivity. }
  set (r := fun l => render (txt "%DATABASE%") (txt "%CLUSTER%") l).
  assert (N1 : exists b1, r (cluster_first name) = b1 ++ [59] /\ ~ In 59 b1 /\ edge_ok U (b1 ++ [59])).
  { exists (txt "CREATE TABLE IF NOT EXISTS " ++ name ++ txt "_local ON CLUSTER %CLUSTER%(" ++ NL ++ txt "                version INT," ++ NL ++ txt "                name VARCHAR(255)," ++ NL ++
       txt "                applied_on VARCHAR(255)," ++ NL ++ txt "                checksum VARCHAR(255)" ++ NL ++ txt "            ) Engine=MergeTree() ORDER BY version").
    split; [unfold r, cluster_first, render; cbn [flat_map]; rewrite <- !app_assoc; reflexivity|].
    split; [|split; [reflexivity|rewrite rev_app_distr; reflexivity]].
    rewrite !in_app_iff. intros X. repeat (destruct X as [X|X]; [revert X; try exact N; cbn; intros X; repeat (destruct X as [X|X]; [discriminate X|]); exact X|]).
    cbn in X. repeat (destruct X as [X|X]; [discriminate X|]); exact X. }
  assert (N2 : exists b2, r (cluster_second name) = b2 ++ [59] /\ ~ In 59 b2 /\ edge_ok U (b2 ++ [59])).
  { exists (txt "CREATE TABLE IF NOT EXISTS" ++ NL ++ txt "                " ++ name ++ NL ++ txt "            ON CLUSTER %CLUSTER%" ++ NL ++ txt "            AS " ++ name ++
       txt "_local ENGINE = Distributed(%CLUSTER%, %DATABASE%, " ++ name ++ txt "_local, rand())").
    split; [unfold r, cluster_second, render; cbn [flat_map]; rewrite <- !app_assoc; reflexivity|].
    split; [|split; [reflexivity|rewrite rev_app_distr; reflexivity]].
    rewrite !in_app_iff. intros X. repeat (destruct X as [X|X]; [revert X; try exact N; cbn; intros X; repeat (destruct X as [X|X]; [discriminate X|]); exact X|]).
    cbn in X. repeat (destruct X as [X|X]; [discriminate X|]); exact X. }
  assert (E : table_query_cluster name = r (cluster_first name) ++ (NL ++ txt "            ") ++ r (cluster_second name) ++ NL ++ txt "            ").
  { unfold r, cluster_first, cluster_second, render, table_query_cluster. cbn [flat_map]. rewrite <- !app_assoc. reflexivity. }
  rewrite E. cbn [map]. fold (r (cluster_first name)). fold (r (cluster_second name)).
  destruct N1 as (b1 & R1 & A1 & B1), N2 as (b2 & R2 & A2 & B2). rewrite R1, R2.
  rewrite pieces_two; [|exact A1|cbn; intros X; repeat (destruct X as [X|X]; [discriminate X|]); exact X|exact A2|cbn; intros X; repeat (destruct X as [X|X]; [discriminate X|]); exact X].
  cbn [map]. rewrite (trim_id U (b1 ++ [59]) B1).
  rewrite trim_spaces; [|repeat (constructor; [reflexivity|]); constructor|exact B2].
  change (trim U (NL ++ txt "            ")) with (@nil BinNums.N). destruct b1, b2; reflexivity.
Qed.
