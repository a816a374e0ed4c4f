(** Model of the rest of klickhouse/src/migrate.rs: the statement that creates the history table, reading the history,
    and what scripts the tokenizer of query_parser.rs can hide a semicolon in. *)
From Coq Require Import String.
From Verif Require Import Base Types Text Literal Query Lock Migrate.
Local Open Scope list_scope.
Local Open Scope N_scope.

(** query_parser.rs 18-83: the tokens whose text can have a semicolon in it, by how they begin: here-documents ($), comments
    (two minuses, slash star, #), string literals and quoted identifiers (single quote, backtick, double quote).  A lone semicolon is always [Token::Semicolon],
    never [Token::Illegal], and no other token can contain one. *)
Definition opens (s : text) : bool :=
  match s with
  | 36 :: _ | 35 :: _ | 39 :: _ | 96 :: _ | 34 :: _ | 45 :: 45 :: _ | 47 :: 42 :: _ => true
  | _ => false
  end.
Definition as_declared (t : token) : Prop :=
  match t with
  | TkOther s => In 59 s -> opens s = true
  | _ => True
  end.

Definition NL : text := [10].
(** migrate.rs 165-175 [assert_migrations_table_query] of [Client] *)
Definition table_query_client (name : text) : text :=
  txt "CREATE TABLE IF NOT EXISTS " ++ name ++ txt "(" ++ NL ++
  txt "            version INT," ++ NL ++
  txt "            name VARCHAR(255)," ++ NL ++
  txt "            applied_on VARCHAR(255)," ++ NL ++
  txt "            checksum VARCHAR(255)) Engine=MergeTree() ORDER BY version;".
(** migrate.rs 245-261, of [ClusterMigration] *)
Definition table_query_cluster (name : text) : text :=
  txt "CREATE TABLE IF NOT EXISTS " ++ name ++ txt "_local ON CLUSTER %CLUSTER%(" ++ NL ++
  txt "                version INT," ++ NL ++
  txt "                name VARCHAR(255)," ++ NL ++
  txt "                applied_on VARCHAR(255)," ++ NL ++
  txt "                checksum VARCHAR(255)" ++ NL ++
  txt "            ) Engine=MergeTree() ORDER BY version;" ++ NL ++
  txt "            CREATE TABLE IF NOT EXISTS" ++ NL ++
  txt "                " ++ name ++ NL ++
  txt "            ON CLUSTER %CLUSTER%" ++ NL ++
  txt "            AS " ++ name ++ txt "_local ENGINE = Distributed(%CLUSTER%, %DATABASE%, " ++ name ++ txt "_local, rand());" ++ NL ++
  txt "            ".
Definition table_query (t : target) (name : text) : text :=
  match t with OnClient => table_query_client name | OnCluster _ _ => table_query_cluster name end.

(** migrate.rs 155-163, 232-243 [AsyncQuery::query]: one statement, and no lock. *)
Definition history_query (t : target) (q : text) : list action := [Sent (fill t q)].

(** How a migration runner (refinery's [AsyncMigrate::migrate], an external crate) uses these calls: it reads the history, and
    then calls [execute] for each migration that is not in it, with its script and the statement that adds it to the
    history.  [execute] runs under the lock, so its statements are one step here; [SRead] is one step as well. *)
Inductive mstep := SRead (i : nat) | SRun (i : nat).
Record mstate := { ms_log : list text; ms_todo : nat -> bool }.      (* statements executed; does runner i think it is pending? *)
Definition minit : mstate := {| ms_log := []; ms_todo := fun _ => false |}.
Definition mput (f : nat -> bool) (i : nat) (b : bool) : nat -> bool := fun j => if Nat.eqb j i then b else f j.
Definition mnext (script record : text) (s : mstate) (e : mstep) : mstate :=
  match e with
  | SRead i => {| ms_log := ms_log s; ms_todo := mput (ms_todo s) i (negb (existsb (text_eqb record) (ms_log s))) |}
  | SRun i => {| ms_log := ms_log s ++ (if ms_todo s i then [script; record] else []); ms_todo := mput (ms_todo s) i false |}
  end.
Definition mrun (script record : text) (es : list mstep) : mstate := fold_left (mnext script record) es minit.
