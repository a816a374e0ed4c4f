(** Model of klickhouse/src/migrate.rs: executing migration scripts, placeholders of cluster
    migrations, rows of the migration history. *)
From Coq Require Import String.
From Verif Require Import Base Types Text Literal Query Lock RawRow Numeric Convert.
Local Open Scope list_scope.
Local Open Scope N_scope.

(** [s.starts_with(pat)] and [s.contains(pat)]. *)
Fixpoint prefix (pat s : text) : bool :=
  match pat, s with
  | [], _ => true
  | p :: pat, c :: s => (p =? c) && prefix pat s
  | _, [] => false
  end.
Fixpoint contains (pat s : text) : bool :=
  prefix pat s || match s with [] => false | _ :: r => contains pat r end.
(** [str::replace(pat, w)] for a non-empty pattern: from left to right, not overlapping. *)
Fixpoint replace_go (pat w : text) (skip : nat) (s : text) : text :=
  match s with
  | [] => []
  | c :: r => match skip with
              | S k => replace_go pat w k r
              | O => if prefix pat s then w ++ replace_go pat w (List.length pat - 1) r
                     else c :: replace_go pat w 0 r
              end
  end.
Definition replace (pat w s : text) : text := replace_go pat w 0 s.

(** What [Client::execute] returns for a statement; an error is given by its displayed text.  [ROk] is the server's
    confirmation, or the end of the connection before its answer (C89, Lost.v). *)
Inductive reply := ROk | RErr (msg : text).

(** What the call does: statements it sends and waits for, and the statement a spawned task sends
    when the lock handle is dropped (lock.rs 99-109). *)
Inductive action := Sent (q : text) | Spawned (q : text).
Inductive outcome := Pending | Failed (msg : text) | Done (n : nat).

(** [Client] (migrate.rs 113-151) or [ClusterMigration] with its cluster and database (171-230). *)
Inductive target := OnClient | OnCluster (cluster database : text).
Definition cluster_str (t : target) : text := match t with OnClient => [] | OnCluster c _ => on_cluster c end.
Definition create_lock (t : target) : text := create_statement migration_lock (cluster_str t).
Definition drop_lock (t : target) : text := drop_statement migration_lock (cluster_str t).
Definition DATABASE : text := txt "%DATABASE%".
Definition CLUSTER : text := txt "%CLUSTER%".
(** migrate.rs 223-225, 241-243 *)
Definition fill (t : target) (q : text) : text :=
  match t with OnClient => q | OnCluster c d => replace CLUSTER c (replace DATABASE d q) end.

(** The loop of migrate.rs 124-133 / 206-215 (with lock.rs 36-56, 81-89) on the answers of the
    server, one for every statement sent; the flag beside an answer tells whether more than 60 s
    have passed when the pause after it is over.  [inl] the remaining answers once the lock is
    taken, [inr] how the call ended. *)
Fixpoint acquire (t : target) (rs : list (reply * bool)) : list action * (list (reply * bool) + outcome) :=
  match rs with
  | [] => ([Sent (create_lock t)], inr Pending)
  | (ROk, _) :: rs' => ([Sent (create_lock t)], inl rs')
  | (RErr m, late) :: rs' =>
      if contains (txt "already exists") m then
        if late then
          match rs' with
          | [] => ([Sent (create_lock t); Sent (drop_lock t)], inr Pending)
          | (RErr m', _) :: _ => ([Sent (create_lock t); Sent (drop_lock t)], inr (Failed m'))
          | (ROk, _) :: rs'' => let (a, o) := acquire t rs'' in (Sent (create_lock t) :: Sent (drop_lock t) :: a, o)
          end
        else let (a, o) := acquire t rs' in (Sent (create_lock t) :: a, o)
      else ([Sent (create_lock t)], inr (Failed m))
  end.

(** migrate.rs 135-147, 217-228: one statement after the other; [?] leaves at the first error. *)
Fixpoint run_all (stmts : list text) (rs : list (reply * bool)) : list action * (list (reply * bool) + outcome) :=
  match stmts with
  | [] => ([], inl rs)
  | q :: stmts' =>
      match rs with
      | [] => ([Sent q], inr Pending)
      | (RErr m, _) :: _ => ([Sent q], inr (Failed m))
      | (ROk, _) :: rs' => let (a, o) := run_all stmts' rs' in (Sent q :: a, o)
      end
  end.

(** The inner loops: an empty script is skipped by [Client] only (migrate.rs 138-140; splitting it
    would give nothing either); an empty statement is skipped (142, 220). *)
Definition statements_of (U : unicode) (tokenize : text -> list token) (t : target) (script : text) : list text :=
  let parts := filter (fun s => match s with [] => false | _ => true end) (split_query_statements U (tokenize script)) in
  match t with
  | OnClient => match script with [] => [] | _ => parts end
  | OnCluster _ _ => map (fill t) parts
  end.

(** migrate.rs 117-150 / 197-232 [execute].  When it leaves early the handle is dropped. *)
Definition execute (U : unicode) (tokenize : text -> list token) (t : target) (scripts : list text) (rs : list (reply * bool)) : list action * outcome :=
  match acquire t rs with
  | (a, inr o) => (a, o)
  | (a, inl rs1) =>
      match run_all (flat_map (statements_of U tokenize t) scripts) rs1 with
      | (b, inr (Failed m)) => (a ++ b ++ [Spawned (drop_lock t)], Failed m)
      | (b, inr o) => (a ++ b, o)
      | (b, inl rs2) =>
          (a ++ b ++ [Sent (drop_lock t)],
           match rs2 with
           | [] => Pending
           | (RErr m, _) :: _ => Failed m
           | (ROk, _) :: _ => Done (List.length scripts)
           end)
      end
  end.

(** [Migration::applied(version, name, applied_on, checksum)]; [A] is the time type. *)
Record migration (A : Type) := { m_version : Z; m_name : text; m_applied : A; m_checksum : N }.
Arguments m_version {A}. Arguments m_name {A}. Arguments m_applied {A}. Arguments m_checksum {A}.

Record partial := { a_version : option Z; a_name : option text; a_applied : option text; a_checksum : option text }.
Definition rz (x : rval) : Z := match x with XLeaf (VInt _ z) => z | _ => 0%Z end.
Definition rs_ (x : rval) : text := match x with XStr s => s | _ => [] end.

(** migrate.rs 33-75: the loop over the columns. *)
Fixpoint mig_loop (cols : list (text * ty * value)) (p : partial) : res partial :=
  match cols with
  | [] => Ok p
  | (name, t, v) :: rest =>
      if text_eqb name (txt "version") then
        match a_version p with
        | Some _ => Err EDeser
        | None => x <- from_sql (RLeaf (LInt I32)) t v ;;
                  mig_loop rest {| a_version := Some (rz x); a_name := a_name p; a_applied := a_applied p; a_checksum := a_checksum p |}
        end
      else if text_eqb name (txt "name") then
        match a_name p with
        | Some _ => Err EDeser
        | None => x <- from_sql RString t v ;;
                  mig_loop rest {| a_version := a_version p; a_name := Some (rs_ x); a_applied := a_applied p; a_checksum := a_checksum p |}
        end
      else if text_eqb name (txt "applied_on") then
        match a_applied p with
        | Some _ => Err EDeser
        | None => x <- from_sql RString t v ;;
                  mig_loop rest {| a_version := a_version p; a_name := a_name p; a_applied := Some (rs_ x); a_checksum := a_checksum p |}
        end
      else if text_eqb name (txt "checksum") then
        match a_checksum p with
        | Some _ => Err EDeser
        | None => x <- from_sql RString t v ;;
                  mig_loop rest {| a_version := a_version p; a_name := a_name p; a_applied := a_applied p; a_checksum := Some (rs_ x) |}
        end
      else Err EDeser
  end.
(** migrate.rs 23-109 [Row for Migration::deserialize_row]; [parse_time] is
    [OffsetDateTime::parse(_, &Rfc3339)] of the external crate time. *)
Definition mig_row {A} (parse_time : text -> option A) (cols : list (text * ty * value)) : res (migration A) :=
  if negb (List.length cols =? 4)%nat then Err EDeser else
  p <- mig_loop cols {| a_version := None; a_name := None; a_applied := None; a_checksum := None |} ;;
  match a_version p, a_name p, a_applied p, a_checksum p with
  | Some ver, Some name, Some applied, Some checksum =>
      match parse_time applied with
      | None => Err EDeser
      | Some when_ => match parse_usize checksum with        (* parse::<u64>, the same grammar *)
                      | None => Err EDeser
                      | Some c => Ok {| m_version := ver; m_name := name; m_applied := when_; m_checksum := c |}
                      end
      end
  | _, _, _, _ => Err EDeser
  end.
