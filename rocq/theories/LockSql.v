(** How the server reads the statements of a lock, and that they do to the tables what the lock
    protocol (Lock.v) says. *)
From Coq Require Import String.
From Verif Require Import Base Types Text Lock.
Local Open Scope list_scope.
Local Open Scope N_scope.

(** Specification: a character of an unquoted SQL identifier. *)
Definition word_char (c : N) : bool :=
  ((48 <=? c) && (c <=? 57)) || ((65 <=? c) && (c <=? 90)) || ((97 <=? c) && (c <=? 122)) || (c =? 95).
Definition word (t : text) : Prop := Forall (fun c => word_char c = true) t.
(** [t] is the identifier that follows the keywords [kw] in the statement, taken as long as possible. *)
Definition follows (kw stmt t : text) : Prop :=
  exists rest, stmt = kw ++ t ++ rest /\ word t /\ match rest with c :: _ => word_char c = false | [] => True end.
Definition upd (T : text -> bool) (t : text) (b : bool) : text -> bool := fun x => if text_eqb x t then b else T x.
(** Specification: the server with tables [T] executes a statement; the last argument says whether it succeeds. *)
Inductive serves (T : text -> bool) (stmt : text) : (text -> bool) -> bool -> Prop :=
| sv_create t : follows (txt "CREATE TABLE ") stmt t -> T t = false -> serves T stmt (upd T t true) true
| sv_exists t : follows (txt "CREATE TABLE ") stmt t -> T t = true -> serves T stmt T false
| sv_drop t : follows (txt "DROP TABLE IF EXISTS ") stmt t -> serves T stmt (upd T t false) true.

(** The statement a task has outstanding. *)
Definition outstanding (cluster : text) (t : locker) : option text :=
  match l_phase t with
  | PCreating | POrphan | PHeldSent => Some (create_statement (l_name t) cluster)
  | PDropping | PResetting | POrphanReset => Some (drop_statement (l_name t) cluster)
  | _ => None
  end.

Lemma word_prefix : forall t t' r r', word t -> word t' ->
  match r with c :: _ => word_char c = false | [] => True end -> match r' with c :: _ => word_char c = false | [] => True end ->
  t ++ r = t' ++ r' -> t = t' /\ r = r'.
Proof.
  induction t as [|c t IH]; intros [|c' t'] r r' W W' R R' E; cbn in E.
  - now split.
  - subst r. inversion W'; subst. congruence.
  - subst r'. inversion W; subst. congruence.
  - injection E as -> E. inversion W; inversion W'; subst. destruct (IH t' r r') as [-> ->]; try assumption. now split.
Qed.
Lemma follows_det kw s t t' : follows kw s t -> follows kw s t' -> t = t'.
Proof.
  intros (r & -> & W & R) (r' & E & W' & R'). apply app_inv_head in E. now destruct (word_prefix _ _ _ _ W W' R R' E).
Qed.
Lemma create_not_drop s t t' : follows (txt "CREATE TABLE ") s t -> follows (txt "DROP TABLE IF EXISTS ") s t' -> False.
Proof. intros (r & -> & _) (r' & E & _). discriminate E. Qed.
Lemma serves_det T s T1 b1 T2 b2 : serves T s T1 b1 -> serves T s T2 b2 -> T1 = T2 /\ b1 = b2.
Proof.
  intros A B. destruct A as [t F E|t F E|t F], B as [t' F' E'|t' F' E'|t' F'];
    try (destruct (create_not_drop _ _ _ F F')); try (destruct (create_not_drop _ _ _ F' F));
    assert (t = t') by (exact (follows_det _ _ _ _ F F')); subst t'; try congruence; now split.
Qed.
(** what [with_cluster] (lock.rs 31-34) may have set *)
Definition cluster_text (cl : text) : Prop := cl = [] \/ exists c, cl = on_cluster c.
Lemma word_lock n : word n -> word (txt "_lock_" ++ n).
Proof. intros H. apply Forall_app. split; [repeat constructor|exact H]. Qed.
Lemma create_follows n cl : word n -> cluster_text cl -> follows (txt "CREATE TABLE ") (create_statement n cl) (txt "_lock_" ++ n).
Proof.
  intros W C. exists (cl ++ txt " (i Int64)ENGINE=Null"). split.
  - unfold create_statement, lock_table. now rewrite <- !app_assoc.
  - split; [now apply word_lock|]. destruct C as [->|[c ->]]; reflexivity.
Qed.
Lemma drop_follows n cl : word n -> cluster_text cl -> follows (txt "DROP TABLE IF EXISTS ") (drop_statement n cl) (txt "_lock_" ++ n).
Proof.
  intros W C. exists (cl ++ txt " SYNC"). split.
  - unfold drop_statement, lock_table. now rewrite <- !app_assoc.
  - split; [now apply word_lock|]. destruct C as [->|[c ->]]; reflexivity.
Qed.

(** The server's tables as the lock protocol sees them. *)
Definition shows (T : text -> bool) (w : world) : Prop := forall n, word n -> T (txt "_lock_" ++ n) = w_table w n.
Lemma upd_shows T w n b : shows T w -> forall m, word m -> upd T (txt "_lock_" ++ n) b (txt "_lock_" ++ m) = w_table (set_table w n b) m.
Proof.
  intros H m M. unfold upd. cbn [set_table w_table].
  assert (E : text_eqb (txt "_lock_" ++ m) (txt "_lock_" ++ n) = text_eqb m n).
  { destruct (text_eqb m n) eqn:X.
    - apply text_eqb_eq in X. subst. apply text_eqb_refl.
    - destruct (text_eqb (txt "_lock_" ++ m) (txt "_lock_" ++ n)) eqn:Y; [|reflexivity].
      apply text_eqb_eq in Y. apply app_inv_head in Y. subst. now rewrite text_eqb_refl in X. }
  rewrite E. destruct (text_eqb m n); [reflexivity|now apply H].
Qed.

Lemma statements_do_it w i w' cl T : lstep w (EExec i) = Some w' -> word (l_name (w_tasks w i)) -> cluster_text cl -> shows T w ->
  exists stmt T' ok, outstanding cl (w_tasks w i) = Some stmt /\ serves T stmt T' ok /\
    (forall T2 ok2, serves T stmt T2 ok2 -> T2 = T' /\ ok2 = ok) /\
    shows T' w' /\ (forall t, t <> txt "_lock_" ++ l_name (w_tasks w i) -> T' t = T t) /\
    (l_phase (w_tasks w i) = PCreating -> l_phase (w_tasks w' i) = if ok then PCreated else PRefused).
Proof.
  intros S W C H. unfold lstep in S. set (t := w_tasks w i) in *. set (n := l_name t) in *.
  assert (D := fun stmt T' ok (X : serves T stmt T' ok) T2 ok2 (Y : serves T stmt T2 ok2) => serves_det _ _ _ _ _ _ Y X).
  assert (FC := create_follows n cl W C). assert (FD := drop_follows n cl W C).
  assert (Hn := H n W).
  assert (O : forall b x, x <> txt "_lock_" ++ n -> upd T (txt "_lock_" ++ n) b x = T x).
  { intros b x NE. unfold upd. destruct (text_eqb x _) eqn:E; [|reflexivity]. apply text_eqb_eq in E. contradiction. }
  assert (P : forall w0 p, w_tasks (put w0 i (set_phase t p)) i = set_phase t p) by (intros; cbn; now rewrite Nat.eqb_refl).
  unfold outstanding. fold n. destruct (l_phase t) eqn:Ph; try discriminate S.
  all: try (destruct (w_table w n) eqn:Tn); apply (f_equal (fun o => match o with Some x => x | None => w end)) in S; cbv beta iota in S; subst w'.
  all: first
    [ exists (create_statement n cl), T, false; split; [reflexivity|];
      assert (X := sv_exists T _ _ FC Hn); split; [exact X|]; split; [exact (D _ _ _ X)|];
      split; [exact H|]; split; [reflexivity|]; try discriminate; intros _; now rewrite P
    | exists (create_statement n cl), (upd T (txt "_lock_" ++ n) true), true; split; [reflexivity|];
      assert (X := sv_create T _ _ FC Hn); split; [exact X|]; split; [exact (D _ _ _ X)|];
      split; [exact (upd_shows T w n true H)|]; split; [apply O|]; try discriminate; intros _; now rewrite P
    | exists (drop_statement n cl), (upd T (txt "_lock_" ++ n) false), true; split; [reflexivity|];
      assert (X := sv_drop T _ _ FD); split; [exact X|]; split; [exact (D _ _ _ X)|];
      split; [exact (upd_shows T w n false H)|]; split; [apply O|]; discriminate ].
Qed.

(** Releasing a handle whose connection is dead sends nothing: the tables stay, and if one was this task's, nobody will drop it. *)
Lemma dead_release w i n : holds w i n -> ~ holds_live w i n ->
  exists w', lstep w (ERelease i) = Some w' /\ ~ holds w' i n /\ (forall m, w_table w' m = w_table w m) /\
    (forall cl, outstanding cl (w_tasks w' i) <> Some (drop_statement n cl)) /\
    (l_phase (w_tasks w i) = PHeldDead -> l_phase (w_tasks w' i) = PLost).
Proof.
  intros [H Nm] NL. assert (P : forall w0 p, w_tasks (put w0 i (set_phase (w_tasks w i) p)) i = set_phase (w_tasks w i) p) by (intros; cbn; now rewrite Nat.eqb_refl).
  cbn [lstep]. destruct (l_phase (w_tasks w i)) eqn:Ph; try discriminate H; [destruct NL; now split| | |]; eexists; (split; [reflexivity|]);
    (split; [intros [X _]; rewrite P in X; discriminate X|]); (split; [reflexivity|]); rewrite P; cbn [outstanding set_phase l_phase l_name];
    (split; [intros cl; try discriminate|intros X; try discriminate X; reflexivity]).
Qed.
