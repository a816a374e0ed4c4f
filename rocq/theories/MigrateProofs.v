(** Proofs about migrate.rs. *)
From Coq Require Import String Permutation.
From Verif Require Import Base Types Text Literal Query Lock RawRow Numeric Convert ConvertSpec ConvertSafe Migrate.
Local Open Scope list_scope.
Local Open Scope N_scope.

Definition reply_at (rs : list (reply * bool)) (i : nat) : option reply := option_map fst (nth_error rs i).
Definition lock_action (t : target) (x : action) : Prop := x = Sent (create_lock t) \/ x = Sent (drop_lock t).

Lemma create_not_drop t : Sent (drop_lock t) <> Sent (create_lock t).
Proof. unfold drop_lock, create_lock, create_statement, drop_statement. intros H. injection H as H. vm_compute in H. discriminate. Qed.

Definition acq_ok (t : target) (rs : list (reply * bool)) (a : list action) (o : list (reply * bool) + outcome) : Prop :=
  Forall (lock_action t) a /\
  (forall i, nth_error a i = Some (Sent (drop_lock t)) -> exists j m, i = S j /\ nth_error rs j = Some (RErr m, true) /\ contains (txt "already exists") m = true) /\
  match o with
  | inl rs1 => exists a', a = a' ++ [Sent (create_lock t)] /\ reply_at rs (List.length a') = Some ROk /\ rs1 = skipn (List.length a) rs
  | inr Pending => S (List.length rs) = List.length a
  | inr (Failed m) => exists i, S i = List.length a /\ reply_at rs i = Some (RErr m)
  | inr (Done _) => False
  end.

Lemma acq_ok_cons1 t m rs a o : contains (txt "already exists") m = true -> acq_ok t rs a o -> acq_ok t ((RErr m, false) :: rs) (Sent (create_lock t) :: a) o.
Proof.
  intros C (F & D & O). split; [constructor; [now left|exact F]|]. split.
  - intros [|i] Hi; cbn [nth_error] in Hi; [injection Hi as Hi; exfalso; apply (create_not_drop t); congruence|].
    apply D in Hi as (j & m' & -> & Hj & Cm). exists (S j), m'. auto.
  - destruct o as [rs1|[|mm|]]; cbn [List.length].
    + destruct O as (a' & -> & R & ->). exists (Sent (create_lock t) :: a'). auto.
    + congruence.
    + destruct O as (i & E & R). exists (S i). split; [congruence|exact R].
    + exact O.
Qed.
Lemma acq_ok_cons2 t m b rs a o : contains (txt "already exists") m = true -> acq_ok t rs a o ->
  acq_ok t ((RErr m, true) :: (ROk, b) :: rs) (Sent (create_lock t) :: Sent (drop_lock t) :: a) o.
Proof.
  intros C (F & D & O). split; [constructor; [now left|constructor; [now right|exact F]]|]. split.
  - intros [|[|i]] Hi; cbn [nth_error] in Hi.
    + discriminate.
    + exists 0%nat, m. auto.
    + apply D in Hi as (j & m' & -> & Hj & Cm). exists (S (S j)), m'. auto.
  - destruct o as [rs1|[|mm|]]; cbn [List.length].
    + destruct O as (a' & -> & R & ->). exists (Sent (create_lock t) :: Sent (drop_lock t) :: a'). auto.
    + congruence.
    + destruct O as (i & E & R). exists (S (S i)). split; [congruence|exact R].
    + exact O.
Qed.

Lemma acquire_ok t : forall n rs, (List.length rs <= n)%nat -> forall a o, acquire t rs = (a, o) -> acq_ok t rs a o.
Proof.
  induction n as [|n IH]; intros rs Hn a o E.
  - destruct rs; [|cbn [List.length] in Hn; lia]. cbn [acquire] in E. injection E as <- <-. split; [constructor; [now left|constructor]|]. split; [|reflexivity].
    intros [|[|i]] Hi; cbn [nth_error] in Hi; try discriminate; injection Hi as Hi; exfalso; apply (create_not_drop t); congruence.
  - assert (One : forall i, nth_error [Sent (create_lock t)] i = Some (Sent (drop_lock t)) -> False).
    { intros [|[|i]] Hi; cbn [nth_error] in Hi; try discriminate; injection Hi as Hi; apply (create_not_drop t); congruence. }
    destruct rs as [|[[|m] late] rs']; cbn [acquire] in E.
    + injection E as <- <-. split; [constructor; [now left|constructor]|]. split; [|reflexivity]. intros i Hi. now apply One in Hi.
    + injection E as <- <-. split; [constructor; [now left|constructor]|]. split; [intros i Hi; now apply One in Hi|].
      exists []. repeat split.
    + cbn [List.length] in Hn. destruct (contains (txt "already exists") m) eqn:C; [destruct late|].
      * assert (Two : forall i, nth_error [Sent (create_lock t); Sent (drop_lock t)] i = Some (Sent (drop_lock t)) -> i = 1%nat).
        { intros [|[|i]] Hi; cbn [nth_error] in Hi; try reflexivity; try (destruct i; discriminate); try discriminate. }
        destruct rs' as [|[[|m'] l'] rs'']; [| |].
        -- injection E as <- <-. split; [constructor; [now left|constructor; [now right|constructor]]|]. split; [|reflexivity].
           intros i Hi. apply Two in Hi as ->. exists 0%nat, m. auto.
        -- destruct (acquire t rs'') as [a1 o1] eqn:E1. injection E as <- <-. apply acq_ok_cons2; [exact C|]. apply (IH rs''); [cbn [List.length] in Hn; lia|exact E1].
        -- injection E as <- <-. split; [constructor; [now left|constructor; [now right|constructor]]|]. split.
           ++ intros i Hi. apply Two in Hi as ->. exists 0%nat, m. auto.
           ++ exists 1%nat. auto.
      * destruct (acquire t rs') as [a1 o1] eqn:E1. injection E as <- <-. apply acq_ok_cons1; [exact C|]. apply (IH rs'); [lia|exact E1].
      * injection E as <- <-. split; [constructor; [now left|constructor]|]. split; [intros i Hi; now apply One in Hi|]. exists 0%nat. auto.
Qed.

Lemma run_all_ok stmts : forall rs a o, run_all stmts rs = (a, o) ->
  exists k, a = map Sent (firstn k stmts) /\ (k <= List.length stmts)%nat /\ (forall i, (S i < k)%nat -> reply_at rs i = Some ROk) /\
  match o with
  | inl rs1 => k = List.length stmts /\ rs1 = skipn k rs /\ (forall i, (i < k)%nat -> reply_at rs i = Some ROk)
  | inr Pending => S (List.length rs) = k
  | inr (Failed m) => exists i, S i = k /\ reply_at rs i = Some (RErr m)
  | inr (Done _) => False
  end.
Proof.
  induction stmts as [|q stmts IH]; intros rs a o E; cbn [run_all] in E.
  - injection E as <- <-. exists 0%nat. repeat split; try lia.
  - destruct rs as [|[[|m] l] rs'].
    + injection E as <- <-. exists 1%nat. cbn [List.length]. repeat split; try lia; intros i Hi; lia.
    + destruct (run_all stmts rs') as [a1 o1] eqn:E1. injection E as <- <-. destruct (IH rs' a1 o1 E1) as (k & -> & K & P & O).
      exists (S k). cbn [firstn map List.length]. repeat split; try lia.
      * intros [|i] Hi; [reflexivity|]. unfold reply_at. cbn [nth_error]. apply P. lia.
      * destruct o1 as [rs1|[|mm|]].
        -- destruct O as (-> & -> & Q). repeat split. intros [|i] Hi; [reflexivity|]. apply Q. lia.
        -- cbn [List.length]. congruence.
        -- destruct O as (i & <- & R). exists (S i). split; [reflexivity|exact R].
        -- exact O.
    + injection E as <- <-. exists 1%nat. cbn [List.length]. split; [reflexivity|]. split; [lia|]. split; [intros i Hi; lia|]. exists 0%nat. auto.
Qed.

Lemma reply_at_skipn rs n i : reply_at (skipn n rs) i = reply_at rs (n + i).
Proof. unfold reply_at. revert n; induction rs as [|r rs IH]; intros [|n]; try reflexivity. - cbn [skipn]. now destruct i. - cbn [skipn Nat.add nth_error]. apply IH. Qed.
Lemma skipn_head rs n r b rest : skipn n rs = (r, b) :: rest -> reply_at rs n = Some r.
Proof. intros E. rewrite <- (Nat.add_0_r n), <- reply_at_skipn, E. reflexivity. Qed.

Lemma execute_ok U tok t scripts rs trace out : execute U tok t scripts rs = (trace, out) ->
  let all := flat_map (statements_of U tok t) scripts in
  exists a k b,
    trace = a ++ map Sent (firstn k all) ++ b /\ (k <= List.length all)%nat /\
    (* before the script only CREATE and DROP of the lock table; a DROP only after a refusal and more than a minute *)
    Forall (lock_action t) a /\
    (forall i, nth_error a i = Some (Sent (drop_lock t)) -> exists j m, i = S j /\ nth_error rs j = Some (RErr m, true) /\ contains (txt "already exists") m = true) /\
    (* nothing of the script before a CREATE succeeded *)
    ((k <> 0)%nat \/ b <> [] -> exists a', a = a' ++ [Sent (create_lock t)] /\ reply_at rs (List.length a') = Some ROk) /\
    (* each statement only after the previous one succeeded *)
    (forall i, (S i < k)%nat -> reply_at rs (List.length a + i) = Some ROk) /\
    match out with
    | Done n => n = List.length scripts /\ k = List.length all /\ b = [Sent (drop_lock t)] /\
                (forall i, (i <= k)%nat -> reply_at rs (List.length a + i) = Some ROk)
    | Failed m => (k = 0%nat /\ b = [] /\ exists i, S i = List.length a /\ reply_at rs i = Some (RErr m)) \/
                  (b = [Spawned (drop_lock t)] /\ exists i, S i = k /\ reply_at rs (List.length a + i) = Some (RErr m)) \/
                  (k = List.length all /\ b = [Sent (drop_lock t)] /\ reply_at rs (List.length a + k) = Some (RErr m))
    | Pending => S (List.length rs) = List.length trace /\ (b = [] \/ (k = List.length all /\ b = [Sent (drop_lock t)]))
    end.
Proof.
  cbv zeta. unfold execute. destruct (acquire t rs) as [a [rs1|o]] eqn:EA; pose proof (acquire_ok t _ rs (le_n _) _ _ EA) as (F & D & O).
  2:{ intros E. injection E as <- <-. exists a, 0%nat, []. cbn [firstn map app]. rewrite app_nil_r. repeat split; try assumption; try lia.
      - intros [X|X]; [lia|congruence].
      - destruct o as [|m|n]; [split; [exact O|now left]| |destruct O]. left. auto. }
  destruct O as (a' & Ha & Hr & ->). set (all := flat_map (statements_of U tok t) scripts).
  destruct (run_all all (skipn (List.length a) rs)) as [b o] eqn:EB. destruct (run_all_ok all _ _ _ EB) as (k & -> & K & P & O).
  assert (La : (List.length a <= List.length rs)%nat).
  { rewrite Ha, app_length. cbn [List.length]. unfold reply_at in Hr. destruct (nth_error rs (List.length a')) eqn:N1; [|discriminate].
    assert (List.length a' < List.length rs)%nat by (apply nth_error_Some; congruence). lia. }
  assert (P' : forall i, (S i < k)%nat -> reply_at rs (List.length a + i) = Some ROk).
  { intros i Hi. rewrite <- reply_at_skipn. now apply P. }
  destruct o as [rs2|[|m|n]].
  - destruct O as (Ek & -> & Q). intros E. assert (Q' : forall i, (i < k)%nat -> reply_at rs (List.length a + i) = Some ROk) by (intros i Hi; rewrite <- reply_at_skipn; now apply Q).
    destruct (skipn k (skipn (List.length a) rs)) as [|[[|m] l] rest] eqn:ES; injection E as <- <-; exists a, k, [Sent (drop_lock t)];
      (split; [reflexivity|]); (split; [exact K|]); (split; [exact F|]); (split; [exact D|]); (split; [eauto|]); (split; [exact P'|]).
    + split; [|right; auto]. rewrite !app_length, map_length, firstn_length_le by exact K. cbn [List.length].
      assert (X : List.length (skipn k (skipn (List.length a) rs)) = 0%nat) by now rewrite ES. rewrite !skipn_length in X.
      assert (k <= List.length rs - List.length a)%nat; [|lia].
      destruct k as [|k']; [lia|]. specialize (Q k' ltac:(lia)). unfold reply_at in Q. destruct (nth_error (skipn (List.length a) rs) k') eqn:N1; [|discriminate].
      assert (k' < List.length (skipn (List.length a) rs))%nat by (apply nth_error_Some; congruence). rewrite skipn_length in *. lia.
    + split; [reflexivity|]. split; [exact Ek|]. split; [reflexivity|]. intros i Hi. destruct (Nat.eq_dec i k) as [->|]; [|apply Q'; lia].
      rewrite <- reply_at_skipn. exact (skipn_head _ _ _ _ _ ES).
    + right. right. split; [exact Ek|]. split; [reflexivity|]. rewrite <- reply_at_skipn. exact (skipn_head _ _ _ _ _ ES).
  - intros E. injection E as <- <-. exists a, k, []. rewrite app_nil_r. repeat split; try assumption; eauto.
    rewrite app_length, map_length, firstn_length_le by exact K. rewrite skipn_length in O. lia.
  - intros E. injection E as <- <-. exists a, k, [Spawned (drop_lock t)]. repeat split; try assumption; eauto.
    right. left. split; [reflexivity|]. destruct O as (i & Hi & R). exists i. split; [exact Hi|]. now rewrite <- reply_at_skipn.
  - destruct O.
Qed.

(** ** Placeholders *)
Inductive piece := PLit (s : text) | PDatabase | PCluster.
Definition render (db cl : text) (l : list piece) : text :=
  flat_map (fun p => match p with PLit s => s | PDatabase => db | PCluster => cl end) l.
(** No '%' directly before a 'D' or a 'C', and none at the end. *)
Fixpoint clean (s : text) : bool :=
  match s with
  | [] => true
  | c :: r => (if c =? 37 then match r with [] => false | d :: _ => negb (d =? 68) && negb (d =? 67) end else true) && clean r
  end.

Lemma prefix_app pat s : prefix pat (pat ++ s) = true.
Proof. induction pat as [|p pat IH]; [reflexivity|]. cbn [app prefix]. now rewrite N.eqb_refl. Qed.
Lemma replace_skip pat w l : forall s, replace_go pat w (List.length l) (l ++ s) = replace_go pat w 0 s.
Proof. induction l as [|c l IH]; intros s; [reflexivity|]. cbn [List.length app replace_go]. apply IH. Qed.
Lemma replace_hit p pat w s : replace_go (p :: pat) w 0 ((p :: pat) ++ s) = w ++ replace_go (p :: pat) w 0 s.
Proof.
  cbn [app]. cbn [replace_go]. change (p :: pat ++ s) with ((p :: pat) ++ s). rewrite prefix_app. f_equal.
  cbn [List.length]. rewrite Nat.sub_succ, Nat.sub_0_r. apply replace_skip.
Qed.
(** A pattern "%D…"/"%C…" does not match inside clean text. *)
Lemma replace_clean d pat w l : (d = 68 \/ d = 67) -> clean l = true -> forall s, replace_go (37 :: d :: pat) w 0 (l ++ s) = l ++ replace_go (37 :: d :: pat) w 0 s.
Proof.
  intros Hd. induction l as [|c l IH]; intros C s; [reflexivity|]. cbn [clean] in C. apply andb_prop in C as [C1 C2].
  cbn [app replace_go]. assert (X : prefix (37 :: d :: pat) (c :: l ++ s) = false).
  { cbn [prefix]. destruct (N.eqb_spec 37 c) as [<-|]; [|reflexivity]. rewrite N.eqb_refl in C1. destruct l as [|e l]; [discriminate|].
    cbn [app prefix andb]. apply andb_prop in C1 as [A B]. apply negb_true_iff in A, B. apply N.eqb_neq in A, B.
    destruct (N.eqb_spec d e); [destruct Hd; congruence|reflexivity]. }
  rewrite X. f_equal. apply IH. exact C2.
Qed.
(** A template: clean literals, and no literal starting with 'D' directly after the cluster placeholder
    ("%CLUSTER%DATABASE%" is ambiguous). *)
Fixpoint template (l : list piece) : bool :=
  match l with
  | [] => true
  | PLit s :: r => clean s && template r
  | PDatabase :: r => template r
  | PCluster :: r => negb (starts_with 68 (render DATABASE CLUSTER r)) && template r
  end.

(** The other placeholder is left alone. *)
Lemma replace_database_in_cluster w s : starts_with 68 s = false -> replace_go DATABASE w 0 (CLUSTER ++ s) = CLUSTER ++ replace_go DATABASE w 0 s.
Proof.
  intros Hs. change DATABASE with (37 :: 68 :: [65; 84; 65; 66; 65; 83; 69; 37]).
  change CLUSTER with ([37; 67; 76; 85; 83; 84; 69; 82] ++ [37]). rewrite <- !app_assoc.
  assert (G : forall (l : text) c r, l <> [] -> (c =? 68) = false -> forallb (fun x => negb (x =? 37)) (tl l) = true ->
              (hd 0 (tl (l ++ [c])) =? 68) = false -> replace_go (37 :: 68 :: r) w 0 (l ++ [c] ++ s) = l ++ replace_go (37 :: 68 :: r) w 0 ([c] ++ s)).
  { intros l c r Hl Hc. destruct l as [|x l]; [congruence|]. intros Ht Hh. cbn [tl app] in Ht, Hh. cbn [app replace_go].
    assert (X : prefix (37 :: 68 :: r) (x :: l ++ c :: s) = false).
    { cbn [prefix]. destruct l as [|y l]; cbn [app hd] in *; [rewrite (N.eqb_sym 68 c), Hc|rewrite (N.eqb_sym 68 y), Hh]; apply andb_false_r. }
    rewrite X. f_equal. clear Hh X Hl. revert Ht. induction l as [|y l IH]; intros Ht; [reflexivity|].
    cbn [forallb] in Ht. apply andb_prop in Ht as [A B]. apply negb_true_iff in A. cbn [app replace_go].
    assert (X : prefix (37 :: 68 :: r) (y :: l ++ c :: s) = false) by (cbn [prefix]; rewrite (N.eqb_sym 37 y), A; reflexivity).
    rewrite X. f_equal. now apply IH. }
  rewrite G by (try reflexivity; discriminate). f_equal. cbn [app replace_go].
  assert (X : prefix [37; 68; 65; 84; 65; 66; 65; 83; 69; 37] (37 :: s) = false).
  { cbn [prefix]. destruct s as [|y s]; [apply andb_false_r|]. cbn [starts_with] in Hs. rewrite (N.eqb_sym 68 y), Hs. apply andb_false_r. }
  now rewrite X.
Qed.

Lemma replace_nil pat w : replace_go pat w 0 [] = [].
Proof. reflexivity. Qed.
Lemma first_pass db l : template l = true -> replace DATABASE db (render DATABASE CLUSTER l) = render db CLUSTER l.
Proof.
  unfold replace. induction l as [|[s| |] l IH]; intros T; cbn [template] in T; [reflexivity| | |]; unfold render in *; cbn [flat_map].
  - apply andb_prop in T as [C T]. change DATABASE with (37 :: 68 :: [65; 84; 65; 66; 65; 83; 69; 37]) at 1. rewrite replace_clean by auto. f_equal. now apply IH.
  - change DATABASE with (37 :: [68; 65; 84; 65; 66; 65; 83; 69; 37]) at 1 2. rewrite replace_hit. f_equal. now apply IH.
  - apply andb_prop in T as [C T]. apply negb_true_iff in C. rewrite replace_database_in_cluster by exact C. f_equal. now apply IH.
Qed.
Lemma second_pass db cl l : template l = true -> clean db = true -> replace CLUSTER cl (render db CLUSTER l) = render db cl l.
Proof.
  unfold replace. intros T D. revert T. induction l as [|[s| |] l IH]; intros T; cbn [template] in T; [reflexivity| | |]; unfold render in *; cbn [flat_map].
  - apply andb_prop in T as [C T]. change CLUSTER with (37 :: 67 :: [76; 85; 83; 84; 69; 82; 37]) at 1. rewrite replace_clean by auto. f_equal. now apply IH.
  - change CLUSTER with (37 :: 67 :: [76; 85; 83; 84; 69; 82; 37]) at 1. rewrite replace_clean by auto. f_equal. now apply IH.
  - apply andb_prop in T as [_ T]. change CLUSTER with (37 :: [67; 76; 85; 83; 84; 69; 82; 37]) at 1 2. rewrite replace_hit. f_equal. now apply IH.
Qed.
Lemma fill_template cl db l : template l = true -> clean db = true -> fill (OnCluster cl db) (render DATABASE CLUSTER l) = render db cl l.
Proof. intros T D. cbn [fill]. rewrite first_pass by exact T. now apply second_pass. Qed.

(** ** History rows *)
Definition field_of (n : text) : option nat :=
  if text_eqb n (txt "version") then Some 0%nat else if text_eqb n (txt "name") then Some 1%nat
  else if text_eqb n (txt "applied_on") then Some 2%nat else if text_eqb n (txt "checksum") then Some 3%nat else None.

Definition conv_ver (c : text * ty * value) (z : Z) : Prop := from_sql (RLeaf (LInt I32)) (snd (fst c)) (snd c) = Ok (XLeaf (VInt I32 z)).
Definition conv_str (c : text * ty * value) (s : text) : Prop := from_sql RString (snd (fst c)) (snd c) = Ok (XStr s).
Lemma ver_form t v x : from_sql (RLeaf (LInt I32)) t v = Ok x -> x = XLeaf (VInt I32 (rz x)).
Proof.
  cbn [from_sql]. destruct (leaf_type (LInt I32) t); [|discriminate]. destruct v; try discriminate. cbn [leaf_content].
  destruct (iw_eqb I32 w) eqn:W; [|discriminate]. intros E. injection E as <-. destruct w; try discriminate. reflexivity.
Qed.
Lemma str_form t v x : from_sql RString t v = Ok x -> x = XStr (rs_ x).
Proof.
  cbn [from_sql]. unfold rstring_from. destruct t; try discriminate; destruct v; try discriminate; destruct (Utf8.utf8_decode _); try discriminate; intros E; injection E as <-; reflexivity.
Qed.

(** What the loop has gathered: for every field, either it was there before or one of the columns gives it. *)
Definition gathers {X} (conv : text * ty * value -> X -> Prop) (fieldname : text) (cols : list (text * ty * value)) (before after : option X) : Prop :=
  match filter (fun c => text_eqb (fst (fst c)) fieldname) cols with
  | [] => after = before
  | [c] => before = None /\ exists x, after = Some x /\ conv c x
  | _ => False
  end.
Definition known (c : text * ty * value) : Prop := exists i, field_of (fst (fst c)) = Some i.

Lemma gathers_cons {X} (conv : text * ty * value -> X -> Prop) f c cols b a : gathers conv f (c :: cols) b a <->
  if text_eqb (fst (fst c)) f then b = None /\ exists x, conv c x /\ gathers conv f cols (Some x) a else gathers conv f cols b a.
Proof.
  unfold gathers. cbn [filter]. destruct (text_eqb (fst (fst c)) f); [|tauto].
  destruct (filter _ cols) as [|d [|e l]].
  - split; intros (B & x & H); split; auto; exists x; tauto.
  - split; [tauto|]. intros (_ & x & _ & H & _). discriminate.
  - split; [tauto|]. intros (_ & x & _ & []).
Qed.

Ltac names E := repeat match goal with |- context [text_eqb ?a (txt ?b)] => let x := eval vm_compute in (text_eqb a (txt b)) in change (text_eqb a (txt b)) with x end.

Lemma mig_loop_ok cols : forall p q, mig_loop cols p = Ok q <->
  (Forall known cols /\ gathers conv_ver (txt "version") cols (a_version p) (a_version q) /\
   gathers conv_str (txt "name") cols (a_name p) (a_name q) /\
   gathers conv_str (txt "applied_on") cols (a_applied p) (a_applied q) /\
   gathers conv_str (txt "checksum") cols (a_checksum p) (a_checksum q)).
Proof.
  induction cols as [|[[n t] v] cols IH]; intros p q.
  - cbn [mig_loop]. unfold gathers. cbn [filter]. split.
    + intros E. injection E as <-. repeat split; constructor.
    + intros (_ & A & B & C & D). destruct p, q; cbn in *. congruence.
  - rewrite !gathers_cons. cbn [fst]. cbn [mig_loop].
    assert (K : forall i, field_of n = Some i -> (Forall known ((n, t, v) :: cols) <-> Forall known cols)).
    { intros i Hi. split; [intros F; now inversion F|]. intros F. constructor; [exists i; exact Hi|exact F]. }
    unfold field_of in K.
    destruct (text_eqb n (txt "version")) eqn:E1; [|destruct (text_eqb n (txt "name")) eqn:E2; [|destruct (text_eqb n (txt "applied_on")) eqn:E3; [|destruct (text_eqb n (txt "checksum")) eqn:E4]]].
    + rewrite (K _ eq_refl). apply text_eqb_eq in E1. subst n. names tt. cbv iota.
      destruct (a_version p) as [z|] eqn:P; [split; [discriminate|intros (_ & (X & _) & _); discriminate]|].
      unfold conv_ver at 1. cbn [fst snd]. destruct (from_sql (RLeaf (LInt I32)) t v) as [x|e|] eqn:F; cbn [rbind];
        try (split; [discriminate|intros (_ & (_ & x & X & _) & _); discriminate]).
      rewrite IH. cbn [a_version a_name a_applied a_checksum]. pose proof (ver_form t v x F) as Fx. split.
      * intros (A & B & C). split; [exact A|]. split; [|exact C]. split; [reflexivity|]. exists (rz x). split; [congruence|exact B].
      * intros (A & (_ & y & Y & B) & C). split; [exact A|]. split; [|exact C]. assert (rz x = y) as -> by (rewrite Fx in Y; now injection Y). exact B.
    + rewrite (K _ eq_refl). apply text_eqb_eq in E2. subst n. names tt. cbv iota.
      destruct (a_name p) as [z|] eqn:P; [split; [discriminate|intros (_ & _ & (X & _) & _); discriminate]|].
      unfold conv_str at 1. cbn [fst snd]. destruct (from_sql RString t v) as [x|e|] eqn:F; cbn [rbind];
        try (split; [discriminate|intros (_ & _ & (_ & x & X & _) & _); discriminate]).
      rewrite IH. cbn [a_version a_name a_applied a_checksum]. pose proof (str_form t v x F) as Fx. split.
      * intros (A & B & C & D). split; [exact A|]. split; [exact B|]. split; [|exact D]. split; [reflexivity|]. exists (rs_ x). split; [congruence|exact C].
      * intros (A & B & (_ & y & Y & C) & D). split; [exact A|]. split; [exact B|]. split; [|exact D]. assert (rs_ x = y) as -> by (rewrite Fx in Y; now injection Y). exact C.
    + rewrite (K _ eq_refl). apply text_eqb_eq in E3. subst n. names tt. cbv iota.
      destruct (a_applied p) as [z|] eqn:P; [split; [discriminate|intros (_ & _ & _ & (X & _) & _); discriminate]|].
      unfold conv_str at 2. cbn [fst snd]. destruct (from_sql RString t v) as [x|e|] eqn:F; cbn [rbind];
        try (split; [discriminate|intros (_ & _ & _ & (_ & x & X & _) & _); discriminate]).
      rewrite IH. cbn [a_version a_name a_applied a_checksum]. pose proof (str_form t v x F) as Fx. split.
      * intros (A & B & C & D & E). split; [exact A|]. split; [exact B|]. split; [exact C|]. split; [|exact E]. split; [reflexivity|]. exists (rs_ x). split; [congruence|exact D].
      * intros (A & B & C & (_ & y & Y & D) & E). split; [exact A|]. split; [exact B|]. split; [exact C|]. split; [|exact E]. assert (rs_ x = y) as -> by (rewrite Fx in Y; now injection Y). exact D.
    + rewrite (K _ eq_refl). apply text_eqb_eq in E4. subst n. names tt. cbv iota.
      destruct (a_checksum p) as [z|] eqn:P; [split; [discriminate|intros (_ & _ & _ & _ & (X & _)); discriminate]|].
      unfold conv_str at 3. cbn [fst snd]. destruct (from_sql RString t v) as [x|e|] eqn:F; cbn [rbind];
        try (split; [discriminate|intros (_ & _ & _ & _ & (_ & x & X & _)); discriminate]).
      rewrite IH. cbn [a_version a_name a_applied a_checksum]. pose proof (str_form t v x F) as Fx. split.
      * intros (A & B & C & D & E). split; [exact A|]. split; [exact B|]. split; [exact C|]. split; [exact D|]. split; [reflexivity|]. exists (rs_ x). split; [congruence|exact E].
      * intros (A & B & C & D & (_ & y & Y & E)). split; [exact A|]. split; [exact B|]. split; [exact C|]. split; [exact D|]. assert (rs_ x = y) as -> by (rewrite Fx in Y; now injection Y). exact E.
    + split; [discriminate|]. intros (F & _). inversion F as [|? ? [i Hi] _]; subst. cbn [fst] in Hi. unfold field_of in Hi. rewrite E1, E2, E3, E4 in Hi. discriminate.
Qed.

(** Four columns each of which is one of four fields, none twice. *)
Lemma gathers_one {X} (conv : text * ty * value -> X -> Prop) f cols x : gathers conv f cols None (Some x) ->
  exists c, filter (fun c => text_eqb (fst (fst c)) f) cols = [c] /\ conv c x.
Proof. unfold gathers. destruct (filter _ cols) as [|c [|d l]]; [discriminate| |intros []]. intros (_ & y & E & H). exists c. split; [reflexivity|congruence]. Qed.

Definition mig_cols (tv : ty) (v : value) (tn : ty) (n : value) (ta : ty) (a : value) (tc : ty) (c : value) : list (text * ty * value) :=
  [(txt "version", tv, v); (txt "name", tn, n); (txt "applied_on", ta, a); (txt "checksum", tc, c)].

Lemma perm_filter {A} (f : A -> bool) l m : Permutation l m -> Permutation (filter f l) (filter f m).
Proof.
  induction 1 as [|x l m _ IH|x y l|l m k _ IH1 _ IH2]; cbn [filter]; [constructor| | |now transitivity (filter f m)].
  - destruct (f x); [now constructor|exact IH].
  - destruct (f x), (f y); try constructor; reflexivity.
Qed.

Lemma mig_row_ok {A} (P : text -> option A) cols m : mig_row P cols = Ok m <->
  exists tv v tn n ta a tc c applied checksum,
    Permutation cols (mig_cols tv v tn n ta a tc c) /\
    from_sql (RLeaf (LInt I32)) tv v = Ok (XLeaf (VInt I32 (m_version m))) /\
    from_sql RString tn n = Ok (XStr (m_name m)) /\
    from_sql RString ta a = Ok (XStr applied) /\ P applied = Some (m_applied m) /\
    from_sql RString tc c = Ok (XStr checksum) /\ parse_usize checksum = Some (m_checksum m).
Proof.
  unfold mig_row. split.
  - destruct (Nat.eqb_spec (List.length cols) 4) as [L4|]; cbn [negb]; [|discriminate].
    destruct (mig_loop cols _) as [p|e|] eqn:E; cbn [rbind]; try discriminate. apply mig_loop_ok in E. cbn [a_version a_name a_applied a_checksum] in E.
    destruct E as (_ & G1 & G2 & G3 & G4).
    destruct (a_version p) as [ver|]; [|discriminate]. destruct (a_name p) as [nm|]; [|discriminate]. destruct (a_applied p) as [ap|]; [|discriminate]. destruct (a_checksum p) as [ck|]; [|discriminate].
    destruct (P ap) as [w|] eqn:Pw; [|discriminate]. destruct (parse_usize ck) as [c|] eqn:Pc; [|discriminate]. intros E. injection E as <-. cbn [m_version m_name m_applied m_checksum].
    apply gathers_one in G1 as ([[n1 t1] v1] & F1 & V1). apply gathers_one in G2 as ([[n2 t2] v2] & F2 & V2). apply gathers_one in G3 as ([[n3 t3] v3] & F3 & V3). apply gathers_one in G4 as ([[n4 t4] v4] & F4 & V4).
    assert (Name : forall f k n t v, filter (fun c : text * ty * value => text_eqb (fst (fst c)) (txt f)) k = [(n, t, v)] -> In (n, t, v) k /\ n = txt f).
    { intros f k n t v F. assert (I0 : In (n, t, v) (filter (fun c : text * ty * value => text_eqb (fst (fst c)) (txt f)) k)) by (rewrite F; now left).
      apply filter_In in I0 as [I0 E0]. cbn [fst] in E0. apply text_eqb_eq in E0. auto. }
    apply Name in F1 as [I1 ->]. apply Name in F2 as [I2 ->]. apply Name in F3 as [I3 ->]. apply Name in F4 as [I4 ->].
    exists t1, v1, t2, v2, t3, v3, t4, v4, ap, ck. split; [|auto 10].
    symmetry. apply NoDup_Permutation_bis.
    + unfold mig_cols. repeat constructor; cbn [In]; intros H; repeat (destruct H as [H|H]; [discriminate|]); exact H.
    + unfold mig_cols. cbn [List.length]. lia.
    + intros x. unfold mig_cols. cbn [In]. intros [<-|[<-|[<-|[<-|[]]]]]; assumption.
  - intros (tv & v & tn & n & ta & a & tc & c & ap & ck & PM & V1 & V2 & V3 & PA & V4 & PC).
    pose proof (Permutation_length PM) as L4. unfold mig_cols in L4. cbn [List.length] in L4. rewrite L4. cbn [Nat.eqb negb].
    assert (E : mig_loop cols {| a_version := None; a_name := None; a_applied := None; a_checksum := None |} =
                Ok {| a_version := Some (m_version m); a_name := Some (m_name m); a_applied := Some ap; a_checksum := Some ck |}).
    { apply mig_loop_ok. cbn [a_version a_name a_applied a_checksum].
      assert (FO : forall f c0, Permutation (filter (fun c => text_eqb (fst (fst c)) f) cols) [c0] -> filter (fun c => text_eqb (fst (fst c)) f) cols = [c0]).
      { intros f c0 H. apply Permutation_sym, Permutation_length_1_inv in H. exact H. }
      unfold gathers. split.
      - apply Forall_forall. intros x Hx. apply (Permutation_in _ PM) in Hx. unfold mig_cols in Hx. cbn [In] in Hx.
        destruct Hx as [<-|[<-|[<-|[<-|[]]]]]; eexists; vm_compute; reflexivity.
      - repeat split.
        + rewrite (FO (txt "version") (txt "version", tv, v)); [split; [reflexivity|]; eexists; split; [reflexivity|exact V1]|].
          apply (perm_filter (fun c => text_eqb (fst (fst c)) (txt "version"))) in PM. exact PM.
        + rewrite (FO (txt "name") (txt "name", tn, n)); [split; [reflexivity|]; eexists; split; [reflexivity|exact V2]|].
          apply (perm_filter (fun c => text_eqb (fst (fst c)) (txt "name"))) in PM. exact PM.
        + rewrite (FO (txt "applied_on") (txt "applied_on", ta, a)); [split; [reflexivity|]; eexists; split; [reflexivity|exact V3]|].
          apply (perm_filter (fun c => text_eqb (fst (fst c)) (txt "applied_on"))) in PM. exact PM.
        + rewrite (FO (txt "checksum") (txt "checksum", tc, c)); [split; [reflexivity|]; eexists; split; [reflexivity|exact V4]|].
          apply (perm_filter (fun c => text_eqb (fst (fst c)) (txt "checksum"))) in PM. exact PM. }
    rewrite E. cbn [rbind a_version a_name a_applied a_checksum]. rewrite PA, PC. now destruct m.
Qed.

Lemma filter_idem {A} (f : A -> bool) l : filter f (filter f l) = filter f l.
Proof. induction l as [|a l IH]; [reflexivity|]. cbn [filter]. destruct (f a) eqn:E; [cbn [filter]; rewrite E; now f_equal|exact IH]. Qed.
Lemma cluster_statements U tok cluster database script ls :
  split_query_statements U (tok script) = map (render (txt "%DATABASE%") (txt "%CLUSTER%")) ls ->
  Forall (fun l => template l = true) ls -> clean database = true ->
  statements_of U tok (OnCluster cluster database) script = map (render database cluster) ls.
Proof.
  intros E F C. unfold statements_of. cbv zeta.
  match goal with |- map _ (filter ?f ?l) = _ => assert (I : filter f l = l) by (unfold split_query_statements; apply filter_idem); rewrite I, E, map_map end. clear - F C. induction F as [|l ls T _ IH]; [reflexivity|]. cbn [map]. rewrite IH, (fill_template _ _ _ T C). reflexivity.
Qed.
Lemma client_statements U tok script : tok [] = [] -> statements_of U tok OnClient script = split_query_statements U (tok script).
Proof.
  intros T. unfold statements_of, split_query_statements. rewrite filter_idem. destruct script; [rewrite T|]; reflexivity.
Qed.

Lemma mig_row_values {A} (P : text -> option A) cols ver name applied when_ checksum :
  forallb Utf8.scalar name = true -> forallb Utf8.scalar applied = true -> P applied = Some when_ -> checksum < 2 ^ 64 ->
  Permutation cols [(txt "version", TInt I32, VInt I32 ver); (txt "name", TString, VString (Utf8.utf8 name));
                    (txt "applied_on", TString, VString (Utf8.utf8 applied)); (txt "checksum", TString, VString (Utf8.utf8 (show_N checksum)))] ->
  mig_row P cols = Ok {| m_version := ver; m_name := name; m_applied := when_; m_checksum := checksum |}.
Proof.
  intros Hn Ha Pa Hc PM. apply mig_row_ok. cbn [m_version m_name m_applied m_checksum].
  assert (S0 : forall s, forallb Utf8.scalar s = true -> from_sql RString TString (VString (Utf8.utf8 s)) = Ok (XStr s)).
  { intros s Hs. cbn [from_sql]. unfold rstring_from. now rewrite Utf8.utf8_roundtrip. }
  do 8 eexists. exists applied, (show_N checksum). split; [exact PM|].
  split; [reflexivity|]. split; [now apply S0|]. split; [now apply S0|]. split; [exact Pa|]. split; [|now apply parse_usize_show].
  apply S0. apply forallb_forall. intros x Hx. pose proof (proj1 (Forall_forall _ _) (show_N_digits checksum) x Hx) as D. cbv beta in D.
  unfold is_digit in D. unfold Utf8.scalar. lia.
Qed.

(** ** Reading a history row never panics. *)
Lemma mig_loop_safe cols : Forall (fun c => typed (snd (fst c)) (snd c) = true) cols -> forall p, mig_loop cols p <> Panic.
Proof.
  induction cols as [|[[n t] v] cols IH]; intros F p; [discriminate|]. inversion F as [|? ? T F']; subst. cbn [fst snd] in T. specialize (IH F'). cbn [mig_loop].
  assert (R : forall r (k : rval -> res partial), calm r -> (forall x, k x <> Panic) -> rbind (from_sql r t v) k <> Panic).
  { intros r k C K. pose proof (safe r C t v T). destruct (from_sql r t v); cbn [rbind]; [apply K|discriminate|congruence]. }
  destruct (text_eqb n (txt "version")); [destruct (a_version p); [discriminate|apply R; [exact Logic.I|intros x; apply IH]]|].
  destruct (text_eqb n (txt "name")); [destruct (a_name p); [discriminate|apply R; [exact Logic.I|intros x; apply IH]]|].
  destruct (text_eqb n (txt "applied_on")); [destruct (a_applied p); [discriminate|apply R; [exact Logic.I|intros x; apply IH]]|].
  destruct (text_eqb n (txt "checksum")); [destruct (a_checksum p); [discriminate|apply R; [exact Logic.I|intros x; apply IH]]|]. discriminate.
Qed.
Lemma mig_row_safe {A} (parse_time : text -> option A) cols : Forall (fun c => typed (snd (fst c)) (snd c) = true) cols -> mig_row parse_time cols <> Panic.
Proof.
  intros F. unfold mig_row. destruct (negb _); [discriminate|]. pose proof (mig_loop_safe cols F {| a_version := None; a_name := None; a_applied := None; a_checksum := None |}) as L.
  destruct (mig_loop cols _) as [p|e|]; cbn [rbind]; [|discriminate|congruence].
  destruct (a_version p); [|discriminate]. destruct (a_name p); [|discriminate]. destruct (a_applied p); [|discriminate]. destruct (a_checksum p); [|discriminate].
  destruct (parse_time _); [|discriminate]. destruct (parse_usize _); discriminate.
Qed.
