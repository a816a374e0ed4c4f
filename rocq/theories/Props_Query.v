(** Properties C23, C24, C26: query arguments, statement splitting, the SELECT builder. *)
From Coq Require Import String Lia.
From Verif Require Import Base Types Text Literal LiteralProofs Query QuerySpec QueryProofs Props_TypeText Props_Literal.
Local Open Scope list_scope.
Local Open Scope N_scope.

(* ===================== C23 ===================== *)

(** A query with n arguments is a template fixed by the query and n alone, whatever the
    arguments are: every token keeps its place, $1..$n are the holes, $$ is a dollar sign, all
    other text is unchanged.  The query sent is the template with the renderings filled in, so
    no text of an argument is ever looked at again. *)
Theorem C23_template : forall toks n, Forall well_lexed toks ->
  exists template, Forall2 (piece_of n) toks template /\
    forall E args rendered, length args = n -> Forall2 (fun v t => display E v = Ok t) args rendered ->
      parse_query_arguments E args toks [] = Ok (fill rendered template).
Proof.
  intros toks n W. exists (map (piece_for n) toks). split.
  - clear - W. induction W; cbn [map]; constructor; auto using piece_for_ok.
  - intros E args rendered <- R. now apply parse_arguments_template.
Qed.

(** Without placeholders and escaped dollars the text of the query comes out unchanged. *)
Theorem C23_plain_query_unchanged : forall E args toks,
  (forall t, In t toks -> match t with TkOther _ | TkSemicolon => True | _ => False end) ->
  parse_query_arguments E args toks [] = Ok (concat (map spelling toks)).
Proof.
  change spelling with token_text.
  intros E args toks H. rewrite parse_arguments_pieces. cbn [app].
  replace (seq_res _) with (Ok (map token_text toks)); [reflexivity|].
  induction toks as [|t toks IH]; [reflexivity|]. cbn [map].
  pose proof (H t (or_introl eq_refl)) as T. destruct t; try easy; cbn [piece_for piece_text token_text seq_res];
    rewrite <- IH by (intros t' I; apply H; now right); reflexivity.
Qed.

(** The builder fails with the first argument that could not be converted and otherwise
    substitutes them all; it panics exactly if a placeholder refers to an unrenderable value. *)
Theorem C23_builder : forall E toks args,
  (forall vs e rest, args = map (fun v => Ok v) vs ++ Err e :: rest -> finalize E toks args = Err e) /\
  (forall vs, args = map (fun v => Ok v) vs -> Forall well_lexed toks ->
     (finalize E toks args = Panic <->
        exists t k v, In t toks /\ piece_of (length vs) t (Hole k) /\ nth_error vs k = Some v /\ unrenderable v) /\
     forall e, finalize E toks args <> Err e).
Proof.
  intros E toks args. split.
  - intros vs e rest ->. unfold finalize. now rewrite collect_args_first_error.
  - intros vs -> W. unfold finalize. rewrite (proj2 (collect_args_ok _ vs) eq_refl). cbn [rbind].
    rewrite parse_arguments_pieces. cbn [app].
    enough (Q : (seq_res (map (piece_text E vs) (map (piece_for (length vs)) toks)) = Panic <->
              exists t k v, In t toks /\ piece_of (length vs) t (Hole k) /\ nth_error vs k = Some v /\ unrenderable v) /\
            forall e, seq_res (map (piece_text E vs) (map (piece_for (length vs)) toks)) <> Err e).
    { destruct Q as [Q1 Q2]. destruct (seq_res _) eqn:S.
      - split; [rewrite <- Q1; split; discriminate|discriminate].
      - now destruct (Q2 e).
      - split; [rewrite <- Q1; easy|discriminate]. }
    assert (ONE : forall t, well_lexed t ->
      (piece_text E vs (piece_for (length vs) t) = Panic <->
         exists k v, piece_of (length vs) t (Hole k) /\ nth_error vs k = Some v /\ unrenderable v) /\
      forall e, piece_text E vs (piece_for (length vs) t) <> Err e).
    { intros t L. pose proof (piece_for_ok (length vs) t L) as P.
      destruct (piece_for (length vs) t) as [s|k]; cbn [piece_text].
      - split; [split; [discriminate|]|discriminate]. intros (k & v & P' & _ & _).
        inversion P' as [ds k0 D NE K B| | | |]; subst. inversion P as [|ds' Q F| | |]; subst.
        destruct (Q k D) as [X|[X|X]]; [easy|lia|lia].
      - assert (K : (k < length vs)%nat) by (inversion P; subst; assumption).
        destruct (nth_error vs k) as [v|] eqn:N; [|apply nth_error_None in N; lia].
        destruct (C57_rendering_panics_iff E v) as [A B]. destruct (display_panics E v) as [_ NE]. split; [|exact NE].
        rewrite A. split.
        + intros U. exists k, v. auto.
        + intros (k' & v' & P' & N' & U). assert (k' = k) as -> by (inversion P; inversion P'; subst; congruence || (assert (N.of_nat (S k) = N.of_nat (S k')) by congruence; lia)).
          congruence. }
    induction W as [|t toks L W IH]; cbn [map].
    + cbn [seq_res]. split; [split; [discriminate|intros (t & _ & _ & [] & _)]|discriminate].
    + destruct (ONE t L) as [O1 O2]. destruct IH as [IH1 IH2].
      destruct (piece_text E vs (piece_for (length vs) t)) as [s|e|] eqn:PT; cbn [seq_res].
      * destruct (seq_res (map (piece_text E vs) (map (piece_for (length vs)) toks))) as [l|e|] eqn:S.
        -- split; [split; [discriminate|]|discriminate]. intros (t' & k & v & [<-|I] & R).
           ++ assert (X : Ok s = Panic) by (apply O1; eauto). discriminate.
           ++ assert (X : Ok l = Panic) by (apply IH1; eauto 8). discriminate.
        -- now destruct (IH2 e).
        -- split; [split; [intros _|reflexivity]|discriminate]. destruct (proj1 IH1 eq_refl) as (t' & k & v & I & R).
           exists t', k, v. split; [now right|exact R].
      * now destruct (O2 e).
      * split; [split; [intros _|reflexivity]|discriminate]. destruct (proj1 O1 eq_refl) as (k & v & R).
        exists t, k, v. split; [now left|exact R].
Qed.

Definition demo_query_toks : list token :=
  [TkOther (txt "SELECT "); TkArgument (txt "1"); TkOther (txt ", "); TkArgument (txt "2"); TkOther (txt ", ");
   TkArgument (txt "9"); TkOther (txt " "); TkEscapedDollar; TkArgument (txt "1")].
Example C23_example : Forall well_lexed demo_query_toks /\
  parse_query_arguments demo_fmt [VString (txt "$2"); VInt I32 7] demo_query_toks [] = Ok (txt "SELECT '$2', 7, $9 $'$2'").
Proof.
  split; [|vm_compute; reflexivity].
  repeat constructor; discriminate.
Qed.

(* ===================== C24 ===================== *)

(** A script is cut after every separator token and nowhere else; nothing is lost or reordered;
    each piece is trimmed and pieces of white space only are dropped. *)
Theorem C24_split : forall U toks, exists groups last,
  toks = concat (map (fun g => g ++ [TkSemicolon]) groups) ++ last /\
  Forall (fun g => ~ In TkSemicolon g) groups /\ ~ In TkSemicolon last /\
  split_query_statements U toks =
    filter (fun s => match s with [] => false | _ => true end)
      (map (fun g => trim U (concat (map spelling g))) (map (fun g => g ++ [TkSemicolon]) groups ++ [last])).
Proof.
  change spelling with token_text.
  intros U toks. exists (fst (groups_of toks [])), (snd (groups_of toks [])).
  destruct (groups_of_spec toks [] ltac:(easy)) as (A & B & C). cbn [app] in A. split; [exact A|]. split; [exact B|]. split; [exact C|].
  unfold split_query_statements. change (split_loop toks [] []) with (split_loop toks [] (tokens_text [])).
  rewrite split_loop_spec, !map_app, !map_map. reflexivity.
Qed.

(** Trimming removes white space at the two ends and nothing else. *)
Theorem C24_trim : forall U s, exists p q, s = p ++ trim U s ++ q /\
  Forall (fun c => is_space U c = true) p /\ Forall (fun c => is_space U c = true) q /\
  (forall c r, trim U s = c :: r -> is_space U c = false) /\ (forall r c, trim U s = r ++ [c] -> is_space U c = false).
Proof. exact trim_spec. Qed.

(** Every statement ends in its separator, except possibly the last, and none is empty. *)
Theorem C24_statements_end_in_semicolon : forall U toks, is_space U 59 = false ->
  exists firsts lasts, split_query_statements U toks = firsts ++ lasts /\ (length lasts <= 1)%nat /\
    Forall (fun s => exists r, s = r ++ [59]) firsts /\
    length firsts = length (filter (fun t => match t with TkSemicolon => true | _ => false end) toks) /\
    Forall (fun s => s <> []) (firsts ++ lasts).
Proof.
  intros U toks SP. destruct (C24_split U toks) as (groups & last & T & G & L & E).
  rewrite E, map_app, filter_app. cbn [map].
  assert (END : forall g, exists r, trim U (concat (map token_text (g ++ [TkSemicolon]))) = r ++ [59]).
  { intros g. rewrite map_app, concat_app. cbn [map concat token_text app].
    destruct (trim_spec U (concat (map token_text g) ++ [59])) as (p & q & S & P & Q & _ & _).
    destruct q as [|c q].
    - rewrite app_nil_r in S. set (m := trim U (concat (map token_text g) ++ [59])) in *. clearbody m. destruct m as [|c r _] using rev_ind.
      + exfalso. rewrite app_nil_r in S. apply (f_equal (@rev N)) in S. rewrite rev_app_distr in S. cbn [rev app] in S.
        destruct (rev p) as [|c p'] eqn:RP; [discriminate|]. injection S as <- _.
        assert (In 59 p) by (apply in_rev; rewrite RP; now left).
        apply (proj1 (Forall_forall _ _) P) in H. congruence.
      + rewrite app_assoc in S. apply app_inj_tail in S as [_ <-]. eauto.
    - exfalso. destruct (@exists_last N (c :: q) ltac:(discriminate)) as (q' & d & D). rewrite D in S, Q.
      rewrite !app_assoc in S. apply app_inj_tail in S as [_ <-]. apply Forall_app in Q as [_ Q]. apply Forall_inv in Q. congruence. }
  assert (F : filter (fun s : text => match s with [] => false | _ => true end)
     (map (fun g => trim U (concat (map token_text g))) (map (fun g => g ++ [TkSemicolon]) groups)) =
     map (fun g => trim U (concat (map token_text (g ++ [TkSemicolon])))) groups).
  { rewrite map_map. clear - END. induction groups as [|g groups IH]; [reflexivity|]. cbn [map filter].
    destruct (END g) as [r ->]. rewrite IH. destruct r; reflexivity. }
  exists (map (fun g => trim U (concat (map token_text (g ++ [TkSemicolon])))) groups),
    (filter (fun s : text => match s with [] => false | _ => true end) [trim U (concat (map token_text last))]).
  split; [exact (f_equal2 (@app text) F eq_refl)|]. split.
  { cbn [filter]. destruct (trim U (concat (map token_text last))); cbn [length]; lia. }
  split; [|split].
  - apply Forall_map. apply Forall_forall. intros g _. apply END.
  - rewrite map_length, T, filter_app, app_length.
    assert (NS : forall g, ~ In TkSemicolon g -> filter (fun t => match t with TkSemicolon => true | _ => false end) g = []).
    { clear. induction g as [|t g IH]; intros H; [reflexivity|]. cbn [filter]. destruct t; try (apply IH; intros I; apply H; now right).
      destruct H. now left. }
    rewrite (NS last L). cbn [length]. rewrite Nat.add_0_r. clear - G NS. induction groups as [|g groups IH]; [reflexivity|].
    cbn [map concat length]. rewrite <- app_assoc, !filter_app, (NS g (Forall_inv G)). cbn [filter app length]. f_equal. apply IH, (Forall_inv_tail G).
  - apply Forall_app. split.
    + apply Forall_map, Forall_forall. intros g _. destruct (END g) as [r ->]. now destruct r.
    + apply Forall_forall. intros s I. apply filter_In in I as [_ I]. now intros ->.
Qed.

(** A script without separators (in particular with all of them inside literals and comments)
    is one statement. *)
Theorem C24_no_separator_no_split : forall U toks, ~ In TkSemicolon toks ->
  split_query_statements U toks = match trim U (concat (map spelling toks)) with [] => [] | s => [s] end.
Proof.
  change spelling with token_text.
  intros U toks H. destruct (C24_split U toks) as (groups & last & T & G & L & E).
  destruct groups as [|g groups].
  - cbn [map concat app] in *. subst. rewrite E. cbn [filter]. now destruct (trim U _).
  - exfalso. apply H. rewrite T. cbn [map concat]. apply in_or_app. left. apply in_or_app. left. apply in_or_app. right. now left.
Qed.

Example C24_example : is_space demo_uni 59 = false /\
  split_query_statements demo_uni [TkOther (txt " X"); TkSemicolon; TkOther (txt " "); TkOther (txt "';'"); TkOther (txt " ")]
  = [txt "X;"; txt "';'"] /\
  split_query_statements demo_uni [TkOther (txt "X"); TkSemicolon; TkSemicolon; TkOther (txt "--done")] = [txt "X;"; txt ";"; txt "--done"].
Proof. repeat split; vm_compute; reflexivity. Qed.

(* ===================== C26 ===================== *)

(** The statement built is the list of requested clauses in SQL order, each with its
    sub-expressions in the order they were added (see [select_clauses]); the first failing
    sub-expression in that order is the error. *)
Theorem C26_select : forall from calls,
  select_query from calls =
  match first_error (clause_items (select_clauses from calls)) with
  | Some e => Err e
  | None => Ok (clause_text (select_clauses from calls))
  end.
Proof. intros from calls. rewrite select_query_render. unfold render. now destruct (first_error _). Qed.

(** The sub-expressions are the FROM source and those of the calls, each once: nothing added to
    a list clause is dropped, and of the clauses that can be set once the last call counts. *)
Theorem C26_every_item_once : forall from calls,
  clause_items (select_clauses from calls) =
    the_withs calls ++ (match distinction_of (rev calls) with DistinctOn l => l | _ => [] end) ++ the_exprs calls ++ [from] ++
    (match the_sample calls with Some q => [q] | None => [] end) ++ the_array_joins calls ++ the_joins calls ++
    the_prewhere calls ++ the_where calls ++ the_group_by calls ++ the_having calls ++
    (match the_order_by calls with Some q => [q] | None => [] end) ++ (match the_limit calls with Some q => [q] | None => [] end) ++
    (match the_offset calls with Some q => [q] | None => [] end) ++ (match the_settings calls with Some q => [q] | None => [] end) ++
    (match the_union calls with Some q => [q] | None => [] end).
Proof.
  intros from calls.
  assert (APP : forall a b, clause_items (a ++ b) = clause_items a ++ clause_items b) by (intros; apply flat_map_app).
  assert (LST : forall l o s c, clause_items (sel_list l o s c) = l).
  { intros [|q l] o s c; [reflexivity|]. unfold clause_items, sel_list. cbn [flat_map fst]. now rewrite app_nil_r. }
  assert (OPT : forall q o, clause_items (sel_opt q o) = match q with Some q => [q] | None => [] end) by (now intros [q|] o).
  assert (DIS : clause_items (distinct_clauses (distinction_of (rev calls))) = match distinction_of (rev calls) with DistinctOn l => l | _ => [] end).
  { destruct (distinction_of (rev calls)); [reflexivity|reflexivity|apply LST]. }
  unfold select_clauses. rewrite !APP, !LST, !OPT, DIS. reflexivity.
Qed.

(** DISTINCT and DISTINCT ON exclude each other; the last call decides. *)
Theorem C26_distinct_last_call_wins : forall calls q b,
  distinction_of (rev (calls ++ [CDistinct b])) = (if b then Distinct else Plain) /\
  exists l, distinction_of (rev (calls ++ [CDistinctOn q])) = DistinctOn (l ++ [q]).
Proof.
  intros calls q b. rewrite !rev_app_distr. split; [reflexivity|]. exists (cols_since (rev calls)). reflexivity.
Qed.
(** Calls of other methods do not change that decision. *)
Theorem C26_distinct_kept : forall calls c, (forall b, c <> CDistinct b) -> (forall q, c <> CDistinctOn q) ->
  distinction_of (rev (calls ++ [c])) = distinction_of (rev calls).
Proof. intros calls c A B. rewrite rev_app_distr. destruct c; try reflexivity; [now destruct (A b)|now destruct (B q)]. Qed.

Example C26_example :
  select_query (inl (txt "table_name"))
    [CSelect (inl (txt "col1")); CSelect (inl (txt "col2 as COL2")); CDistinctOn (inr EOther); CArrayJoin (inl (txt "ARRAY JOIN col3"));
     CDistinct true; CWhere (inl (txt "col4 LIKE 'test'")); CGroupBy (inl (txt "col1")); COffset (inl (txt "5"));
     CWhere (inl (txt "col5 = 'test'"))]
  = Ok (txt "SELECT
DISTINCT
col1,
col2 as COL2
FROM table_name
ARRAY JOIN col3
WHERE (col4 LIKE 'test') AND
(col5 = 'test')
GROUP BY col1
OFFSET 5
") /\ select_query (inl (txt "t")) [CLimit (inr EOther); CWhere (inr EProtocol)] = Err EProtocol.
Proof. split; vm_compute; reflexivity. Qed.

Print Assumptions C23_template.
Print Assumptions C23_plain_query_unchanged.
Print Assumptions C23_builder.
Print Assumptions C24_split.
Print Assumptions C24_trim.
Print Assumptions C24_statements_end_in_semicolon.
Print Assumptions C24_no_separator_no_split.
Print Assumptions C26_select.
Print Assumptions C26_every_item_once.
Print Assumptions C26_distinct_last_call_wins.
Print Assumptions C26_distinct_kept.
