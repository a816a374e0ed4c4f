(** Proofs about query text. *)
From Coq Require Import String Lia.
From Verif Require Import Base Types Text Literal LiteralProofs Query QuerySpec.
Local Open Scope list_scope.
Local Open Scope N_scope.

(* ---------------- arguments ---------------- *)

(** The template of a token. *)
Definition piece_for (n : nat) (t : token) : piece :=
  match t with
  | TkArgument ds =>
      match parse_usize ds with
      | Some k => if (k <=? N.of_nat n) && (0 <? k) then Hole (N.to_nat (k - 1)) else Lit (36 :: ds)
      | None => Lit (36 :: ds)
      end
  | TkEscapedDollar => Lit [36]
  | t => Lit (token_text t)
  end.

Definition well_lexed (t : token) : Prop :=
  match t with TkArgument ds => ds <> [] /\ Forall (fun c => is_digit c = true) ds | _ => True end.

Lemma digits_no_plus ds : Forall (fun c => is_digit c = true) ds -> starts_with 43 ds = false.
Proof.
  intros H. destruct ds as [|c r]; [reflexivity|]. apply Forall_inv in H. cbn [starts_with].
  destruct (N.eqb_spec c 43) as [->|]; [discriminate|reflexivity].
Qed.

Lemma piece_for_ok n t : well_lexed t -> piece_of n t (piece_for n t).
Proof.
  destruct t as [ds| | |s]; cbn [well_lexed piece_for token_text]; intros W; try constructor.
  destruct W as [NE D]. unfold parse_usize. rewrite digits_no_plus by exact D.
  unfold parse_digits. destruct ds as [|c r]; [easy|]. set (ds := c :: r) in *.
  destruct (digits_val 0 ds) as [k|] eqn:V.
  2: { apply po_unknown; [intros k' Q; congruence|exact D]. }
  destruct (N.ltb_spec k (2 ^ 64)) as [L|L].
  - destruct ((k <=? N.of_nat n) && (0 <? k)) eqn:C.
    + apply po_hole; try assumption.
      * rewrite V. f_equal. lia.
      * lia.
      * lia.
    + apply po_unknown; [|exact D]. intros k' Q. rewrite V in Q. injection Q as ->. right; left. lia.
  - apply po_unknown; [|exact D]. intros k' Q. rewrite V in Q. injection Q as ->. right; right. exact L.
Qed.

(** What the substitution does, token by token. *)
Definition piece_text (E : ext_fmt) (args : list value) (p : piece) : res text :=
  match p with
  | Lit s => Ok s
  | Hole i => match nth_error args i with Some v => display E v | None => Panic end
  end.

Lemma parse_arguments_pieces E args toks : forall out,
  parse_query_arguments E args toks out =
  match seq_res (map (piece_text E args) (map (piece_for (length args)) toks)) with
  | Ok l => Ok (out ++ concat l) | Err e => Err e | Panic => Panic end.
Proof.
  induction toks as [|t toks IH]; intros out.
  - cbn [parse_query_arguments map seq_res concat]. now rewrite app_nil_r.
  - destruct t as [ds| | |s]; cbn [parse_query_arguments piece_for map].
    + destruct (parse_usize ds) as [k|].
      * unfold lenN. destruct ((k <=? N.of_nat (length args)) && (0 <? k)).
        -- cbn [piece_text]. destruct (nth_error args _) as [v|]; [|reflexivity].
           destruct (display E v); cbn [rbind seq_res]; try reflexivity. rewrite IH.
           destruct (seq_res _); try reflexivity. cbn [concat]. now rewrite app_assoc.
        -- cbn [piece_text seq_res token_text]. rewrite IH. destruct (seq_res _); try reflexivity. cbn [concat]. now rewrite app_assoc.
      * cbn [piece_text seq_res token_text]. rewrite IH. destruct (seq_res _); try reflexivity. cbn [concat]. now rewrite app_assoc.
    + cbn [piece_text seq_res token_text]. rewrite IH. destruct (seq_res _); try reflexivity. cbn [concat]. now rewrite app_assoc.
    + cbn [piece_text seq_res token_text]. rewrite IH. destruct (seq_res _); try reflexivity. cbn [concat]. now rewrite app_assoc.
    + cbn [piece_text seq_res token_text]. rewrite IH. destruct (seq_res _); try reflexivity. cbn [concat]. now rewrite app_assoc.
Qed.

Lemma parse_arguments_template E args rendered toks :
  Forall2 (fun v t => display E v = Ok t) args rendered -> Forall well_lexed toks ->
  parse_query_arguments E args toks [] = Ok (fill rendered (map (piece_for (length args)) toks)).
Proof.
  intros R W. rewrite parse_arguments_pieces. cbn [app].
  enough (Q : forall ps, Forall (fun p => match p with Hole i => (i < length args)%nat | _ => True end) ps ->
    seq_res (map (piece_text E args) ps) = Ok (map (fun x => match x with Lit s => s | Hole i => nth i rendered [] end) ps)).
  { rewrite Q; [reflexivity|]. apply Forall_map. eapply Forall_impl; [|exact W]. intros t H.
    apply (piece_for_ok (length args)) in H. destruct H; auto. }
  induction ps as [|p ps IH]; intros H; [reflexivity|]. cbn [map].
  assert (P : piece_text E args p = Ok (match p with Lit s => s | Hole i => nth i rendered [] end)).
  { destruct p as [s|i]; [reflexivity|]. apply Forall_inv in H. cbn [piece_text].
    clear - R H. revert i H. induction R as [|v t args rendered D _ IH]; intros i H; cbn [length] in H; [lia|].
    destruct i as [|i]; [exact D|]. cbn [nth_error nth]. apply IH. lia. }
  rewrite P. cbn [seq_res]. rewrite IH by exact (Forall_inv_tail H). reflexivity.
Qed.

Lemma collect_args_ok l vs : collect_args l = Ok vs <-> l = map (fun v => Ok v) vs.
Proof.
  revert vs; induction l as [|r l IH]; intros vs; cbn [collect_args].
  - split; [intros H; now injection H as <-|]. destruct vs; [reflexivity|discriminate].
  - destruct r as [v|e|]; cbn [rbind].
    + destruct (collect_args l) as [t|e|] eqn:C; cbn [rbind].
      * split; [intros H; injection H as <-; cbn [map]; f_equal; now apply IH|].
        destruct vs as [|v' vs]; [discriminate|]. intros H. injection H as -> H. apply IH in H. injection H as ->. reflexivity.
      * split; [discriminate|]. destruct vs as [|v' vs]; [discriminate|]. intros H. injection H as -> H. apply IH in H. discriminate.
      * split; [discriminate|]. destruct vs as [|v' vs]; [discriminate|]. intros H. injection H as -> H. apply IH in H. discriminate.
    + split; [discriminate|]. destruct vs; discriminate.
    + split; [discriminate|]. destruct vs; discriminate.
Qed.
Lemma collect_args_first_error vs e rest : collect_args (map (fun v => Ok v) vs ++ Err e :: rest) = Err e.
Proof. induction vs as [|v vs IH]; [reflexivity|]. cbn [map app collect_args rbind]. now rewrite IH. Qed.

(* ---------------- statements ---------------- *)

Lemma split_loop_out toks : forall out cur, split_loop toks out cur = out ++ split_loop toks [] cur.
Proof.
  induction toks as [|t toks IH]; intros out cur; cbn [split_loop]; [reflexivity|].
  destruct t; try apply IH. rewrite IH, (IH ([] ++ _)). now rewrite app_assoc.
Qed.


Fixpoint groups_of (toks cur : list token) : list (list token) * list token :=
  match toks with
  | [] => ([], cur)
  | TkSemicolon :: r => let p := groups_of r [] in (cur :: fst p, snd p)
  | t :: r => groups_of r (cur ++ [t])
  end.
Definition tokens_text (l : list token) : text := concat (map token_text l).
Lemma tokens_text_app a b : tokens_text (a ++ b) = tokens_text a ++ tokens_text b.
Proof. unfold tokens_text. now rewrite map_app, concat_app. Qed.

Lemma split_loop_spec toks : forall cur,
  split_loop toks [] (tokens_text cur) =
    map (fun g => tokens_text (g ++ [TkSemicolon])) (fst (groups_of toks cur)) ++ [tokens_text (snd (groups_of toks cur))].
Proof.
  induction toks as [|t toks IH]; intros cur; cbn [split_loop groups_of]; [reflexivity|].
  destruct t as [ds| | |s].
  - rewrite <- (IH (cur ++ [TkArgument ds])). f_equal. rewrite tokens_text_app. unfold tokens_text at 3. cbn [map concat]. now rewrite app_nil_r.
  - rewrite <- (IH (cur ++ [TkEscapedDollar])). f_equal. now rewrite tokens_text_app.
  - rewrite split_loop_out. cbn [app fst snd map]. rewrite <- (IH []). f_equal. now rewrite tokens_text_app.
  - rewrite <- (IH (cur ++ [TkOther s])). f_equal. rewrite tokens_text_app. unfold tokens_text at 3. cbn [map concat]. now rewrite app_nil_r.
Qed.
Lemma groups_of_spec toks : forall cur, ~ In TkSemicolon cur ->
  cur ++ toks = concat (map (fun g => g ++ [TkSemicolon]) (fst (groups_of toks cur))) ++ snd (groups_of toks cur) /\
  Forall (fun g => ~ In TkSemicolon g) (fst (groups_of toks cur)) /\ ~ In TkSemicolon (snd (groups_of toks cur)).
Proof.
  assert (STEP : forall cur t, ~ In TkSemicolon cur -> t <> TkSemicolon -> ~ In TkSemicolon (cur ++ [t])).
  { intros cur t C T I. apply in_app_or in I as [I|[I|[]]]; congruence. }
  induction toks as [|t toks IH]; intros cur C; cbn [groups_of fst snd map concat].
  - rewrite app_nil_r. cbn [app]. repeat split; auto.
  - destruct t as [ds| | |s].
    + destruct (IH (cur ++ [TkArgument ds])) as (A & B); [apply STEP; [exact C|discriminate]|]. rewrite <- app_assoc in A. now split.
    + destruct (IH (cur ++ [TkEscapedDollar])) as (A & B); [apply STEP; [exact C|discriminate]|]. rewrite <- app_assoc in A. now split.
    + destruct (IH []) as (A & B & D); [easy|]. cbn [fst snd map concat]. split; [|split; [constructor; assumption|exact D]].
      rewrite <- !app_assoc. cbn [app] in *. now rewrite A at 1.
    + destruct (IH (cur ++ [TkOther s])) as (A & B); [apply STEP; [exact C|discriminate]|]. rewrite <- app_assoc in A. now split.
Qed.

Lemma trim_start_suffix U s : exists p, s = p ++ trim_start U s /\ Forall (fun c => is_space U c = true) p.
Proof.
  induction s as [|c s (p & E & F)]; [now exists []|]. cbn [trim_start]. destruct (is_space U c) eqn:S.
  - exists (c :: p). split; [now rewrite E at 1|now constructor].
  - exists []. split; [reflexivity|constructor].
Qed.
Lemma trim_start_head U s c r : trim_start U s = c :: r -> is_space U c = false.
Proof.
  induction s as [|d s IH]; [discriminate|]. cbn [trim_start]. destruct (is_space U d) eqn:S; [exact IH|].
  intros H. injection H as <- <-. exact S.
Qed.
(** [trim] removes white space at both ends and nothing else. *)
Lemma trim_spec U s : exists p q, s = p ++ trim U s ++ q /\
  Forall (fun c => is_space U c = true) p /\ Forall (fun c => is_space U c = true) q /\
  (forall c r, trim U s = c :: r -> is_space U c = false) /\ (forall r c, trim U s = r ++ [c] -> is_space U c = false).
Proof.
  unfold trim, trim_end. destruct (trim_start_suffix U s) as (p & E & F).
  destruct (trim_start_suffix U (rev (trim_start U s))) as (q & E' & F').
  set (m := trim_start U s) in *. set (k := trim_start U (rev m)) in *.
  assert (M : m = rev k ++ rev q) by (rewrite <- rev_app_distr, <- E'; now rewrite rev_involutive).
  exists p, (rev q). split; [now rewrite E at 1; rewrite M at 1|]. split; [exact F|]. split; [apply Forall_rev, F'|].
  split.
  - intros c r H. rewrite H in M. cbn [app] in M. apply (trim_start_head U s c (r ++ rev q)). exact M.
  - intros r c H. assert (K : k = c :: rev r).
    { rewrite <- (rev_involutive k), H, rev_app_distr. reflexivity. }
    apply (trim_start_head U (rev m) c (rev r)). exact K.
Qed.

(* ---------------- SELECT ---------------- *)

Lemma drain_spec between after l : forall out,
  drain between after l out =
  match first_error l with Some e => Err e | None => Ok (out ++ match l with [] => [] | _ => join between (map item_text l) ++ after end) end.
Proof.
  induction l as [|[s|e] l IH]; intros out; cbn [drain first_error get rbind]; [now rewrite app_nil_r| |reflexivity].
  rewrite IH. destruct (first_error l); [reflexivity|]. f_equal. rewrite <- app_assoc. f_equal.
  destruct l as [|q l]; cbn [map join item_text].
  - now rewrite app_nil_r.
  - now rewrite <- !app_assoc.
Qed.

(** Rendering a list of clauses one after the other. *)
Definition render (cs : list clause) (out : text) : res text :=
  match first_error (clause_items cs) with Some e => Err e | None => Ok (out ++ clause_text cs) end.
Lemma first_error_app a b : first_error (a ++ b) = match first_error a with Some e => Some e | None => first_error b end.
Proof. induction a as [|[s|e] a IH]; cbn [app first_error]; auto. Qed.
Lemma render_app a b out : render (a ++ b) out = (o <- render a out ;; render b o).
Proof.
  unfold render. replace (clause_items (a ++ b)) with (clause_items a ++ clause_items b) by (symmetry; apply flat_map_app).
  replace (clause_text (a ++ b)) with (clause_text a ++ clause_text b) by (unfold clause_text; now rewrite map_app, concat_app).
  rewrite first_error_app. destruct (first_error (clause_items a)); [reflexivity|]. cbn [rbind].
  destruct (first_error (clause_items b)); [reflexivity|]. now rewrite app_assoc.
Qed.

Lemma render_list l open sep close out :
  render (sel_list l open sep close) out =
  if nonempty l then drain sep close l (out ++ open) else Ok out.
Proof.
  destruct l as [|q l]; unfold render, sel_list; cbn [nonempty].
  - cbn [clause_items clause_text flat_map map concat first_error]. now rewrite app_nil_r.
  - rewrite drain_spec. unfold clause_items, clause_text. cbn [flat_map fst snd map concat]. rewrite app_nil_r.
    destruct (first_error (q :: l)); [reflexivity|]. f_equal. cbn [map]. now rewrite <- !app_assoc, app_nil_r.
Qed.
Lemma drain_after between after l out :
  (o <- drain between [] l out ;; Ok (o ++ after)) = match l with [] => Ok (out ++ after) | _ => drain between after l out end.
Proof.
  rewrite drain_spec. destruct l as [|q l]; [cbn [first_error rbind]; now rewrite app_nil_r|]. rewrite drain_spec.
  destruct (first_error (q :: l)); [reflexivity|]. cbn [rbind]. now rewrite app_nil_r, <- app_assoc.
Qed.
Lemma render_opt q open out : render (sel_opt q open) out = push_opt open q out.
Proof.
  destruct q as [[s|e]|]; unfold render, push_opt; cbn; rewrite ?app_nil_r; reflexivity.
Qed.
Lemma drain_nonempty between after l out : (if nonempty l then drain between after l out else Ok out) = drain between after l out.
Proof. now destruct l. Qed.

Lemma render_list0 l sep close out : render (sel_list l [] sep close) out = drain sep close l out.
Proof. rewrite render_list, app_nil_r. apply drain_nonempty. Qed.

Lemma distinction_plain r : distinction_of r = Plain -> cols_since r = [].
Proof. induction r as [|c r IH]; [reflexivity|]. destruct c; cbn [distinction_of cols_since]; auto; discriminate. Qed.
Lemma distinction_on r l : distinction_of r = DistinctOn l -> l = cols_since r /\ l <> [].
Proof.
  induction r as [|c r IH]; [discriminate|]. destruct c; cbn [distinction_of]; auto.
  - destruct b; discriminate.
  - cbn [cols_since]. intros H. injection H as <-. split; [reflexivity|]. now destruct (cols_since r).
Qed.

Lemma builder_state from calls :
  fold_left sb_call calls (sb_new from) =
  {| sb_withs := the_withs calls;
     sb_distinct := match distinction_of (rev calls) with Distinct => true | _ => false end;
     sb_distinct_on := cols_since (rev calls);
     sb_exprs := the_exprs calls; sb_from := from; sb_sample := the_sample calls;
     sb_array_joins := the_array_joins calls; sb_joins := the_joins calls; sb_prewhere := the_prewhere calls;
     sb_where := the_where calls; sb_group_by := the_group_by calls; sb_having := the_having calls;
     sb_order_by := the_order_by calls; sb_limit := the_limit calls; sb_offset := the_offset calls;
     sb_settings := the_settings calls; sb_union := the_union calls |}.
Proof.
  induction calls as [|c calls IH] using rev_ind; [reflexivity|].
  rewrite fold_left_app, IH. cbn [fold_left]. rewrite rev_app_distr. cbn [rev app].
  unfold the_withs, the_exprs, the_array_joins, the_joins, the_prewhere, the_where, the_group_by, the_having, all_of,
    the_sample, the_order_by, the_limit, the_offset, the_settings, the_union, last_of.
  rewrite !flat_map_app, !fold_left_app. cbn [flat_map fold_left].
  destruct c; cbn [sb_call distinction_of cols_since]; rewrite ?app_nil_r; try reflexivity.
  now destruct b.
Qed.

Lemma select_query_render from calls : select_query from calls = render (select_clauses from calls) [].
Proof.
  unfold select_query. rewrite builder_state. unfold sb_build, select_clauses.
  cbn [sb_withs sb_distinct sb_distinct_on sb_exprs sb_from sb_sample sb_array_joins sb_joins sb_prewhere sb_where
       sb_group_by sb_having sb_order_by sb_limit sb_offset sb_settings sb_union].
  rewrite render_app, render_list. change (txt ",") with [44].
  assert (W : (if nonempty (the_withs calls) then o <- drain [44] [] (the_withs calls) (txt "WITH ") ;; Ok (o ++ Query.NL) else Ok [])
     = (if nonempty (the_withs calls) then drain [44] NL (the_withs calls) ([] ++ txt "WITH ") else Ok [])).
  { change Query.NL with NL. rewrite drain_after. now destruct (the_withs calls). }
  rewrite W. clear W. destruct (if nonempty (the_withs calls) then _ else _) as [o1|e|]; [|reflexivity|reflexivity]. cbn [rbind].
  rewrite render_app. change (render [([], fun _ => txt "SELECT" ++ NL)] o1) with (Ok (o1 ++ (txt "SELECT" ++ NL) ++ [])).
  cbn [rbind]. rewrite app_nil_r. set (o2 := o1 ++ txt "SELECT" ++ NL). change (txt "SELECT" ++ Query.NL) with (txt "SELECT" ++ NL). fold o2.
  rewrite render_app.
  assert (D : render (distinct_clauses (distinction_of (rev calls))) o2 =
      (if match distinction_of (rev calls) with Distinct => true | _ => false end then Ok (o2 ++ txt "DISTINCT" ++ Query.NL)
       else if nonempty (cols_since (rev calls)) then
            o <- drain [44] [] (cols_since (rev calls)) (o2 ++ txt "DISTINCT ON (") ;; Ok (o ++ txt ")" ++ Query.NL)
       else Ok o2)).
  { destruct (distinction_of (rev calls)) as [| |l] eqn:Q.
    - rewrite (distinction_plain _ Q). cbn [nonempty]. unfold render. cbn. now rewrite app_nil_r.
    - unfold render, distinct_clauses. cbn [clause_items clause_text flat_map fst snd map concat app first_error]. now rewrite app_nil_r.
    - apply distinction_on in Q as [-> NE]. unfold distinct_clauses. rewrite render_list. change (txt ",") with [44]. change (txt ")" ++ Query.NL) with (txt ")" ++ NL). rewrite drain_after.
      now destruct (cols_since (rev calls)). }
  rewrite D. clear D. destruct (if match distinction_of (rev calls) with Distinct => true | _ => false end then _ else _) as [o3|e|]; [|reflexivity|reflexivity].
  cbn [rbind]. rewrite render_app, render_list0. change ([44] ++ NL) with ([44] ++ Query.NL).
  change NL with Query.NL.
  destruct (drain ([44] ++ Query.NL) Query.NL (the_exprs calls) o3) as [o4|e|]; [|reflexivity|reflexivity]. cbn [rbind].
  rewrite render_app. replace (render [([from], fun ts => txt "FROM " ++ concat ts ++ Query.NL)] o4)
    with (f <- get from ;; Ok (o4 ++ txt "FROM " ++ f ++ Query.NL)).
  2: { destruct from as [s|e]; unfold render; [|reflexivity]. cbn [get rbind clause_items clause_text flat_map fst snd map concat app first_error item_text].
       now rewrite !app_nil_r. }
  destruct (get from) as [f|e|]; [|reflexivity|reflexivity]. cbn [rbind]. set (o5 := o4 ++ txt "FROM " ++ f ++ Query.NL).
  rewrite render_app, render_opt. destruct (push_opt _ (the_sample calls) o5) as [o6|e|]; [|reflexivity|reflexivity]. cbn [rbind].
  rewrite render_app, render_list0. destruct (drain _ _ (the_array_joins calls) o6) as [o7|e|]; [|reflexivity|reflexivity]. cbn [rbind].
  rewrite render_app, render_list0. destruct (drain _ _ (the_joins calls) o7) as [o8|e|]; [|reflexivity|reflexivity]. cbn [rbind].
  rewrite render_app, render_list. destruct (if nonempty (the_prewhere calls) then _ else _) as [o9|e|]; [|reflexivity|reflexivity]. cbn [rbind].
  rewrite render_app, render_list. destruct (if nonempty (the_where calls) then _ else _) as [o10|e|]; [|reflexivity|reflexivity]. cbn [rbind].
  rewrite render_app, render_list. destruct (if nonempty (the_group_by calls) then _ else _) as [o11|e|]; [|reflexivity|reflexivity]. cbn [rbind].
  rewrite render_app, render_list. destruct (if nonempty (the_having calls) then _ else _) as [o12|e|]; [|reflexivity|reflexivity]. cbn [rbind].
  rewrite render_app, render_opt. destruct (push_opt _ (the_order_by calls) o12) as [o13|e|]; [|reflexivity|reflexivity]. cbn [rbind].
  rewrite render_app, render_opt. destruct (push_opt _ (the_limit calls) o13) as [o14|e|]; [|reflexivity|reflexivity]. cbn [rbind].
  rewrite render_app, render_opt. destruct (push_opt _ (the_offset calls) o14) as [o15|e|]; [|reflexivity|reflexivity]. cbn [rbind].
  rewrite render_app, render_opt. destruct (push_opt _ (the_settings calls) o15) as [o16|e|]; [|reflexivity|reflexivity]. cbn [rbind].
  now rewrite render_opt.
Qed.
