(** Properties C23 and C24 for query texts, and C72: here-documents. *)
From Coq Require Import String Lia.
From Verif Require Import Base Types Text Literal LiteralProofs Query QuerySpec QueryProofs Migrate Heredoc Props_TypeText Props_Literal Props_Query.
Local Open Scope list_scope.
Local Open Scope N_scope.

(** A way to cut a query into tokens: nothing is left out, and the tokens are well formed.  What
    follows holds for whichever of the possible ways the tokenizer takes. *)
Definition lexes (query : text) (toks : list token) : Prop :=
  concat (map spelling toks) = query /\ Forall well_lexed toks.

(** A query without a dollar sign is sent as it is, whatever the arguments. *)
Theorem C23_no_dollar_unchanged : forall E args query toks, lexes query toks -> ~ In 36 query ->
  parse_query_arguments E args toks [] = Ok query.
Proof.
  intros E args query toks [<- W] N. change spelling with token_text in *. apply C23_plain_query_unchanged. intros t I. destruct t; auto; exfalso; apply N;
    apply in_concat; eexists; (split; [apply (in_map token_text) in I; exact I|now left]).
Qed.

(** The statements in order, with white space only before, between and after them, are the
    script: nothing else is lost, added or reordered. *)
Inductive interleaved (U : unicode) : list text -> text -> Prop :=
| il_end gap : Forall (fun c => is_space U c = true) gap -> interleaved U [] gap
| il_cons gap s ss script : Forall (fun c => is_space U c = true) gap -> interleaved U ss script -> interleaved U (s :: ss) (gap ++ s ++ script).
Lemma interleaved_gap U gap ss script : Forall (fun c => is_space U c = true) gap -> interleaved U ss script -> interleaved U ss (gap ++ script).
Proof.
  intros G H. inversion H as [g F|g s ss' sc F R]; subst.
  - constructor. now apply Forall_app.
  - rewrite app_assoc. constructor; [now apply Forall_app|exact R].
Qed.
Theorem C24_script_recovered : forall U query toks, lexes query toks -> interleaved U (split_query_statements U toks) query.
Proof.
  intros U query toks [<- _]. change spelling with token_text. destruct (C24_split U toks) as (groups & last & T & _ & _ & ->). change spelling with token_text. rewrite T at 1. clear T.
  assert (P : concat (map token_text (concat (map (fun g => g ++ [TkSemicolon]) groups) ++ last)) =
              concat (map (fun g => concat (map token_text g)) (map (fun g => g ++ [TkSemicolon]) groups ++ [last]))).
  { rewrite map_app, concat_app, map_app, concat_app. cbn [map concat]. rewrite app_nil_r. f_equal.
    induction (map (fun g => g ++ [TkSemicolon]) groups) as [|g gs IH]; [reflexivity|]. cbn [concat map]. now rewrite map_app, concat_app, IH. }
  rewrite P. generalize (map (fun g => g ++ [TkSemicolon]) groups ++ [last]) as gs. clear.
  induction gs as [|g gs IH]; [constructor; constructor|]. cbn [map concat filter].
  destruct (C24_trim U (concat (map token_text g))) as (p & q & E & F1 & F2 & _).
  destruct (trim U (concat (map token_text g))) as [|c r] eqn:TR.
  - rewrite E. cbn [app]. rewrite <- !app_assoc. apply interleaved_gap; [exact F1|]. now apply interleaved_gap.
  - rewrite E, <- !app_assoc. apply (il_cons U p (c :: r)); [exact F1|]. apply interleaved_gap; [exact F2|exact IH].
Qed.

(** A script without a semicolon is one statement. *)
Theorem C24_no_semicolon_one_statement : forall U query toks, lexes query toks -> ~ In 59 query ->
  split_query_statements U toks = match trim U query with [] => [] | s => [s] end.
Proof.
  intros U query toks [<- _] N. change spelling with token_text in *. apply C24_no_separator_no_split. intros I. apply N. apply in_concat. eexists.
  split; [apply (in_map token_text) in I; exact I|now left].
Qed.

Example C23_text_nonvacuous : lexes (txt "SELECT 1;") [TkOther (txt "SELECT"); TkOther (txt " "); TkOther (txt "1"); TkSemicolon] /\ ~ In 36 (txt "SELECT 1;").
Proof. split; [split; [reflexivity|repeat constructor]|]. vm_compute. intuition discriminate. Qed.
Example C24_text_nonvacuous : lexes (txt " X ;; Y ") [TkOther (txt " X "); TkSemicolon; TkSemicolon; TkOther (txt " Y ")] /\
  split_query_statements demo_uni [TkOther (txt " X "); TkSemicolon; TkSemicolon; TkOther (txt " Y ")] = [txt "X ;"; txt ";"; txt "Y"].
Proof. split; [split; [reflexivity|repeat constructor]|vm_compute; reflexivity]. Qed.

Print Assumptions C23_no_dollar_unchanged.
Print Assumptions C24_script_recovered.
Print Assumptions C24_no_semicolon_one_statement.

(* ===================== C72 ===================== *)

Lemma prefix_iff pat s : prefix pat s = true <-> exists r, s = pat ++ r.
Proof.
  revert s. induction pat as [|p pat IH]; intros s; cbn [prefix]; [split; [intros _; exists s; reflexivity|reflexivity]|]. destruct s as [|c s].
  - split; [discriminate|]. intros [r E]. discriminate E.
  - rewrite Bool.andb_true_iff, IH, N.eqb_eq. split.
    + intros [-> [r ->]]. exists r. reflexivity.
    + intros [r E]. injection E as -> ->. eauto.
Qed.
Lemma find_from_spec pat s : forall i, match find_from i pat s with
  | Some k => exists pre post, s = pre ++ pat ++ post /\ k = (i + List.length pre)%nat /\
                forall pre' post', s = pre' ++ pat ++ post' -> (List.length pre <= List.length pre')%nat
  | None => forall pre post, s <> pre ++ pat ++ post
  end.
Proof.
  induction s as [|c s IH]; intros i; cbn [find_from].
  - destruct (prefix pat []) eqn:P.
    + apply prefix_iff in P as [r E]. exists [], r. split; [exact E|]. split; [cbn; lia|]. intros; cbn; lia.
    + intros pre post E. destruct pre; [|discriminate E]. assert (prefix pat [] = true) by (apply prefix_iff; eauto). congruence.
  - destruct (prefix pat (c :: s)) eqn:P.
    + apply prefix_iff in P as [r E]. exists [], r. split; [exact E|]. split; [cbn; lia|]. intros; cbn; lia.
    + assert (NP : forall post, c :: s <> pat ++ post) by (intros post E; assert (prefix pat (c :: s) = true) by (apply prefix_iff; eauto); congruence).
      specialize (IH (S i)). destruct (find_from (S i) pat s) as [k|].
      * destruct IH as (pre & post & -> & -> & M). exists (c :: pre), post. split; [reflexivity|]. split; [cbn; lia|].
        intros [|c' pre'] post' E; [now elim (NP post')|]. injection E as -> E. cbn. apply M in E. lia.
      * intros [|c' pre] post E; [now elim (NP post)|]. injection E as -> E. now elim (IH pre post).
Qed.

(** A here-document is a tag, everything up to the next occurrence of that very tag, and the tag
    again; the rest of the text follows unchanged and no text is cut in an impossible place.  The
    one thing asked of [parse_str] is that it splits its input in two. *)
Theorem C72_heredoc : forall parse_str input, (forall a b, parse_str input = Some (a, b) -> a ++ b = input) ->
  match parse_heredoc parse_str input with
  | Ok (Some (doc, rest)) => exists tag body, parse_str input = Some (tag, body ++ tag ++ rest) /\ doc = tag ++ body ++ tag /\ input = doc ++ rest /\
      (forall pre post, body ++ tag ++ rest = pre ++ tag ++ post -> (List.length body <= List.length pre)%nat)
  | Ok None => parse_str input = None \/ exists tag remaining, parse_str input = Some (tag, remaining) /\ forall pre post, remaining <> pre ++ tag ++ post
  | _ => False
  end.
Proof.
  intros parse_str input SP. unfold parse_heredoc. destruct (parse_str input) as [[tag remaining]|] eqn:PS; [|now left].
  pose proof (SP _ _ eq_refl) as SE. pose proof (find_from_spec tag remaining 0) as F. unfold find. destruct (find_from 0 tag remaining) as [k|].
  - destruct F as (pre & post & -> & -> & M). unfold split_at.
    assert (E : input = (tag ++ pre ++ tag) ++ post) by (rewrite <- SE, <- !app_assoc; reflexivity).
    assert (L : (List.length tag * 2 + (0 + List.length pre))%nat = List.length (tag ++ pre ++ tag)) by (rewrite !app_length; lia).
    rewrite L, E. rewrite (proj2 (Nat.leb_le _ _)) by (rewrite (app_length (tag ++ pre ++ tag)); lia). cbn [rbind].
    rewrite firstn_app, skipn_app, firstn_all, skipn_all, Nat.sub_diag. cbn [firstn skipn app]. rewrite app_nil_r.
    exists tag, pre. split; [reflexivity|]. split; [reflexivity|]. split; [reflexivity|exact M].
  - right. exists tag, remaining. split; [reflexivity|exact F].
Qed.

(** A semicolon or a placeholder in a here-document is part of its text: the document is one
    token, and neither splits the script nor takes an argument. *)
Theorem C72_heredoc_is_opaque : forall U E args doc toks,
  parse_query_arguments E args (TkOther doc :: toks) [] =
    match parse_query_arguments E args toks [] with Ok t => Ok (doc ++ t) | r => r end /\
  (~ In TkSemicolon toks -> (List.length (split_query_statements U (TkOther doc :: toks)) <= 1)%nat).
Proof.
  intros U E args doc toks. split.
  - rewrite !parse_arguments_pieces. cbn [map piece_for piece_text seq_res app].
    destruct (seq_res (map (piece_text E args) (map (piece_for (List.length args)) toks))); reflexivity.
  - intros N. rewrite C24_no_separator_no_split by (cbn; intuition discriminate). destruct (trim U _); cbn; lia.
Qed.

(** A tag ends at the next dollar sign. *)
Fixpoint demo_tag (acc r : text) : option (text * text) :=
  match r with [] => None | c :: r => if c =? 36 then Some (36 :: acc ++ [36], r) else demo_tag (acc ++ [c]) r end.
Definition demo_parse_str (s : text) : option (text * text) :=
  match s with [] => None | c :: r => if c =? 36 then demo_tag [] r else None end.
Lemma demo_tag_splits r : forall acc a b, demo_tag acc r = Some (a, b) -> a ++ b = 36 :: acc ++ r.
Proof.
  induction r as [|c r IH]; intros acc a b H; [discriminate H|]. cbn [demo_tag] in H. destruct (N.eqb_spec c 36) as [->|N].
  - injection H as <- <-. cbn [app]. f_equal. now rewrite <- app_assoc.
  - rewrite (IH _ _ _ H). f_equal. now rewrite <- app_assoc.
Qed.
Example C72_nonvacuous : (forall input a b, demo_parse_str input = Some (a, b) -> a ++ b = input) /\
  parse_heredoc demo_parse_str (txt "$T$a;$1$x$$T$;b") = Ok (Some (txt "$T$a;$1$x$$T$", txt ";b")) /\
  parse_heredoc demo_parse_str (txt "$T$a;b") = Ok None.
Proof.
  split; [|split; vm_compute; reflexivity]. intros input a b H. destruct input as [|c r]; [discriminate H|]. unfold demo_parse_str in H.
  destruct (N.eqb_spec c 36) as [->|N]; [|discriminate H]. exact (demo_tag_splits r [] a b H).
Qed.
Print Assumptions C72_heredoc.
Print Assumptions C72_heredoc_is_opaque.
