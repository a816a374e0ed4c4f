(** Proofs about the lexical structure of queries. *)
From Coq Require Import String Lia.
From Verif Require Import Base Types Text LiteralSpec Calendar CalendarSpec CalendarProofs Literal LiteralProofs ColumnSpec QuerySpec SqlLex.
Local Open Scope list_scope.
Local Open Scope N_scope.

(* ---------------- running ---------------- *)

Lemma run_app m a b : run m (a ++ b) = (fst (run m a) ++ fst (run (snd (run m a)) b), snd (run (snd (run m a)) b)).
Proof.
  revert m. induction a as [|c a IH]; intros m; cbn [app run].
  - cbn [fst snd app]. now destruct (run m b).
  - destruct (step m c) as [x m1]. rewrite IH. destruct (run m1 a) as [y m2]. cbn [fst snd]. destruct (run m2 b). cbn [fst snd]. now rewrite app_assoc.
Qed.

(** The tokens read from mode [m]. *)
Definition toks (m : mode) (t : text) : list sqltok := fst (run m t) ++ flush (snd (run m t)).
Lemma server_toks t : server_tokens t = toks Code t.
Proof. unfold server_tokens, toks. now destruct (run Code t). Qed.

Lemma toks_app m a b : toks m (a ++ b) = fst (run m a) ++ toks (snd (run m a)) b.
Proof. unfold toks. rewrite run_app. cbn [fst snd]. now rewrite app_assoc. Qed.

(** After an expression, a separating character is read as from the start. *)
Lemma leave m c : ended m = true -> separates c = true -> step m c = after (flush m) (code_step c).
Proof.
  unfold separates. intros E S. apply andb_true_iff in S as [W Q]. apply negb_true_iff in W, Q.
  destruct m; try discriminate E; cbn [step flush].
  - unfold after. cbn [app]. now destruct (code_step c).
  - now rewrite W.
  - cbn [ended] in E. apply N.eqb_eq in E. subst q. now rewrite Q.
Qed.

Lemma run_leave m c t : ended m = true -> separates c = true -> run m (c :: t) = after (flush m) (run Code (c :: t)).
Proof.
  intros E S. cbn [run]. rewrite leave by assumption. change (step Code c) with (code_step c).
  unfold after. destruct (code_step c) as [a m1]. cbn [fst snd]. destruct (run m1 t). cbn [fst snd]. now rewrite app_assoc.
Qed.

Section Fill.
Variable rendered : list text.
Definition inst (x : sqltok + nat) : list sqltok := match x with inl t => [t] | inr i => server_tokens (nth i rendered []) end.
Hypothesis R : Forall (fun t => t <> [] /\ ended (snd (run Code t)) = true) rendered.

Lemma inst_inl l : flat_map inst (map inl l) = l.
Proof. induction l; cbn; congruence. Qed.

Definition in_range (p : piece) : Prop := match p with Hole i => (i < List.length rendered)%nat | Lit _ => True end.

Lemma fill_cons p r : fill rendered (p :: r) = match p with Lit s => s | Hole i => nth i rendered [] end ++ fill rendered r.
Proof. reflexivity. Qed.

Lemma shape_fill tpl : Forall in_range tpl ->
  (forall m sh, shape_from m false tpl = Some sh -> toks m (fill rendered tpl) = flat_map inst sh) /\
  (forall m sh, ended m = true -> shape_from Code true tpl = Some sh -> toks m (fill rendered tpl) = flush m ++ flat_map inst sh).
Proof.
  induction tpl as [|p tpl IH]; intros F.
  { split.
    - intros m sh H. injection H as <-. rewrite inst_inl. reflexivity.
    - intros m sh E H. injection H as <-. cbn [map flush flat_map]. rewrite app_nil_r. reflexivity. }
  inversion F as [|? ? F1 F2]; subst. destruct (IH F2) as [A B]. clear IH.
  destruct p as [s|i].
  - destruct s as [|c s].
    + split; intros m sh; rewrite fill_cons; cbn [app shape_from]; auto.
    + split; intros m sh.
      * cbn [shape_from andb]. intros H. rewrite fill_cons, toks_app. destruct (run m (c :: s)) as [a m'] eqn:Q. cbn [fst snd].
        destruct (shape_from m' false tpl) as [sh'|] eqn:S; [|discriminate H]. cbn [option_map] in H. injection H as <-.
        rewrite flat_map_app, inst_inl. f_equal. auto.
      * intros E H. cbn [shape_from andb] in H. destruct (separates c) eqn:SC; [|discriminate H]. cbn [negb] in H.
        rewrite fill_cons, toks_app. rewrite run_leave by assumption. unfold after. destruct (run Code (c :: s)) as [a m'] eqn:Q. cbn [fst snd].
        destruct (shape_from m' false tpl) as [sh'|] eqn:S; [|discriminate H]. cbn [option_map] in H. injection H as <-.
        rewrite flat_map_app, inst_inl, <- app_assoc. do 2 f_equal. auto.
  - cbn [in_range] in F1. assert (RI := proj1 (Forall_forall _ _) R (nth i rendered []) (nth_In _ _ F1)). destruct RI as [NE EN].
    split; intros m sh; cbn [shape_from]; [|discriminate]. destruct m; try discriminate. intros H.
    destruct (shape_from Code true tpl) as [sh'|] eqn:S; [|discriminate H]. cbn [option_map] in H. injection H as <-.
    rewrite fill_cons, toks_app. rewrite (B _ sh' EN eq_refl). cbn [flat_map inst]. rewrite app_assoc, server_toks. reflexivity.
Qed.
End Fill.

(* ---------------- brackets ---------------- *)

Lemma balanced_app open a b o : balanced open a = true -> balanced (open ++ o) (a ++ b) = balanced o b.
Proof.
  revert open. induction a as [|t a IH]; intros open H.
  - destruct open; [reflexivity|discriminate H].
  - destruct t; cbn [app balanced] in H |- *; try (now apply IH).
    destruct (closing c) as [d|]; [now apply (IH (d :: open))|].
    destruct ((c =? 41) || (c =? 93) || (c =? 125)); [|now apply IH].
    destruct open as [|d op]; [discriminate H|]. cbn [app]. apply andb_true_iff in H as [-> H]. cbn [andb]. now apply IH.
Qed.

(** A sequence of tokens that stays within its place. *)
Definition neat (ts : list sqltok) : Prop := forallb harmless ts = true /\ balanced [] ts = true.
Lemma neat_app a b : neat a -> neat b -> neat (a ++ b).
Proof.
  intros [A1 A2] [B1 B2]. split; [rewrite forallb_app; now rewrite A1, B1|]. exact (eq_trans (balanced_app [] a b [] A2) B2).
Qed.
Lemma neat_nil : neat [].
Proof. now split. Qed.
Lemma neat_single t : harmless t = true -> match t with TChar c => closing c = None /\ (c =? 41) || (c =? 93) || (c =? 125) = false | _ => True end -> neat [t].
Proof.
  intros H B. split; [cbn; now rewrite H|]. destruct t; try reflexivity. cbn [balanced]. destruct B as [-> ->]. reflexivity.
Qed.
Lemma neat_bracket o c ts : closing o = Some c -> neat ts -> neat (TChar o :: ts ++ [TChar c]).
Proof.
  intros C [N1 N2]. assert (OC : (o = 40 /\ c = 41) \/ (o = 91 /\ c = 93) \/ (o = 123 /\ c = 125)).
  { unfold closing in C. destruct (N.eqb_spec o 40); [injection C; auto|]. destruct (N.eqb_spec o 91); [injection C; auto|].
    destruct (N.eqb_spec o 123); [injection C; auto 6|discriminate]. }
  split.
  - cbn [forallb]. rewrite forallb_app, N1. destruct OC as [[-> ->]|[[-> ->]|[-> ->]]]; reflexivity.
  - cbn [balanced]. rewrite C. etransitivity; [exact (balanced_app [] ts [TChar c] [c] N2)|].
    destruct OC as [[-> ->]|[[-> ->]|[-> ->]]]; reflexivity.
Qed.

(** [reads t ts]: standing alone, [t] is the tokens [ts]; it ends outside quotes and comments. *)
Definition reads (t : text) (ts : list sqltok) : Prop := ended (snd (run Code t)) = true /\ toks Code t = ts.

Lemma contained_reads t : contained t <-> t <> [] /\ exists ts, reads t ts /\ neat ts.
Proof.
  unfold contained, reads, neat. rewrite server_toks. split.
  - intros (A & B & C & D). split; [exact A|]. exists (toks Code t). auto.
  - intros (A & ts & [B <-] & C & D). auto.
Qed.

(** A single separating character. *)
Definition sep (c : N) : bool := existsb (N.eqb c) (txt "()[]{},: +").
Lemma sep_step c : sep c = true -> separates c = true /\ code_step c = ([TChar c], Code).
Proof.
  unfold sep. cbn [existsb txt List.map list_ascii_of_string]. intros H. repeat (apply orb_true_iff in H as [H|H]; [apply N.eqb_eq in H; subst c; vm_compute; auto|]).
  discriminate H.
Qed.
Lemma reads_nil : reads [] [].
Proof. now split. Qed.
Lemma reads_sep t ts c : reads t ts -> sep c = true -> run Code (t ++ [c]) = (ts ++ [TChar c], Code).
Proof.
  intros [E T] S. destruct (sep_step c S) as [S1 S2]. rewrite run_app. rewrite (run_leave _ c []) by assumption.
  cbn [run]. change (step Code c) with (code_step c). rewrite S2. unfold after. cbn [fst snd app]. unfold toks in T. rewrite app_assoc, T. reflexivity.
Qed.
Lemma reads_snoc t ts c : reads t ts -> sep c = true -> reads (t ++ [c]) (ts ++ [TChar c]).
Proof. intros T S. unfold reads, toks. rewrite (reads_sep t ts c T S). cbn [fst snd flush]. split; [reflexivity|now rewrite app_nil_r]. Qed.
Lemma reads_then t ts c u us : reads t ts -> sep c = true -> reads u us -> reads (t ++ [c] ++ u) (ts ++ [TChar c] ++ us).
Proof.
  intros T S [E U]. unfold reads, toks. rewrite app_assoc, run_app, (reads_sep t ts c T S). cbn [fst snd]. split; [exact E|].
  unfold toks in U. rewrite <- !app_assoc, U. reflexivity.
Qed.
Lemma reads_pre c u us : sep c = true -> reads u us -> reads ([c] ++ u) ([TChar c] ++ us).
Proof. intros S U. exact (reads_then [] [] c u us reads_nil S U). Qed.
Lemma reads_bracket o c t ts : sep o = true -> sep c = true -> reads t ts -> reads ([o] ++ t ++ [c]) ([TChar o] ++ ts ++ [TChar c]).
Proof. intros O C T. apply reads_pre; [exact O|]. now apply reads_snoc. Qed.

(* ---------------- words and numbers ---------------- *)

Lemma run_word w t : Forall (fun c => word_char c = true) t -> run (Word w) t = ([], Word (w ++ t)).
Proof.
  revert w. induction t as [|c t IH]; intros w H; cbn [run]; [now rewrite app_nil_r|]. inversion H as [|? ? H1 H2]; subst.
  cbn [step]. rewrite H1. rewrite IH by exact H2. cbn [app]. now rewrite <- app_assoc.
Qed.
Lemma word_code c : word_char c = true -> code_step c = ([], Word [c]).
Proof.
  intros W. unfold code_step. rewrite W.
  assert (forall k, word_char k = false -> c =? k = false) by (intros k K; apply N.eqb_neq; intros ->; congruence).
  rewrite !H by reflexivity. reflexivity.
Qed.
Lemma reads_word t : t <> [] -> Forall (fun c => word_char c = true) t -> reads t [TWord t] /\ run Code t = ([], Word t).
Proof.
  intros NE H. destruct t as [|c t]; [congruence|]. inversion H as [|? ? H1 H2]; subst.
  assert (Q : run Code (c :: t) = ([], Word (c :: t))).
  { cbn [run]. change (step Code c) with (code_step c). rewrite word_code by exact H1. rewrite run_word by exact H2. reflexivity. }
  split; [|exact Q]. unfold reads, toks. rewrite Q. now split.
Qed.
(** A minus sign and a word. *)
Lemma reads_minus_word t : t <> [] -> Forall (fun c => word_char c = true) t -> reads (45 :: t) [TChar 45; TWord t].
Proof.
  intros NE H. destruct t as [|c t]; [congruence|]. inversion H as [|? ? H1 H2]; subst.
  assert (Q : run Code (45 :: c :: t) = ([TChar 45], Word (c :: t))).
  { cbn [run]. change (step Code 45) with (@nil sqltok, Minus). cbn [step]. assert (c =? 45 = false) as -> by (apply N.eqb_neq; intros ->; discriminate H1).
    rewrite word_code by exact H1. unfold after. cbn [fst snd app]. rewrite run_word by exact H2. reflexivity. }
  unfold reads, toks. rewrite Q. now split.
Qed.

(** A word, a minus sign and a word. *)
Lemma reads_word_minus_word w t : w <> [] -> Forall (fun c => word_char c = true) w -> t <> [] -> Forall (fun c => word_char c = true) t ->
  reads (w ++ 45 :: t) [TWord w; TChar 45; TWord t].
Proof.
  intros NW W NE H. destruct (reads_word w NW W) as [_ Q]. unfold reads, toks. rewrite run_app, Q. cbn [fst snd app].
  destruct t as [|c t]; [congruence|]. inversion H as [|? ? H1 H2]; subst.
  assert (Q' : run (Word w) (45 :: c :: t) = ([TWord w; TChar 45], Word (c :: t))).
  { cbn [run step]. change (word_char 45) with false. change (code_step 45) with (@nil sqltok, Minus). unfold after. cbn [fst snd app step].
    assert (c =? 45 = false) as -> by (apply N.eqb_neq; intros ->; discriminate H1).
    rewrite word_code by exact H1. unfold after. cbn [fst snd app]. rewrite run_word by exact H2. reflexivity. }
  rewrite Q'. now split.
Qed.

Lemma digit_word c : is_digit c = true -> word_char c = true.
Proof. unfold is_digit, word_char. intros ->. reflexivity. Qed.
Lemma show_N_word n : Forall (fun c => word_char c = true) (show_N n).
Proof. eapply Forall_impl; [exact digit_word|apply show_N_digits]. Qed.

Lemma neat_word t : neat [TWord t].
Proof. apply neat_single; [reflexivity|exact I]. Qed.
Lemma neat_minus : neat [TChar 45].
Proof. apply neat_single; [reflexivity|split; reflexivity]. Qed.
Lemma neat_colon : neat [TChar 58].
Proof. apply neat_single; [reflexivity|split; reflexivity]. Qed.
Lemma neat_comma : neat [TChar 44].
Proof. apply neat_single; [reflexivity|split; reflexivity]. Qed.
Lemma neat_space : neat [TChar 32].
Proof. apply neat_single; [reflexivity|split; reflexivity]. Qed.
Lemma neat_quoted r : neat [TQuoted 39 r].
Proof. apply neat_single; [reflexivity|exact I]. Qed.
Lemma neat_cons t ts : neat [t] -> neat ts -> neat (t :: ts).
Proof. intros A B. change (t :: ts) with ([t] ++ ts). now apply neat_app. Qed.

(** [inside t]: neat tokens, and not empty. *)
Definition inside (t : text) : Prop := t <> [] /\ exists ts, reads t ts /\ neat ts.

Lemma inside_word t : t <> [] -> Forall (fun c => word_char c = true) t -> inside t.
Proof. intros NE H. split; [exact NE|]. exists [TWord t]. split; [now apply reads_word|apply neat_word]. Qed.
Lemma inside_minus t : t <> [] -> Forall (fun c => word_char c = true) t -> inside (45 :: t).
Proof. intros NE H. split; [discriminate|]. exists [TChar 45; TWord t]. split; [now apply reads_minus_word|]. apply neat_cons; [apply neat_minus|apply neat_word]. Qed.
Lemma inside_N n : inside (show_N n).
Proof. apply inside_word; [apply show_N_nonempty|apply show_N_word]. Qed.
Lemma inside_Z z : inside (show_Z z).
Proof.
  unfold show_Z. destruct (z <? 0)%Z; [|apply inside_N]. apply inside_minus; [apply show_N_nonempty|apply show_N_word].
Qed.
Lemma inside_cast t name : inside t -> name <> [] -> Forall (fun c => word_char c = true) name -> inside (t ++ [58; 58] ++ name).
Proof.
  intros [NE (ts & R & N)] NN W. split; [destruct t; [congruence|discriminate]|]. exists (ts ++ [TChar 58] ++ [TChar 58] ++ [TWord name]). split.
  - apply (reads_then t ts 58 ([58] ++ name)); [exact R|reflexivity|]. apply reads_pre; [reflexivity|now apply reads_word].
  - repeat apply neat_app; auto using neat_colon, neat_word.
Qed.

Lemma inside_decimal p x : inside (show_decimal p x).
Proof.
  unfold show_decimal. pose proof (inside_Z x) as IZ. destruct (lenN (show_Z x) <? p) eqn:L; [exact IZ|]. clear IZ. apply N.ltb_ge in L.
  unfold show_Z in *. destruct (x <? 0)%Z.
  - set (ds := show_N (Z.to_N (- x))) in *. assert (W := show_N_word (Z.to_N (- x))). fold ds in W. assert (NE := show_N_nonempty (Z.to_N (- x))). fold ds in NE.
    cbn [List.length]. destruct (S (List.length ds) - N.to_nat p)%nat as [|k] eqn:K.
    + cbn [firstn skipn app]. split; [discriminate|]. exists [TWord [46]; TChar 45; TWord ds]. split.
      * apply (reads_word_minus_word [46] ds); [discriminate| |exact NE|exact W]. constructor; [reflexivity|constructor].
      * apply neat_cons; [apply neat_word|]. apply neat_cons; [apply neat_minus|apply neat_word].
    + cbn [firstn skipn app]. apply inside_minus; [now destruct (firstn k ds)|].
      apply Forall_app. split; [now apply Forall_firstn|]. constructor; [reflexivity|]. now apply Forall_skipn.
  - set (ds := show_N (Z.to_N x)) in *. assert (W := show_N_word (Z.to_N x)). fold ds in W.
    apply inside_word; [now destruct (firstn _ ds)|]. apply Forall_app. split; [now apply Forall_firstn|]. constructor; [reflexivity|]. now apply Forall_skipn.
Qed.

Lemma hex_upper_word d : d < 16 -> word_char (hex_upper d) = true.
Proof. intros H. unfold hex_upper, word_char. destruct (N.ltb_spec d 10); lia. Qed.
Lemma hex2_word b : b < 256 -> Forall (fun c => word_char c = true) (hex2_upper b).
Proof.
  intros H. unfold hex2_upper. repeat constructor; apply hex_upper_word; [apply N.div_lt_upper_bound; lia|apply N.mod_lt; discriminate].
Qed.
Lemma inside_hex be : Forall (fun b => b < 256) be -> inside (show_hex256 be).
Proof.
  intros H. unfold show_hex256. apply inside_word; [discriminate|]. apply Forall_app. split; [repeat constructor|].
  induction H as [|b be H _ IH]; [constructor|]. cbn [flat_map]. apply Forall_app. split; [now apply hex2_word|exact IH].
Qed.

(* ---------------- quoted texts ---------------- *)

Lemma run_escape_byte r b : b < 256 -> run (Quoted 39 r) (escape_byte b) = ([], Quoted 39 (r ++ escape_byte b)).
Proof.
  intros H. unfold escape_byte. destruct (N.ltb_spec b 128) as [L|L].
  - repeat (match goal with |- context [if b =? ?k then _ else _] => destruct (N.eqb_spec b k) as [->|?] end; [reflexivity|]).
    cbn [run step]. replace (b =? 92) with false by lia. replace (b =? 39) with false by lia. reflexivity.
  - assert (W := hex2_word b H). unfold hex2_upper in *. inversion W as [|? ? W1 W2]; subst. inversion W2 as [|? ? W3 _]; subst.
    set (x := hex_upper (b / 16)) in *. set (y := hex_upper (b mod 16)) in *.
    assert (NQ : forall c, word_char c = true -> c =? 92 = false /\ c =? 39 = false) by (intros c C; split; apply N.eqb_neq; intros ->; discriminate C).
    destruct (NQ x W1) as [X1 X2]. destruct (NQ y W3) as [Y1 Y2].
    cbn [run step]. change (92 =? 92) with true. cbn [step app]. rewrite X1, X2. cbn [step]. rewrite Y1, Y2. cbn [app].
    rewrite <- !app_assoc. reflexivity.
Qed.
Lemma run_escape r bs : Forall (fun b => b < 256) bs -> run (Quoted 39 r) (escape_string bs) = ([], Quoted 39 (r ++ escape_string bs)).
Proof.
  intros H. revert r. induction H as [|b bs H _ IH]; intros r; [cbn; now rewrite app_nil_r|]. unfold escape_string in *. cbn [flat_map].
  rewrite run_app, run_escape_byte by exact H. cbn [fst snd app]. rewrite IH. cbn [fst snd]. now rewrite <- app_assoc.
Qed.
Definition plain_char (c : N) : bool := word_char c || (c =? 58) || (c =? 45).
Lemma run_plain r t : Forall (fun c => plain_char c = true) t -> run (Quoted 39 r) t = ([], Quoted 39 (r ++ t)).
Proof.
  intros H. revert r. induction H as [|c t H _ IH]; intros r; cbn [run]; [now rewrite app_nil_r|].
  assert (c =? 92 = false /\ c =? 39 = false) as [E1 E2] by (split; apply N.eqb_neq; intros ->; discriminate H).
  cbn [step]. rewrite E1, E2, IH. cbn [app]. now rewrite <- app_assoc.
Qed.
Lemma reads_quoted body : run (Quoted 39 []) body = ([], Quoted 39 body) -> reads ([39] ++ body ++ [39]) [TQuoted 39 body].
Proof.
  intros H. unfold reads, toks. rewrite run_app. change (run Code [39]) with (@nil sqltok, Quoted 39 []). cbn [fst snd].
  rewrite run_app, H. cbn [fst snd]. change (run (Quoted 39 body) [39]) with (@nil sqltok, Closed 39 body). now split.
Qed.
Lemma reads_quote bs : Forall (fun b => b < 256) bs -> reads (quote bs) [TQuoted 39 (escape_string bs)].
Proof. intros H. apply reads_quoted. now rewrite run_escape. Qed.
Lemma inside_quoted body : run (Quoted 39 []) body = ([], Quoted 39 body) -> inside ([39] ++ body ++ [39]).
Proof. intros H. split; [discriminate|]. exists [TQuoted 39 body]. split; [now apply reads_quoted|apply neat_quoted]. Qed.

(** name(argument) *)
Lemma inside_call name t : name <> [] -> Forall (fun c => word_char c = true) name -> inside t -> inside (name ++ [40] ++ t ++ [41]).
Proof.
  intros NE W [_ (ts & R & N)]. split; [destruct name; [congruence|discriminate]|]. exists ([TWord name] ++ [TChar 40] ++ ts ++ [TChar 41]). split.
  - apply reads_then; [now apply reads_word|reflexivity|]. now apply reads_snoc.
  - apply neat_app; [apply neat_word|]. apply (neat_bracket 40 41); auto.
Qed.
Lemma inside_then t c u : inside t -> sep c = true -> neat [TChar c] -> inside u -> inside (t ++ [c] ++ u).
Proof.
  intros [NE (ts & R & N)] S NC [_ (us & R' & N')]. split; [destruct t; [congruence|discriminate]|]. exists (ts ++ [TChar c] ++ us).
  split; [now apply reads_then|]. repeat apply neat_app; auto.
Qed.

Lemma reads_comma_join l : Forall inside l -> exists ts, reads (comma_join l) ts /\ neat ts.
Proof.
  induction 1 as [|t l H Hl IH]; [exists []; split; [apply reads_nil|apply neat_nil]|].
  destruct l as [|u l]; [exact (proj2 H)|]. destruct IH as (us & R' & N'). destruct H as [_ (ts & R & N)].
  change (comma_join (t :: u :: l)) with (t ++ [44] ++ comma_join (u :: l)). exists (ts ++ [TChar 44] ++ us).
  split; [apply reads_then; auto|]. repeat apply neat_app; auto using neat_comma.
Qed.
Lemma inside_brackets o c l : sep o = true -> closing o = Some c -> sep c = true -> Forall inside l -> inside ([o] ++ comma_join l ++ [c]).
Proof.
  intros O C S H. destruct (reads_comma_join l H) as (ts & R & N). split; [discriminate|]. exists ([TChar o] ++ ts ++ [TChar c]).
  split; [now apply reads_bracket|]. now apply neat_bracket.
Qed.

(* ---------------- every value ---------------- *)

Lemma hex_lower_word d : d < 16 -> word_char (hex_lower d) = true.
Proof. intros H. unfold hex_lower, word_char. destruct (N.ltb_spec d 10); lia. Qed.
Lemma hex_digits_word k n : Forall (fun c => word_char c = true) (hex_digits_lower k n).
Proof. induction k as [|k IH]; constructor; [|exact IH]. apply hex_lower_word. apply N.mod_lt. discriminate. Qed.
Lemma word_plain c : word_char c = true -> plain_char c = true.
Proof. unfold plain_char. now intros ->. Qed.
Lemma uuid_plain n : Forall (fun c => plain_char c = true) (show_uuid n).
Proof.
  unfold show_uuid. assert (H : Forall (fun c => plain_char c = true) (hex_digits_lower 32 n)) by (eapply Forall_impl; [exact word_plain|apply hex_digits_word]).
  repeat first [apply Forall_app; split | apply Forall_firstn | apply Forall_skipn | exact H | (constructor; [reflexivity|constructor])].
Qed.
Lemma show_N_plain n : Forall (fun c => plain_char c = true) (show_N n).
Proof. eapply Forall_impl; [exact word_plain|apply show_N_word]. Qed.
Lemma ipv4_plain n : Forall (fun c => plain_char c = true) (show_ipv4 n).
Proof.
  unfold show_ipv4. repeat first [apply Forall_app; split | apply show_N_plain | (constructor; [reflexivity|constructor])].
Qed.
Lemma inside_contained t : inside t <-> contained t.
Proof. unfold inside. symmetry. apply contained_reads. Qed.

Lemma Forall2_inside E l r : Forall (fun v => representable v = true -> forall t, display E v = Ok t -> inside t) l ->
  forallb representable l = true -> Forall2 (fun a b => a = Ok b) (map (display E) l) r -> Forall inside r.
Proof.
  intros H. revert r. induction H as [|v l H _ IH]; intros r B F; inversion F; subst; [constructor|]. cbn [forallb] in B. apply andb_true_iff in B as [B1 B2].
  constructor; [now apply H|now apply IH].
Qed.
Lemma entries_inside rk rv : Forall inside rk -> Forall inside rv -> Forall inside (map map_entry (combine rk rv)).
Proof.
  intros H. revert rv. induction H as [|k rk H _ IH]; intros rv F; [constructor|]. destruct F as [|v rv F1 F2]; [constructor|]. cbn [combine map]. constructor; [|now apply IH].
  unfold map_entry. cbn [fst snd]. apply inside_then; auto using neat_colon.
Qed.
Lemma bytes_small bs : forallb byteb bs = true -> Forall (fun b => b < 256) bs.
Proof. intros H. apply Forall_forall. intros b I. apply (proj1 (forallb_forall _ _) H) in I. unfold byteb in I. lia. Qed.

Lemma rfc3339_small off secs nanos : Forall (fun b => b < 256) (rfc3339 off secs nanos).
Proof.
  eapply Forall_impl; [|apply rfc3339_chars]. intros c [D|D]; [unfold is_digit in D; lia|]. cbn [In] in D. lia.
Qed.
Lemma pad_word k n : Forall (fun c => word_char c = true) (pad k n).
Proof. eapply Forall_impl; [|apply pad_digits]. intros c. unfold is_digit, word_char. lia. Qed.
Lemma inside_date n : inside (date_text n).
Proof.
  unfold date_text. destruct (civil _) as [[y m] d].
  replace (_ ++ _) with (txt "makeDate" ++ [40] ++ (pad 4 (Z.to_N y) ++ [44] ++ pad 2 m ++ [44] ++ pad 2 d) ++ [41]) by (rewrite <- !app_assoc; reflexivity).
  apply inside_call; [discriminate|repeat constructor|]. apply inside_then; [apply inside_word; [discriminate|apply pad_word]|reflexivity|apply neat_comma|].
  apply inside_then; [apply inside_word; [discriminate|apply pad_word]|reflexivity|apply neat_comma|]. apply inside_word; [discriminate|apply pad_word].
Qed.
Lemma hex_min_plain n : n < 65536 -> Forall (fun c => plain_char c = true) (hex_min n).
Proof.
  intros B. destruct (hex_min_spec n B) as (k & _ & _ & H & _). apply Forall_forall. intros c I. apply (proj1 (forallb_forall _ _) H) in I.
  unfold is_hex, hex_val in I. apply word_plain. unfold word_char. destruct (is_digit c) eqn:D; [unfold is_digit in D; lia|].
  destruct ((65 <=? c) && (c <=? 70)) eqn:A in I; [lia|]. destruct ((97 <=? c) && (c <=? 102)) eqn:A' in I; [lia|discriminate].
Qed.
Lemma seg_list_plain l : Forall (fun n => n < 65536) l -> Forall (fun c => plain_char c = true) (seg_list l).
Proof.
  induction 1 as [|n l B F IH]; [constructor|]. unfold seg_list in *. destruct l as [|m l]; [now apply hex_min_plain|].
  change (join [58] (map hex_min (n :: m :: l))) with (hex_min n ++ [58] ++ join [58] (map hex_min (m :: l))).
  apply Forall_app. split; [now apply hex_min_plain|]. constructor; [reflexivity|exact IH].
Qed.
Lemma segments_small k : forall o, (length o <= k)%nat -> Forall (fun b => b < 256) o -> Forall (fun n => n < 65536) (segments o).
Proof.
  induction k as [|k IH]; intros [|a [|b o]] L F; try constructor; try (cbn in L; lia).
  - inversion F as [|? ? A F']; inversion F'; subst. lia.
  - apply IH; [cbn in L; lia|]. now do 2 apply Forall_inv_tail in F.
Qed.
Lemma ipv6_plain o : Forall (fun b => b < 256) o -> Forall (fun c => plain_char c = true) (show_ipv6 o).
Proof.
  intros F. apply (segments_small (length o)) in F; [|lia]. unfold show_ipv6. destruct (mapped _).
  - apply Forall_app. split; [repeat constructor|apply ipv4_plain].
  - destruct (longest_zeros _ _ _ _) as [st ln]. destruct (_ <? _)%nat; [|now apply seg_list_plain].
    apply Forall_app. split; [now apply seg_list_plain, Forall_firstn|]. apply Forall_app. split; [repeat constructor|now apply seg_list_plain, Forall_skipn].
Qed.

Lemma Ok_inj {A} (a b : A) : Ok a = Ok b -> b = a.
Proof. congruence. Qed.

(** The debug forms of the geometric values. *)
Lemma reads_join_list l : Forall inside l -> exists ts, reads (join (txt ", ") l) ts /\ neat ts.
Proof.
  induction 1 as [|t l H Hl IH]; [exists []; split; [apply reads_nil|apply neat_nil]|].
  destruct l as [|u l]; [exact (proj2 H)|]. destruct IH as (us & R' & N'). destruct H as [_ (ts & R & N)].
  change (join (txt ", ") (t :: u :: l)) with (t ++ [44] ++ [32] ++ join (txt ", ") (u :: l)). exists (ts ++ [TChar 44] ++ [TChar 32] ++ us).
  split; [apply reads_then; [exact R|reflexivity|]; now apply reads_pre|]. repeat apply neat_app; auto using neat_comma, neat_space.
Qed.
Lemma inside_debug name l : txt name <> [] -> Forall (fun c => word_char c = true) (txt name) -> Forall inside l -> inside (debug_list name l).
Proof.
  intros NE W H. destruct (reads_join_list l H) as (ts & R & N). unfold debug_list. set (j := join (txt ", ") l) in *.
  replace (txt name ++ txt "([" ++ j ++ txt "])") with (txt name ++ [40] ++ ([91] ++ j ++ [93]) ++ [41]) by (rewrite <- !app_assoc; reflexivity).
  apply inside_call; [exact NE|exact W|]. split; [discriminate|]. exists ([TChar 91] ++ ts ++ [TChar 93]). split; [now apply reads_bracket|]. now apply neat_bracket.
Qed.
Section Geo.
  Variable E : ext_fmt.
  Hypothesis FD : forall b, contained (x_debug E b).
  Lemma inside_map {A} (f : A -> text) l : (forall x, inside (f x)) -> Forall inside (map f l).
  Proof. intros H. apply Forall_map. apply Forall_forall. auto. Qed.
  Lemma inside_point p : inside (debug_point E p).
  Proof. apply inside_debug; [discriminate|repeat constructor|]. repeat constructor; try (now apply inside_contained); apply inside_contained, FD. Qed.
  Lemma inside_ring r : inside (debug_ring E r).
  Proof. apply inside_debug; [discriminate|repeat constructor|]. apply inside_map, inside_point. Qed.
  Lemma inside_polygon p : inside (debug_polygon E p).
  Proof. apply inside_debug; [discriminate|repeat constructor|]. apply inside_map, inside_ring. Qed.
  Lemma inside_multipolygon m : inside (debug_multipolygon E m).
  Proof. apply inside_debug; [discriminate|repeat constructor|]. apply inside_map, inside_polygon. Qed.
End Geo.

Theorem display_inside E : fmt_ok E -> forall v, representable v = true -> forall t, display E v = Ok t -> inside t.
Proof.
  intros (F32 & F64 & F16 & FD). induction v as [v L|l IH|l IH|ks vs IK IV] using value_nested_ind.
  - destruct v; try contradiction L; intros R out D; cbn [display] in D; cbn [representable] in R.
    + destruct w; apply Ok_inj in D; subst; try apply inside_Z. change (txt "::Int128") with ([58; 58] ++ txt "Int128"); apply inside_cast; [apply inside_Z|discriminate|repeat constructor].
    + apply Ok_inj in D; subst. apply andb_true_iff in R as [_ R]. change (txt "::Int256") with ([58; 58] ++ txt "Int256"); apply inside_cast; [|discriminate|repeat constructor]. now apply inside_hex, bytes_small.
    + destruct w; apply Ok_inj in D; subst; try apply inside_N. change (txt "::UInt128") with ([58; 58] ++ txt "UInt128"); apply inside_cast; [apply inside_N|discriminate|repeat constructor].
    + apply Ok_inj in D; subst. apply andb_true_iff in R as [_ R]. change (txt "::UInt256") with ([58; 58] ++ txt "UInt256"); apply inside_cast; [|discriminate|repeat constructor]. now apply inside_hex, bytes_small.
    + apply Ok_inj in D; subst. now apply inside_contained.
    + apply Ok_inj in D; subst. now apply inside_contained.
    + apply Ok_inj in D; subst. now apply inside_contained.
    + apply Ok_inj in D; subst. apply inside_decimal.
    + apply Ok_inj in D; subst. apply inside_decimal.
    + apply Ok_inj in D; subst. apply inside_decimal.
    + discriminate D.
    + apply Ok_inj in D; subst. apply inside_quoted. rewrite run_escape by now apply bytes_small. reflexivity.
    + apply Ok_inj in D; subst. replace (txt "toUUID('" ++ show_uuid n ++ txt "')") with (txt "toUUID" ++ [40] ++ ([39] ++ show_uuid n ++ [39]) ++ [41]) by (rewrite <- !app_assoc; reflexivity).
      apply inside_call; [discriminate|repeat constructor|]. apply inside_quoted. rewrite run_plain by apply uuid_plain. reflexivity.
    + apply Ok_inj in D; subst. apply inside_date.
    + apply Ok_inj in D; subst. set (s := rfc3339 _ (Z.of_N t) 0). replace (_ ++ escape_string s ++ _) with (txt "parseDateTimeBestEffort" ++ [40] ++ ([39] ++ escape_string s ++ [39]) ++ [41]) by (rewrite <- !app_assoc; reflexivity).
      apply inside_call; [discriminate|repeat constructor|]. apply inside_quoted. rewrite run_escape; [reflexivity|]. apply rfc3339_small.
    + destruct (_ || _); [discriminate D|]. apply Ok_inj in D; subst. set (s := rfc3339 _ _ _).
      replace (_ ++ escape_string s ++ _) with (txt "parseDateTime64BestEffort" ++ [40] ++ (([39] ++ escape_string s ++ [39]) ++ [44] ++ [32] ++ show_N p) ++ [41])
        by (rewrite <- !app_assoc; reflexivity).
      assert (Q : run (Quoted 39 []) (escape_string s) = ([], Quoted 39 (escape_string s))).
      { rewrite run_escape; [reflexivity|]. apply rfc3339_small. }
      apply inside_call; [discriminate|repeat constructor|]. apply inside_then; [now apply inside_quoted|reflexivity|apply neat_comma|].
      destruct (inside_N p) as [_ (ts & RR & N)]. split; [discriminate|]. exists ([TChar 32] ++ ts). split; [now apply reads_pre|]. apply neat_app; [apply neat_space|exact N].
    + apply Ok_inj in D; subst. apply inside_Z.
    + apply Ok_inj in D; subst. apply inside_Z.
    + apply Ok_inj in D; subst. apply inside_word; [discriminate|repeat constructor].
    + apply Ok_inj in D; subst. apply inside_quoted. rewrite run_plain by apply ipv4_plain. reflexivity.
    + apply Ok_inj in D; subst. apply inside_quoted. rewrite run_plain; [reflexivity|]. unfold bytes_of_len in R. apply andb_true_iff in R as [_ R]. now apply ipv6_plain, bytes_small.
    + apply Ok_inj in D; subst. now apply inside_point.
    + apply Ok_inj in D; subst. now apply inside_ring.
    + apply Ok_inj in D; subst. now apply inside_polygon.
    + apply Ok_inj in D; subst. now apply inside_multipolygon.
  - intros R t D. cbn [display representable] in *. unfold rbind in D. destruct (seq_res (map (display E) l)) as [r| |] eqn:S; try discriminate D. apply Ok_inj in D; subst.
    apply inside_brackets; try reflexivity. apply seq_res_ok in S. exact (Forall2_inside E l r IH R S).
  - intros R t D. cbn [display representable] in *. unfold rbind in D. destruct (seq_res (map (display E) l)) as [r| |] eqn:S; try discriminate D. apply Ok_inj in D; subst.
    apply inside_brackets; try reflexivity. apply seq_res_ok in S. exact (Forall2_inside E l r IH R S).
  - intros R t D. cbn [display representable] in *. apply andb_true_iff in R as [RK RV]. destruct (negb _); [discriminate D|]. unfold rbind in D.
    destruct (seq_res (map (display E) ks)) as [rk| |] eqn:SK; try discriminate D. destruct (seq_res (map (display E) vs)) as [rv| |] eqn:SV; try discriminate D. apply Ok_inj in D; subst.
    apply inside_brackets; try reflexivity. apply seq_res_ok in SK, SV. apply entries_inside; [exact (Forall2_inside E ks rk IK RK SK)|exact (Forall2_inside E vs rv IV RV SV)].
Qed.
