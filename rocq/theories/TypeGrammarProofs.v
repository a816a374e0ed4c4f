(** The parser follows the grammar, and panics exactly where the specification says. *)
From Coq Require Import String ZArith Lia.
From Verif Require Import Base Types Text TypeText TypeTextProofs TypeTextProofs2 Numeral NumeralProofs TypeGrammar.
Local Open Scope list_scope.
Local Open Scope N_scope.

(* ---------------- identifiers ---------------- *)
Lemma eat_chars U : forall r rest, (forall d, In d r -> ident_char U d = true) ->
  match rest with [] => True | c :: _ => ident_char U c = false end -> eat_identifier U false (r ++ rest) = (r, rest).
Proof.
  induction r as [|c r IH]; intros rest H S; cbn [app eat_identifier].
  - destruct rest as [|c rest]; [reflexivity|]. cbn [eat_identifier]. unfold ident_char, ident_start in S. cbn [negb andb]. now rewrite S.
  - pose proof (H c (or_introl eq_refl)) as Hc. unfold ident_char, ident_start in Hc. cbn [negb andb]. rewrite Hc.
    rewrite IH; [reflexivity| |exact S]. intros d Hd. apply H. now right.
Qed.
Lemma eat_chars_inv U : forall s a b, eat_identifier U false s = (a, b) ->
  s = a ++ b /\ (forall d, In d a -> ident_char U d = true) /\ match b with [] => True | c :: _ => ident_char U c = false end.
Proof.
  induction s as [|c s IH]; intros a b E; cbn [eat_identifier] in E.
  - injection E as <- <-. repeat split; intros d [].
  - cbn [negb andb] in E. destruct (is_alpha U c || (c =? 95) || (c =? 36) || is_num U c) eqn:Hc.
    + destruct (eat_identifier U false s) as [a' b'] eqn:E'. injection E as <- <-. destruct (IH _ _ eq_refl) as (-> & H & S).
      split; [reflexivity|]. split; [|exact S]. intros d [<-|Hd]; [exact Hc|auto].
    + injection E as <- <-. split; [reflexivity|]. split; [intros d []|exact Hc].
Qed.
Lemma named_iff U s name rest : named U s name rest <-> exists r, eat_identifier U true s = (name, r) /\ name <> [] /\ rest = trim U r.
Proof.
  split.
  - intros (I & r & -> & -> & S). destruct name as [|c n]; [destruct I|]. destruct I as (I1 & I2). exists r.
    cbn [app eat_identifier negb andb]. rewrite orb_false_r. unfold ident_start in I1. rewrite I1, (eat_chars U n r I2 S). repeat split. discriminate.
  - intros (r & E & N & ->). destruct s as [|c s]; cbn [eat_identifier] in E; [injection E as <- <-; congruence|].
    cbn [negb andb] in E. rewrite orb_false_r in E. destruct (is_alpha U c || (c =? 95) || (c =? 36)) eqn:Hc; [|injection E as <- <-; congruence].
    destruct (eat_identifier U false s) as [a b] eqn:E'. injection E as <- <-. apply eat_chars_inv in E' as (-> & H & S).
    split; [split; [exact Hc|exact H]|]. exists b. auto.
Qed.

(* ---------------- levels ---------------- *)
Lemma level_app a b : level (a ++ b) = (level a + level b)%Z.
Proof. induction a as [|c a IH]; [reflexivity|]. cbn [app level]. rewrite IH. lia. Qed.

Ltac nsp := split;
  [intros (A & B & C); split; [intros p q E; specialize (A p q E); lia|split; [split; [intros; try congruence; lia|intros p q E; specialize (B p q E); lia]|lia]]
  |intros (A & (_ & B) & C); split; [intros p q E; specialize (A p q E); lia|split; [intros p q E; specialize (B p q E); lia|lia]]].
Lemma nest_spec : forall s d e, nest d s = Some e <->
  ((forall p q, s = p ++ q -> (0 <= Z.of_nat d + level p)%Z) /\ (forall p q, s = p ++ 44 :: q -> (0 < Z.of_nat d + level p)%Z) /\ (Z.of_nat d + level s = Z.of_nat e)%Z).
Proof.
  induction s as [|c s IH]; intros d e; cbn [nest].
  - split.
    + intros [= ->]. repeat split.
      * intros p q E. destruct p; [cbn; lia|discriminate].
      * intros p q E. destruct p; discriminate.
      * cbn; lia.
    + intros (_ & _ & H). cbn [level] in H. f_equal. lia.
  - assert (HC : (forall p q, c :: s = p ++ q -> (0 <= Z.of_nat d + level p)%Z) <->
      forall p q, s = p ++ q -> (0 <= Z.of_nat d + level (c :: p))%Z).
    { split; intros H p q E.
      - apply (H (c :: p) q). cbn [app]. now f_equal.
      - destruct p as [|x p]; [cbn; lia|]. injection E as <- E. eapply H, E. }
    assert (HM : (forall p q, c :: s = p ++ 44 :: q -> (0 < Z.of_nat d + level p)%Z) <->
      (c = 44 -> (0 < Z.of_nat d)%Z) /\ forall p q, s = p ++ 44 :: q -> (0 < Z.of_nat d + level (c :: p))%Z).
    { split.
      - intros H. split; [intros ->; specialize (H [] s eq_refl); cbn in H; lia|]. intros p q E. apply (H (c :: p) q). cbn [app]. now f_equal.
      - intros (H0 & H) p q E. destruct p as [|x p]; [injection E as -> E; specialize (H0 eq_refl); cbn [level]; lia|]. injection E as <- E. eapply H, E. }
    rewrite HC, HM. clear HC HM. cbn [level].
    destruct (N.eqb_spec c 44) as [->|N44].
    + change (44 =? 40) with false. change (44 =? 41) with false. cbn iota. destruct d as [|d].
      * split; [discriminate|]. intros (_ & (H & _) & _). specialize (H eq_refl). lia.
      * rewrite IH. nsp.
    + destruct (N.eqb_spec c 40) as [->|N40]; [rewrite IH; nsp|].
      destruct (N.eqb_spec c 41) as [->|N41]; [|rewrite IH; nsp].
      destruct d as [|d]; [|rewrite IH; nsp].
      split; [discriminate|]. intros (A & _). specialize (A [] s eq_refl). cbn in A. lia.
Qed.

Lemma piece_balanced s : piece s <-> balanced s.
Proof.
  unfold piece, balanced. rewrite nest_spec. unfold overclosed. split.
  - intros (A & B & C). repeat split; [| |lia].
    + intros p q E. destruct (Z.ltb_spec (level p) 0); [|lia]. exfalso. apply A. exists p, q. auto.
    + intros p q E. specialize (C p q E). lia.
  - intros (A & B & C). repeat split; [|lia|].
    + intros (p & q & E & L). specialize (A p q E). lia.
    + intros p q E. specialize (B p q E). lia.
Qed.

(* ---------------- arguments ---------------- *)
Lemma scan_sound U : forall s d seg args, nest 0 (rev seg) = Some d -> scan_args U d seg s = Ok args -> arguments U (rev seg ++ s) args.
Proof.
  induction s as [|c s IH]; intros d seg args Hn E; cbn [scan_args] in E.
  - destruct d; [|discriminate]. injection E as <-. rewrite app_nil_r. exists [], (rev seg). split; [reflexivity|]. split; [intros p []|].
    split; [now apply piece_balanced|]. cbn [map app]. destruct seg as [|x seg]; [reflexivity|]. cbn [rev]. destruct (rev seg ++ [x]) eqn:X; [destruct (rev seg); discriminate|reflexivity].
  - assert (K : forall d', nest 0 (rev seg ++ [c]) = Some d' -> scan_args U d' (c :: seg) s = Ok args -> arguments U (rev seg ++ c :: s) args).
    { intros d' Hn' E'. specialize (IH d' (c :: seg) args Hn' E'). cbn [rev] in IH. rewrite <- app_assoc in IH. exact IH. }
    rewrite nest_app, Hn in K. cbn [nest] in K.
    destruct (N.eqb_spec c 44) as [->|N44].
    + destruct d as [|d]; [|eapply K; [reflexivity|exact E]]. destruct (scan_args U 0 [] s) as [rest| |] eqn:E'; cbn [rbind] in E; try discriminate. injection E as <-.
      destruct (IH O [] rest eq_refl E') as (ps & lst & EQ & HP & HL & ->). cbn [rev app] in EQ. exists (rev seg :: ps), lst.
      split; [cbn [map concat]; rewrite <- !app_assoc; cbn [app]; now rewrite EQ|]. split; [|split; [exact HL|reflexivity]].
      intros p [<-|Hp]; [now apply piece_balanced|auto].
    + destruct (N.eqb_spec c 40); [eapply K; [reflexivity|exact E]|]. destruct (N.eqb_spec c 41); [destruct d; [discriminate|]|]; (eapply K; [reflexivity|exact E]).
Qed.
Lemma scan_complete U body args : arguments U body args -> scan_args U 0 [] body = Ok args.
Proof.
  intros (ps & lst & -> & HP & HL & ->). induction ps as [|p ps IH]; cbn [map concat app].
  - apply piece_balanced in HL. rewrite <- (app_nil_r lst) at 1. rewrite (scan_piece U lst 0 0) by exact HL. cbn [scan_args]. rewrite app_nil_r.
    destruct lst as [|x l]; [reflexivity|]. destruct (rev (x :: l)) eqn:X; [cbn [rev] in X; destruct (rev l); discriminate|]. rewrite <- X, rev_involutive. reflexivity.
  - assert (Hp : balanced p) by (apply piece_balanced, HP; now left). rewrite <- !app_assoc. cbn [app].
    rewrite (scan_piece U p 0 0) by exact Hp. cbn [scan_args]. change (44 =? 44) with true. cbn iota.
    rewrite IH by (intros q Hq; apply HP; now right). cbn [rbind]. now rewrite app_nil_r, rev_involutive.
Qed.
Lemma scan_overclosed U : forall s d seg, (exists p q, s = p ++ q /\ (Z.of_nat d + level p < 0)%Z) -> scan_args U d seg s = Panic.
Proof.
  induction s as [|c s IH]; intros d seg (p & q & E & L); [destruct p; [cbn in L; lia|discriminate]|].
  destruct p as [|x p]; [cbn in L; lia|]. injection E as <- E. cbn [level] in L. cbn [scan_args]. revert L.
  destruct (N.eqb_spec c 44) as [->|N44].
  - change (44 =? 40) with false. change (44 =? 41) with false. cbn iota. intros L. destruct d; [|apply IH; exists p, q; split; [exact E|lia]].
    rewrite IH; [reflexivity|]. exists p, q. split; [exact E|lia].
  - destruct (N.eqb_spec c 40) as [->|N40]; [intros L; apply IH; exists p, q; split; [exact E|lia]|].
    destruct (N.eqb_spec c 41) as [->|N41]; intros L; [|apply IH; exists p, q; split; [exact E|lia]].
    destruct d; [reflexivity|]. apply IH; exists p, q; split; [exact E|lia].
Qed.
Lemma scan_panic_inv U : forall s d seg, scan_args U d seg s = Panic -> exists p q, s = p ++ q /\ (Z.of_nat d + level p < 0)%Z.
Proof.
  induction s as [|c s IH]; intros d seg E; cbn [scan_args] in E; [destruct d; discriminate|].
  assert (K : forall d' seg', scan_args U d' seg' s = Panic -> (Z.of_nat d' = Z.of_nat d + (if (c =? 40)%N then 1 else if (c =? 41)%N then -1 else 0))%Z -> exists p q, c :: s = p ++ q /\ (Z.of_nat d + level p < 0)%Z).
  { intros d' seg' E' Hd. destruct (IH _ _ E') as (p & q & -> & L). exists (c :: p), q. split; [reflexivity|]. cbn [level]. lia. }
  revert E K. destruct (N.eqb_spec c 44) as [->|N44].
  - change (44 =? 40) with false. change (44 =? 41) with false. cbn iota. intros E K.
    destruct d as [|d]; [|eapply K; [exact E|lia]]. destruct (scan_args U 0 [] s) eqn:E'; cbn [rbind] in E; try discriminate. eapply K; [exact E'|lia].
  - destruct (N.eqb_spec c 40) as [->|N40]; [intros E K; eapply K; [exact E|lia]|]. destruct (N.eqb_spec c 41) as [->|N41]; intros E K; [|eapply K; [exact E|lia]].
    destruct d as [|d]; [exists [41], s; split; [reflexivity|vm_compute; reflexivity]|]. eapply K; [exact E|lia].
Qed.
Lemma scan_ok_iff U body args : scan_args U 0 [] body = Ok args <-> arguments U body args.
Proof. split; [intros H; exact (scan_sound U body 0 [] args eq_refl H)|apply scan_complete]. Qed.
Lemma scan_panic_iff U body : scan_args U 0 [] body = Panic <-> overclosed body.
Proof.
  split; intros H; [apply scan_panic_inv in H as (p & q & E & L)|destruct H as (p & q & E & L); apply scan_overclosed]; exists p, q; (split; [exact E|lia]).
Qed.
Lemma strip_wrapped a m b : strip_ends (a :: m ++ [b]) = Ok m.
Proof. destruct m as [|x m]; [reflexivity|]. cbn [app strip_ends]. f_equal. apply (removelast_last (x :: m) b). Qed.
Lemma wrapped_eq c d m : negb (starts_with c (c :: m ++ [d])) || negb (ends_with d (c :: m ++ [d])) = false.
Proof. cbn [starts_with]. rewrite N.eqb_refl. unfold ends_with. change (c :: m ++ [d]) with ((c :: m) ++ [d]). rewrite rev_app_distr. cbn [rev app starts_with]. now rewrite N.eqb_refl. Qed.
Lemma parse_args_wrapped U b : parse_args U (40 :: b ++ [41]) = scan_args U 0 [] (trim U b).
Proof. unfold parse_args. rewrite wrapped_eq, strip_wrapped. reflexivity. Qed.

(* ---------------- one step of the parser ---------------- *)
Lemma go_plain U D f s n : named U s n [] -> parse_go U D (S f) s = or_err (lookup n plain_table).
Proof. intros H. apply named_iff in H as (r & E & N & T). cbn [parse_go]. rewrite E, <- T. destruct n; [congruence|reflexivity]. Qed.
Lemma go_applied U D f s n body : applied U s n body -> parse_go U D (S f) s =
  (args <- scan_args U 0 [] body ;; match lookup n head_table with None => Err ETypeParse | Some h => apply_head U D (parse_go U D f) h args end).
Proof.
  intros (b & H & ->). apply named_iff in H as (r & E & N & T). cbn [parse_go]. rewrite E, <- T. destruct n; [congruence|]. now rewrite parse_args_wrapped.
Qed.
(** Either one of the two forms, or a parse error. *)
Lemma go_cases U D f s :
  (exists n, named U s n []) \/ (exists n body, applied U s n body) \/ parse_go U D (S f) s = Err ETypeParse.
Proof.
  cbn [parse_go]. destruct (eat_identifier U true s) as [n r] eqn:E. destruct n as [|c n]; [auto|].
  destruct (trim U r) as [|x t] eqn:T.
  - left. exists (c :: n). apply named_iff. exists r. repeat split; [exact E|discriminate|auto].
  - destruct (negb (starts_with 40 (x :: t)) || negb (ends_with 41 (x :: t))) eqn:W.
    + right; right. unfold parse_args. rewrite W. reflexivity.
    + right; left. apply wrapped_spec in W as (m & W); [|discriminate]. exists (c :: n), (trim U m). exists m. split; [|reflexivity].
      apply named_iff. exists r. repeat split; [exact E|discriminate|]. now rewrite T, W.
Qed.
Lemma applied_fun U s n b n' b' : applied U s n b -> applied U s n' b' -> n = n' /\ b = b'.
Proof.
  intros (x & H & ->) (y & H' & ->). apply named_iff in H as (r & E & _ & T), H' as (r' & E' & _ & T'). rewrite E in E'. injection E' as <- <-.
  split; [reflexivity|]. assert (EQ : 40 :: x ++ [41] = 40 :: y ++ [41]) by congruence. injection EQ as EQ. apply app_inj_tail in EQ as (-> & _). reflexivity.
Qed.
Lemma named_applied U s n n' b : named U s n [] -> applied U s n' b -> False.
Proof. intros H (y & H' & ->). apply named_iff in H as (r & E & _ & T), H' as (r' & E' & _ & T'). congruence. Qed.

Lemma lookup_in {A} k (l : list (text * A)) a : lookup k l = Some a -> In (k, a) l.
Proof. induction l as [|[k' a'] l IH]; cbn [lookup]; [discriminate|]. destruct (text_eqb k k') eqn:E; [intros [= ->]; apply text_eqb_eq in E as ->; now left|]. right; auto. Qed.
Lemma head_inv n h : lookup n head_table = Some h -> n = txt (head_name h).
Proof. intros H. apply lookup_in in H. cbn [head_table In] in H. repeat (destruct H as [H|H]; [injection H as <- <-; reflexivity|]). destruct H. Qed.
Lemma plain_inv n t : lookup n plain_table = Some t <-> exists m, n = txt m /\ plain_name m t.
Proof.
  split.
  - intros H. apply lookup_in in H. cbn [plain_table In] in H. repeat (destruct H as [H|H]; [injection H as <- <-; eexists; split; [reflexivity|constructor]|]). destruct H.
  - intros (m & -> & P). destruct P; vm_compute; reflexivity.
Qed.

(* ---------------- leaves of the grammar ---------------- *)
Lemma split_once_ok c a b : ~ In c a -> split_once c (a ++ c :: b) = Some (a, b).
Proof.
  induction a as [|x a IH]; intros H; cbn [app split_once]; [now rewrite N.eqb_refl|].
  destruct (N.eqb_spec x c) as [->|N]; [exfalso; apply H; now left|]. rewrite IH; [reflexivity|]. intros I. apply H. now right.
Qed.
Lemma split_once_inv c : forall s a b, split_once c s = Some (a, b) -> s = a ++ c :: b /\ ~ In c a.
Proof.
  induction s as [|x s IH]; intros a b; cbn [split_once]; [discriminate|].
  destruct (N.eqb_spec x c) as [->|N]; [intros [= <- <-]; split; [reflexivity|intros []]|].
  destruct (split_once c s) as [[a' b']|] eqn:E; [|discriminate]. intros [= <- <-]. destruct (IH _ _ eq_refl) as (-> & H). split; [reflexivity|]. intros [<-|I]; auto.
Qed.
(** A quoted text: [' m '], or the single character ['] on which the code panics. *)
Lemma quoted_cases s : negb (starts_with 39 s) || negb (ends_with 39 s) = false -> s = [39] \/ exists m, s = 39 :: m ++ [39].
Proof.
  intros H. apply orb_false_elim in H as (H1 & H2). apply negb_false_iff in H1, H2. destruct s as [|x s]; [discriminate|]. cbn [starts_with] in H1. apply N.eqb_eq in H1 as ->.
  apply ends_with_spec in H2 as (p & H2). destruct p as [|y p]; [injection H2 as ->; now left|]. injection H2 as <- ->. right. now exists p.
Qed.
Lemma usize_text a x : parse_usize a = Some x -> unsigned_text a x.
Proof. apply parse_usize_iff. Qed.
Lemma int_text b a x : parse_int b a = Some x -> signed_text b a x.
Proof. apply parse_int_iff. Qed.
#[local] Hint Resolve usize_text int_text : core.
Lemma variant_cases U bits a :
  (exists e, variant U bits a e /\ parse_enum_variant U bits a = Ok e) \/
  (lone_quote U a /\ parse_enum_variant U bits a = Panic) \/ (exists er, parse_enum_variant U bits a = Err er).
Proof.
  unfold parse_enum_variant. destruct (split_once 61 a) as [[v x]|] eqn:E; cbn [or_err rbind]; [|right; right; eauto].
  apply split_once_inv in E as (-> & NI). destruct (negb (starts_with 39 (trim U v)) || negb (ends_with 39 (trim U v))) eqn:Q; [right; right; eauto|].
  destruct (quoted_cases _ Q) as [Q'|(m & Q')]; rewrite Q'.
  - right; left. split; [exists v, x; auto|reflexivity].
  - rewrite strip_wrapped. cbn [rbind]. destruct (parse_int bits (trim U x)) as [z|] eqn:P; cbn [or_err rbind]; [|right; right; eauto].
    left. exists (trim U m, z). split; [|reflexivity]. exists v, m, x. cbn [fst snd]. auto 8.
Qed.
Lemma variant_ok U bits a e : variant U bits a e -> parse_enum_variant U bits a = Ok e.
Proof.
  intros (v & n & x & -> & NI & Q & F & P). apply parse_int_iff in P. unfold parse_enum_variant. rewrite split_once_ok by exact NI. cbn [or_err rbind].
  rewrite Q, wrapped_eq, strip_wrapped. cbn [rbind]. rewrite P. cbn [or_err rbind]. rewrite <- F. now destruct e.
Qed.
Lemma lone_panics U bits a : lone_quote U a -> parse_enum_variant U bits a = Panic.
Proof.
  intros (v & x & -> & NI & Q). unfold parse_enum_variant. rewrite split_once_ok by exact NI. cbn [or_err rbind]. rewrite Q. reflexivity.
Qed.
Lemma tz_cases D s :
  (exists n z, s = 39 :: n ++ [39] /\ tz_parse D n = Some z /\ parse_tz D s = Ok z) \/ (s = [39] /\ parse_tz D s = Panic) \/ (exists er, parse_tz D s = Err er).
Proof.
  unfold parse_tz. destruct (negb _ || negb _) eqn:Q; [right; right; eauto|]. destruct (quoted_cases _ Q) as [->|(m & ->)]; [right; left; auto|].
  rewrite strip_wrapped. cbn [rbind]. destruct (tz_parse D m) as [z|] eqn:P; [left; exists m, z; auto|right; right; cbn; eauto].
Qed.
Lemma tz_ok D n z : tz_parse D n = Some z -> parse_tz D (39 :: n ++ [39]) = Ok z.
Proof. intros H. unfold parse_tz. rewrite wrapped_eq, strip_wrapped. cbn [rbind]. now rewrite H. Qed.

(* ---------------- lists of arguments ---------------- *)
Lemma mapM_iff {A B} (f : A -> res B) (R : A -> B -> Prop) : forall l m, (forall a b, In a l -> f a = Ok b <-> R a b) -> (mapM f l = Ok m <-> Forall2 R l m).
Proof.
  induction l as [|a l IH]; intros m H; cbn [mapM].
  - split; [intros [= <-]; constructor|]. intros F. inversion F. reflexivity.
  - split.
    + intros E. inv_bind E. inv_bind E. injection E as <-. constructor; [apply H; [now left|assumption]|]. apply IH; [|assumption]. intros; apply H; now right.
    + intros F. inversion F as [|? b ? m' Ha Fl]; subst. apply H in Ha; [|now left]. rewrite Ha. cbn [rbind].
      apply IH in Fl; [|intros; apply H; now right]. now rewrite Fl.
Qed.
Lemma mapM_panic {A B} (f : A -> res B) (R : A -> B -> Prop) (P : A -> Prop) : forall l,
  (forall a b, In a l -> f a = Ok b <-> R a b) -> (forall a, In a l -> f a = Panic <-> P a) ->
  (mapM f l = Panic <-> exists before a after bs, l = before ++ a :: after /\ Forall2 R before bs /\ P a).
Proof.
  induction l as [|a l IH]; intros H HP; cbn [mapM].
  - split; [discriminate|]. intros (b & x & c & bs & E & _). destruct b; discriminate.
  - assert (IH' := IH (fun x b I => H x b (or_intror I)) (fun x I => HP x (or_intror I))). clear IH. split.
    + intros E. destruct (f a) as [b| |] eqn:Ea; cbn [rbind] in E; [|discriminate|].
      * destruct (mapM f l) eqn:El; cbn [rbind] in E; try discriminate. destruct (proj1 IH' eq_refl) as (bf & x & af & bs & -> & F & Px).
        exists (a :: bf), x, af, (b :: bs). split; [reflexivity|]. split; [|exact Px]. constructor; [apply H; [now left|exact Ea]|exact F].
      * exists [], a, l, []. split; [reflexivity|]. split; [constructor|]. apply HP; [now left|exact Ea].
    + intros (bf & x & af & bs & E & F & Px). destruct bf as [|y bf].
      * injection E as <- <-. apply HP in Px; [|now left]. now rewrite Px.
      * injection E as <- ->. inversion F as [|? b ? bs' Ha Fl]; subst. apply H in Ha; [|now left]. rewrite Ha. cbn [rbind].
        rewrite (proj2 IH'); [reflexivity|]. exists bf, x, af, bs'. auto.
Qed.
Lemma args_trimmed U body args a : arguments U body args -> In a args -> trim U a = a.
Proof.
  intros (ps & l & _ & _ & _ & ->) I. apply in_app_iff in I as [I|I].
  - apply in_map_iff in I as (x & <- & _). apply trim_id, trim_edges.
  - destruct l; [destruct I|]. destruct I as [<-|[]]. apply trim_id, trim_edges.
Qed.
Lemma args_shorter U s n body args a : applied U s n body -> arguments U body args -> In a args -> (List.length a < List.length s)%nat.
Proof.
  intros (b & H & ->) A I. apply scan_complete in A. rewrite <- parse_args_wrapped in A. apply parse_args_props in A.
  apply (proj1 (Forall_forall _ _) A) in I as (_ & _ & L). apply named_iff in H as (r & E & N & T).
  apply eat_split in E. subst s. rewrite app_length. pose proof (trim_length U r) as TL. rewrite <- T in TL. lia.
Qed.
Lemma mapM_ext_in {A B} (f g : A -> res B) l : (forall a, In a l -> f a = g a) -> mapM f l = mapM g l.
Proof. induction l as [|a l IH]; intros H; [reflexivity|]. cbn [mapM]. rewrite H by (now left). rewrite IH; [reflexivity|]. intros; apply H; now right. Qed.

(* ---------------- the two theorems ---------------- *)
Lemma usize_cases a : (exists x, parse_usize a = Some x /\ or_err (parse_usize a) = Ok x) \/ or_err (parse_usize a) = Err ETypeParse.
Proof. destruct (parse_usize a) as [x|]; [left; exists x; auto|now right]. Qed.
Lemma rmap_ok_iff {A B} (f : A -> B) r b : rmap f r = Ok b <-> exists a, r = Ok a /\ b = f a.
Proof. destruct r; cbn; split; try discriminate; [intros [= <-]; eauto|intros (x & [= <-] & ->); reflexivity|intros (x & X & _); discriminate|intros (x & X & _); discriminate]. Qed.
Lemma rmap_panic_iff {A B} (f : A -> B) r : rmap f r = Panic <-> r = Panic.
Proof. destruct r; cbn; split; congruence. Qed.
Lemma one_arg_cases args : (exists a, args = [a]) \/ one_arg args = Err ETypeParse.
Proof. destruct args as [|a [|b l]]; cbn; eauto. Qed.

Section Step.
  Context (U : unicode) (D : tzdb) (rec : text -> res ty) (s body : text) (args : list text).
  Hypothesis (HA : arguments U body args)
    (HR : forall a t, In a args -> (rec a = Ok t <-> reads U D a t))
    (HP : forall a, In a args -> (rec a = Panic <-> panics U D a)).

  Lemma rec_trim : mapM (fun a => rec (trim U a)) args = mapM rec args.
  Proof. apply mapM_ext_in. intros a I. now rewrite (args_trimmed U body args a HA I). Qed.
  Lemma enum_trim b : mapM (fun a => parse_enum_variant U b (trim U a)) args = mapM (parse_enum_variant U b) args.
  Proof. apply mapM_ext_in. intros a I. now rewrite (args_trimmed U body args a HA I). Qed.
  Lemma enum_ok b items : mapM (parse_enum_variant U b) args = Ok items <-> Forall2 (variant U b) args items.
  Proof.
    apply mapM_iff. intros a e _. split; [|apply variant_ok]. intros E. destruct (variant_cases U b a) as [(e' & V & E')|[(_ & E')|(er & E')]]; try congruence.
  Qed.
  Lemma enum_panic b : mapM (parse_enum_variant U b) args = Panic <->
    exists before a after items, args = before ++ a :: after /\ Forall2 (variant U b) before items /\ lone_quote U a.
  Proof.
    apply mapM_panic.
    - intros a e _. split; [|apply variant_ok]. intros E. destruct (variant_cases U b a) as [(e' & V & E')|[(_ & E')|(er & E')]]; try congruence.
    - intros a _. split; [|apply lone_panics]. intros E. destruct (variant_cases U b a) as [(e' & V & E')|[(L & E')|(er & E')]]; try congruence.
  Qed.

  Lemma head_ok h t : applied U s (txt (head_name h)) body -> apply_head U D rec h args = Ok t -> reads U D s t.
  Proof.
    intros HS E.
    assert (SC : forall n mk, applied U s (txt n) body -> scaled n mk -> rmap mk (scale args) = Ok t -> reads U D s t).
    { intros n mk HS' S' E'. apply rmap_ok_iff in E' as (x & E' & ->). unfold scale in E'. inv_bind E'. apply one_arg_ok in E0 as ->. apply or_err_ok in E'.
      eapply rd_scaled; eauto. }
    assert (WR : forall n mk, applied U s (txt n) body -> wraps n mk -> (a <- one_arg args ;; rmap mk (rec a)) = Ok t -> reads U D s t).
    { intros n mk HS' S' E'. inv_bind E'. apply one_arg_ok in E0. apply rmap_ok_iff in E' as (x & E' & ->). eapply rd_wrap; eauto; [rewrite E0 in HA; exact HA|]. apply HR; [rewrite E0; now left|exact E']. }
    assert (EN : forall n b mk, applied U s (txt n) body -> enums n b mk -> rmap mk (mapM (fun a => parse_enum_variant U b (trim U a)) args) = Ok t -> reads U D s t).
    { intros n b mk HS' S' E'. rewrite enum_trim in E'. apply rmap_ok_iff in E' as (x & E' & ->). eapply rd_enum; eauto. now apply enum_ok. }
    destruct h; cbn [apply_head head_name] in *;
      try (eapply SC; [exact HS|constructor|exact E]); try (eapply WR; [exact HS|constructor|exact E]); try (eapply EN; [exact HS|constructor|exact E]).
    - destruct args as [|a [|b [|]]]; try discriminate E. inv_bind E. inv_bind E. apply or_err_ok in E0, E1.
      eapply rd_decimal; eauto. destruct (N.leb_spec a0 9); [injection E as <-; constructor; lia|]. destruct (N.leb_spec a0 18); [injection E as <-; constructor; lia|].
      destruct (N.leb_spec a0 38); [injection E as <-; constructor; lia|]. destruct (N.leb_spec a0 76); [injection E as <-; constructor; lia|discriminate].
    - inv_bind E. apply one_arg_ok in E0. rewrite E0 in HA. apply rmap_ok_iff in E as (z & E & ->).
      destruct (tz_cases D a) as [(n & z' & -> & TZ & E')|[(_ & E')|(er & E')]]; try congruence. assert (z' = z) by congruence. subst z'. eapply rd_datetime; eauto.
    - destruct args as [|a [|b [|]]]; try discriminate E.
      + inv_bind E. injection E as <-. apply or_err_ok in E0. eapply rd_datetime64_utc; eauto.
      + destruct (negb _ || negb _); [discriminate|]. inv_bind E. inv_bind E. injection E as <-. apply or_err_ok in E0.
        destruct (tz_cases D b) as [(n & z' & -> & TZ & E')|[(_ & E')|(er & E')]]; try congruence. assert (z' = a1) by congruence. subst z'. eapply rd_datetime64; eauto.
    - rewrite rec_trim in E. apply rmap_ok_iff in E as (x & E & ->). eapply rd_tuple; eauto. apply (mapM_iff rec (reads U D) args x HR). exact E.
    - destruct args as [|a [|b [|]]]; try discriminate E. inv_bind E. inv_bind E. injection E as <-. eapply rd_map; eauto; apply HR; auto; [now left|right; now left].
  Qed.

  Lemma head_panic h : applied U s (txt (head_name h)) body -> apply_head U D rec h args = Panic -> panics U D s.
  Proof.
    intros HS E.
    assert (SC : scale args = Panic -> False).
    { unfold scale. destruct (one_arg_cases args) as [(a & ->)| ->]; cbn [one_arg rbind]; [|discriminate]. destruct (usize_cases a) as [(x & _ & ->)| ->]; discriminate. }
    assert (WR : forall n mk, applied U s (txt n) body -> wraps n mk -> (a <- one_arg args ;; rmap mk (rec a)) = Panic -> panics U D s).
    { intros n mk HS' S' E'. destruct (one_arg_cases args) as [(a & EA)|X]; [|rewrite X in E'; discriminate]. rewrite EA in E'. cbn [one_arg rbind] in E'. apply rmap_panic_iff in E'.
      eapply px_wrap; eauto; [rewrite EA in HA; exact HA|]. apply HP; [rewrite EA; now left|exact E']. }
    assert (EN : forall n b mk, applied U s (txt n) body -> enums n b mk -> rmap mk (mapM (fun a => parse_enum_variant U b (trim U a)) args) = Panic -> panics U D s).
    { intros n b mk HS' S' E'. rewrite enum_trim in E'. apply rmap_panic_iff in E'. apply enum_panic in E' as (bf & a & af & items & EA & F & L).
      eapply px_enum; eauto. rewrite EA in HA. exact HA. }
    destruct h; cbn [apply_head head_name] in *;
      try (apply rmap_panic_iff in E; now apply SC in E); try (eapply WR; [exact HS|constructor|exact E]); try (eapply EN; [exact HS|constructor|exact E]).
    - destruct args as [|a [|b [|]]]; try discriminate E. destruct (usize_cases a) as [(x & _ & X)|X]; rewrite X in E; [|discriminate]. cbn [rbind] in E.
      destruct (usize_cases b) as [(y & _ & Y)|Y]; rewrite Y in E; [|discriminate]. cbn [rbind] in E. repeat (destruct (_ <=? _); [discriminate|]). discriminate.
    - destruct (one_arg_cases args) as [(a & EA)|X]; [|rewrite X in E; discriminate]. rewrite EA in E. cbn [one_arg rbind] in E. apply rmap_panic_iff in E.
      destruct (tz_cases D a) as [(n & z' & -> & TZ & E')|[(-> & E')|(er & E')]]; try congruence. eapply px_zone; eauto. rewrite EA in HA. exact HA.
    - destruct args as [|a [|b [|]]]; try discriminate E.
      + destruct (usize_cases a) as [(x & _ & X)|X]; rewrite X in E; discriminate.
      + destruct (negb _ || negb _); [discriminate|]. destruct (usize_cases a) as [(x & PX & X)|X]; rewrite X in E; [|discriminate]. cbn [rbind] in E.
        destruct (tz_cases D b) as [(n & z' & -> & TZ & E')|[(-> & E')|(er & E')]]; rewrite E' in E; try discriminate. eapply px_zone64; eauto.
    - rewrite rec_trim in E. apply rmap_panic_iff in E. apply (mapM_panic rec (reads U D) (panics U D) args HR HP) in E as (bf & a & af & ts & EA & F & L).
      eapply px_tuple; eauto. rewrite EA in HA. exact HA.
    - destruct args as [|a [|b [|]]]; try discriminate E. destruct (rec a) as [k| |] eqn:Ea; cbn [rbind] in E; [|discriminate|].
      + destruct (rec b) eqn:Eb; try discriminate E. eapply px_map_value; eauto; [apply HR; [now left|exact Ea]|apply HP; [right; now left|exact Eb]].
      + eapply px_map_key; eauto. apply HP; [now left|exact Ea].
  Qed.
End Step.

Lemma grammar_go U D : forall f s, (List.length s < f)%nat ->
  (forall t, parse_go U D f s = Ok t <-> reads U D s t) /\ (parse_go U D f s = Panic <-> panics U D s).
Proof.
  induction f as [|f IH]; intros s L; [lia|].
  assert (ARGS : forall n body args, applied U s n body -> arguments U body args ->
    (forall a t, In a args -> (parse_go U D f a = Ok t <-> reads U D a t)) /\ (forall a, In a args -> (parse_go U D f a = Panic <-> panics U D a))).
  { intros n body args A G. split; [intros a t I|intros a I]; pose proof (args_shorter U s n body args a A G I); apply IH; lia. }
  assert (SND : (forall t, parse_go U D (S f) s = Ok t -> reads U D s t) /\ (parse_go U D (S f) s = Panic -> panics U D s)).
  { destruct (go_cases U D f s) as [(n & H)|[(n & body & H)|H]].
    - rewrite (go_plain U D f s n H). destruct (lookup n plain_table) as [t|] eqn:E; cbn [or_err]; split; try discriminate. intros t' [= <-].
      apply plain_inv in E as (m & -> & P). eapply rd_plain; eauto.
    - rewrite (go_applied U D f s n body H). destruct (scan_args U 0 [] body) as [args| |] eqn:E; cbn [rbind].
      + apply scan_ok_iff in E. destruct (lookup n head_table) as [h|] eqn:EH; [|split; discriminate]. apply head_inv in EH as ->.
        destruct (ARGS _ _ _ H E) as (A1 & A2). split; [intros t Et|intros Et].
        * eapply (head_ok U D (parse_go U D f) s body args E A1); eauto.
        * eapply (head_panic U D (parse_go U D f) s body args E A1 A2); eauto.
      + split; discriminate.
      + split; [discriminate|]. intros _. apply scan_panic_iff in E. eapply px_paren; eauto.
    - rewrite H. split; discriminate. }
  assert (STEP : forall h body args, applied U s (txt (head_name h)) body -> arguments U body args ->
    parse_go U D (S f) s = apply_head U D (parse_go U D f) h args).
  { intros h body args A G. rewrite (go_applied U D f s _ body A), (proj2 (scan_ok_iff U body args) G). cbn [rbind]. now rewrite lookup_head. }
  split; [intros t|]; (split; [apply SND|]); intros H.
  - destruct H as [s n t N P|s n mk body a x A S G X|s body a b p x t A G P X DE|s body n z A G Z|s body a p n z A G P Z|s body a p A G P
      |s nm bits mk body args items A S G F|s n mk body a t A W G R|s body args ts A G F|s body a b k v A G R1 R2].
    + rewrite (go_plain U D f s _ N). now rewrite (proj2 (plain_inv (txt n) t) (ex_intro _ n (conj eq_refl P))).
    + assert (Y : forall h, txt (head_name h) = txt n -> apply_head U D (parse_go U D f) h [a] = Ok (mk x) -> parse_go U D (Datatypes.S f) s = Ok (mk x)).
      { intros h Hh Ha. rewrite <- Hh in A. rewrite (STEP h body [a] A G). exact Ha. }
      destruct S; [apply (Y HDecimal32)|apply (Y HDecimal64)|apply (Y HDecimal128)|apply (Y HDecimal256)|apply (Y HFixedString)]; try reflexivity;
        cbn [apply_head]; unfold scale; cbn [one_arg rbind]; apply parse_usize_iff in X; rewrite X; reflexivity.
    + rewrite (STEP HDecimal body [a; b] A G). cbn [apply_head]. apply parse_usize_iff in P, X. rewrite P, X. cbn [or_err rbind].
      destruct DE; destruct (N.leb_spec p 9), (N.leb_spec p 18), (N.leb_spec p 38), (N.leb_spec p 76); try lia; reflexivity.
    + rewrite (STEP HDateTime body _ A G). cbn [apply_head one_arg rbind]. rewrite (tz_ok D n z Z). reflexivity.
    + rewrite (STEP HDateTime64 body _ A G). cbn [apply_head]. apply parse_usize_iff in P. rewrite wrapped_eq, P, (tz_ok D n z Z). reflexivity.
    + rewrite (STEP HDateTime64 body _ A G). cbn [apply_head]. apply parse_usize_iff in P. rewrite P. reflexivity.
    + destruct S.
      * rewrite (STEP HEnum8 body _ A G). cbn [apply_head]. rewrite (enum_trim U body args G), (proj2 (enum_ok U args 8 items) F). reflexivity.
      * rewrite (STEP HEnum16 body _ A G). cbn [apply_head]. rewrite (enum_trim U body args G), (proj2 (enum_ok U args 16 items) F). reflexivity.
    + destruct (ARGS _ _ _ A G) as (A1 & _). apply (A1 a t (or_introl eq_refl)) in R.
      destruct W; [rewrite (STEP HLowCard body _ A G)|rewrite (STEP HArray body _ A G)|rewrite (STEP HNullable body _ A G)]; cbn [apply_head one_arg rbind]; now rewrite R.
    + destruct (ARGS _ _ _ A G) as (A1 & _). rewrite (STEP HTuple body _ A G). cbn [apply_head]. rewrite (rec_trim U _ body args G).
      rewrite (proj2 (mapM_iff _ (reads U D) args ts A1) F). reflexivity.
    + destruct (ARGS _ _ _ A G) as (A1 & _). rewrite (STEP HMap body _ A G). cbn [apply_head].
      apply (A1 a k (or_introl eq_refl)) in R1. apply (A1 b v (or_intror (or_introl eq_refl))) in R2. now rewrite R1, R2.
  - destruct H as [s n body A O|s body A G|s body a p A G P|s nm bits mk body bf a af items A S G F Q|s n mk body a A W G R|s body bf a af ts A G F R|s body a b A G R|s body a b k A G R1 R].
    + rewrite (go_applied U D f s n body A). rewrite (proj2 (scan_panic_iff U body) O). reflexivity.
    + rewrite (STEP HDateTime body _ A G). reflexivity.
    + rewrite (STEP HDateTime64 body _ A G). cbn [apply_head]. apply parse_usize_iff in P. rewrite P. reflexivity.
    + destruct S.
      * rewrite (STEP HEnum8 body _ A G). cbn [apply_head]. rewrite (enum_trim U body _ G). apply rmap_panic_iff, enum_panic. exists bf, a, af, items. auto.
      * rewrite (STEP HEnum16 body _ A G). cbn [apply_head]. rewrite (enum_trim U body _ G). apply rmap_panic_iff, enum_panic. exists bf, a, af, items. auto.
    + destruct (ARGS _ _ _ A G) as (_ & A2). apply (A2 a (or_introl eq_refl)) in R.
      destruct W; [rewrite (STEP HLowCard body _ A G)|rewrite (STEP HArray body _ A G)|rewrite (STEP HNullable body _ A G)]; cbn [apply_head one_arg rbind]; now rewrite R.
    + destruct (ARGS _ _ _ A G) as (A1 & A2). rewrite (STEP HTuple body _ A G). cbn [apply_head]. rewrite (rec_trim U _ body _ G). apply rmap_panic_iff.
      apply (mapM_panic _ (reads U D) (panics U D) _ A1 A2). exists bf, a, af, ts. auto.
    + destruct (ARGS _ _ _ A G) as (_ & A2). rewrite (STEP HMap body _ A G). cbn [apply_head]. apply (A2 a (or_introl eq_refl)) in R. now rewrite R.
    + destruct (ARGS _ _ _ A G) as (A1 & A2). rewrite (STEP HMap body _ A G). cbn [apply_head].
      apply (A1 a k (or_introl eq_refl)) in R1. apply (A2 b (or_intror (or_introl eq_refl))) in R. now rewrite R1, R.
Qed.
