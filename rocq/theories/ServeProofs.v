(** Proofs about sessions with a server that answers in turn. *)
From Coq Require Import Lia.
From Verif Require Import Base Types Text TypeText TypeTextProofs Block BlockSpec Progress Protocol ProtocolSpec ProtocolProofs Connection ConnectionSpec ConnectionProofs
  ReaderLoop ReaderLoopProofs Session SessionSpec SessionProofs Api ApiProofs StoreSpec StoreProofs ServeSpec.
Local Open Scope list_scope.
Local Open Scope N_scope.

(* ---------------- the bytes of a reply ---------------- *)

Definition items_of (ps : list packet) : list item :=
  flat_map (fun p => match p with PData _ b => [IBlock b] | PException e => [IError e] | _ => [] end) ps.
Lemma items_app a b : items_of (a ++ b) = items_of a ++ items_of b.
Proof. apply flat_map_app. Qed.
Definition group (ps : list packet) : Prop := exists body e, ps = body ++ [e] /\ Forall (fun p => ends p = false) body /\ ends e = true.
Lemma group_cons p ps : ends p = false -> group ps -> group (p :: ps).
Proof. intros E (body & e & -> & F & X). exists (p :: body), e. split; [reflexivity|]. split; [constructor; assumption|exact X]. Qed.
Definition failure_item {T} (f : option server_exception) : list (res T) := match f with Some _ => [Err EServerException] | None => [] end.
Lemma query_app {T} (de : list (text * ty * value) -> res T) a b : query de (a ++ b) = query de a ++ query de b.
Proof. apply flat_map_app. Qed.

Lemma decodes_app C a ps rest qs left : decodes C a ps rest -> decodes C rest qs left -> decodes C a (ps ++ qs) left.
Proof. induction 1 as [|bs p r ps l H _ IH]; intros D; [exact D|]. cbn [app]. econstructor; [exact H|now apply IH]. Qed.

Lemma reply_read C table failure bs : tzdb_ok (c_tz C) -> reply_wire C table failure bs ->
  exists ps, group ps /\ (forall more, decodes C (bs ++ more) ps more) /\
    forall T (de : list (text * ty * value) -> res T), query de (items_of ps) = map de (map unwrapped table) ++ failure_item failure.
Proof.
  intros D. induction 1 as [|e E|t name body table f bs NF (info & rows & cols & H & ->) _ (ps & G & R & Q)
    |id t name body table f bs I NF (info & rows & cols & H & ->) _ (ps & G & R & Q)|p table f bs A K _ (ps & G & R & Q)].
  - exists [PEndOfStream]. split; [exists [], PEndOfStream; repeat split; constructor|]. split; [|intros; reflexivity].
    intros more. econstructor; [apply dec_packet; [exact Logic.I|exact Logic.I]|constructor].
  - exists [PException e]. split; [exists [], (PException e); repeat split; constructor|]. split; [|intros; reflexivity].
    intros more. econstructor; [apply dec_packet; [exact E|exact Logic.I]|constructor].
  - exists (PData name (block_of info rows cols) :: ps). split; [now apply group_cons|]. split.
    + intros more. rewrite <- app_assoc. econstructor; [|apply R].
      pose proof (dec_data C name body (block_of info rows cols) (bs ++ more) 1 NF (holds_read C _ _ _ _ D H) (or_introl eq_refl)) as DE.
      exact DE.
    + intros T de. change (items_of (PData name (block_of info rows cols) :: ps)) with ([IBlock (block_of info rows cols)] ++ items_of ps).
      rewrite query_app, Q, map_app, map_app, <- app_assoc. f_equal.
      unfold query. cbn [flat_map]. rewrite app_nil_r.
      rewrite (item_rows_spec de _ (block_of_proper C info rows cols body H)), (block_of_rows C info rows cols body H). reflexivity.
  - exists ((if id =? 1 then PData name (block_of info rows cols) else if id =? 7 then PTotals name (block_of info rows cols) else PExtremes name (block_of info rows cols)) :: ps).
    assert (J : In id [1; 7; 8]) by (now right).
    split; [|split].
    + apply group_cons; [|exact G]. destruct I as [<-|[<-|[]]]; reflexivity.
    + intros more. rewrite <- app_assoc. econstructor; [|apply R]. apply dec_data; [exact NF|exact (holds_read C _ _ _ _ D H)|exact J].
    + intros T de. destruct I as [<-|[<-|[]]]; apply Q.
  - exists (p :: ps). split; [apply group_cons; [now destruct p|exact G]|]. split.
    + intros more. rewrite <- app_assoc. econstructor; [apply dec_packet; [exact K|now destruct p]|apply R].
    + intros T de. rewrite (items_app [p] ps : items_of (p :: ps) = _). replace (items_of [p]) with (@nil item) by (now destruct p). apply Q.
Qed.

Lemma replies_groups C (rs : list reply) bss : tzdb_ok (c_tz C) -> Forall2 (fun r bs => reply_wire C (fst r) (snd r) bs) rs bss ->
  exists pss, Forall group pss /\ length pss = length bss /\
    (forall n more, decodes C (concat (firstn n bss) ++ more) (concat (firstn n pss)) more) /\
    Forall2 (fun r ps => forall T (de : list (text * ty * value) -> res T), query de (items_of ps) = map de (map unwrapped (fst r)) ++ failure_item (snd r)) rs pss.
Proof.
  intros D. induction 1 as [|r bs rs bss H _ (pss & G & L & R & Q)].
  - exists []. split; [constructor|]. split; [reflexivity|]. split; [|constructor]. intros [|n] more; constructor.
  - destruct (reply_read C _ _ _ D H) as (ps & G0 & R0 & Q0). exists (ps :: pss). split; [now constructor|]. split; [cbn; congruence|].
    split; [|constructor; assumption]. intros [|n] more; [constructor|]. cbn [firstn concat]. rewrite <- app_assoc. eapply decodes_app; [apply R0|apply R].
Qed.

(* ---------------- the history ---------------- *)

Definition paced (cur : list packet) (pss : list (list packet)) (log : list entry) : Prop :=
  forall pre p post, log = pre ++ LRecv p :: post ->
  exists more, incoming pre ++ p :: more = cur ++ concat (firstn (length (sent_queries pre)) pss).

Definition sub_answer (ps : list packet) (items : list item) (finished : bool) : Prop :=
  exists used left, ps = used ++ left /\ items = items_of used /\ (finished = true -> left = [] /\ used <> []).

Lemma sub_cons p ps items fin : ends p = false -> sub_answer ps items fin -> sub_answer (p :: ps) (items_of [p] ++ items) fin.
Proof.
  intros E (used & left & -> & -> & F). exists (p :: used), left. split; [reflexivity|]. split; [symmetry; apply (items_app [p] used)|].
  intros K. destruct (F K). split; [assumption|discriminate].
Qed.

Lemma paced_answers log : forall busy k cur pss,
  one_at_a_time busy log -> (exists n, map fst (sent_queries log) = seq k n) ->
  (if busy then cur = [] \/ group cur else cur = []) -> Forall group pss -> paced cur pss log ->
  (busy = true -> sub_answer cur (answer_here log) (ended_here log)) /\
  (forall q, (k <= q)%nat -> sub_answer (nth (q - k) pss []) (answer q log) (ended q log)).
Proof.
  induction log as [|e log IH]; intros busy k cur pss OAT [n NUM] CUR GS P.
  - split; [intros _; exists [], cur; repeat split; discriminate|]. intros q _. exists [], (nth (q - k) pss []). repeat split; discriminate.
  - destruct e as [q0 t id|q0 b|p].
    + cbn [one_at_a_time] in OAT. destruct OAT as [-> OAT]. cbn in CUR. subst cur. cbn [sent_queries map fst] in NUM.
      destruct n as [|n]; [discriminate NUM|]. injection NUM as -> NUM.
      assert (P' : paced (hd [] pss) (tl pss) log).
      { intros pre p post E. destruct (P (LQuery k t id :: pre) p post) as [more M]; [cbn [app]; congruence|]. exists more.
        cbn [incoming sent_queries length] in M. rewrite M. destruct pss as [|ps pss]; cbn [firstn concat hd tl app]; [now destruct (length (sent_queries pre))|reflexivity]. }
      assert (G' : Forall group (tl pss)) by (destruct GS; [constructor|assumption]).
      assert (C' : hd [] pss = [] \/ group (hd [] pss)) by (destruct GS; [now left|now right]).
      destruct (IH true (S k) (hd [] pss) (tl pss) OAT (ex_intro _ n NUM) C' G' P') as [A1 A2].
      split; [discriminate|]. intros q Q. cbn [answer ended]. destruct (Nat.eqb_spec k q) as [<-|N].
      * rewrite Nat.sub_diag. replace (nth 0 pss []) with (hd [] pss) by (now destruct pss). now apply A1.
      * assert (Q' : (S k <= q)%nat) by lia. specialize (A2 q Q'). replace (q - k)%nat with (S (q - S k)) by lia.
        destruct pss as [|ps pss]; cbn [nth tl] in *; [|exact A2]. now destruct (q - S k)%nat.
    + assert (P' : paced cur pss log).
      { intros pre p post E. destruct (P (LData q0 b :: pre) p post) as [more M]; [cbn [app]; congruence|]. now exists more. }
      cbn [one_at_a_time sent_queries] in *. cbn [answer answer_here ended ended_here]. apply (IH busy k cur pss OAT (ex_intro _ n NUM) CUR GS P').
    + destruct (P [] p log eq_refl) as [more M]. cbn [incoming sent_queries length firstn concat app] in M. rewrite app_nil_r in M. subst cur.
      assert (P' : paced more pss log).
      { intros pre p' post E. destruct (P (LRecv p :: pre) p' post) as [more' M]; [cbn [app]; congruence|]. exists more'. cbn [incoming sent_queries app] in M. now injection M. }
      cbn [one_at_a_time sent_queries] in *. destruct busy; [|discriminate CUR]. destruct CUR as [CUR|(body & e & E1 & F & X)]; [discriminate CUR|].
      assert (K : if ends p then more = [] else group more).
      { destruct body as [|p' body]; cbn [app] in E1; injection E1 as -> ->; [now rewrite X|]. inversion F; subst. rewrite H1. exists body, e. auto. }
      cbn [answer ended]. destruct (ends p) eqn:EP.
      * subst more. destruct (IH false k [] pss OAT (ex_intro _ n NUM) eq_refl GS P') as [_ A2]. split; [|exact A2].
        intros _. exists [p], []. split; [reflexivity|]. split; [destruct p; try discriminate EP; reflexivity|]. intros _. split; [reflexivity|discriminate].
      * destruct (IH true k more pss OAT (ex_intro _ n NUM) (or_intror K) GS P') as [A1 A2]. split; [|exact A2]. intros _.
        cbn [ended_here]. rewrite EP. replace (answer_here (LRecv p :: log)) with (items_of [p] ++ answer_here log) by (destruct p; try discriminate EP; reflexivity).
        apply sub_cons; [exact EP|now apply A1].
Qed.

(* ---------------- the session ---------------- *)

Lemma read_packet_nothing C p rest : read_packet C [] <> Ok (p, rest).
Proof. unfold read_packet, rdbind. cbn. discriminate. Qed.
Lemma decodes_prefix C bs ps l : decodes C bs ps l -> forall qs, decodes C bs qs [] -> exists more, qs = ps ++ more.
Proof.
  induction 1 as [bs|bs p rest ps left H _ IH]; intros qs D; [now exists qs|]. inversion D as [|bs' p' rest' ps' left' H' D']; subst.
  - elim (read_packet_nothing _ _ _ H).
  - rewrite H in H'. injection H' as <- <-. destruct (IH _ D') as [more ->]. now exists more.
Qed.
Lemma sent_app a b : sent_queries (a ++ b) = sent_queries a ++ sent_queries b.
Proof. induction a as [|[]]; cbn; congruence. Qed.

Lemma zstep_log O B z e z' : zstep O B z e = Some z' -> exists new, k_log (z_conn z') = k_log (z_conn z) ++ new /\ (zarrived [e] = [] \/ new = []).
Proof.
  assert (SOME : forall a b : session, Some a = Some b -> a = b) by congruence.
  assert (L : forall C ev r z1, loop_step C z ev r = Some z1 -> exists new, k_log (z_conn z1) = k_log (z_conn z) ++ new).
  { intros C ev r z1. unfold loop_step. destruct (step C (z_conn z) ev) as [s|] eqn:E; [|discriminate]. intros [= <-]. cbn [z_conn].
    destruct (step_log _ _ _ _ E) as (new & N & _). eauto. }
  assert (L' : forall C ev r z1, loop_step C z ev r = Some z1 -> exists new, k_log (z_conn z1) = k_log (z_conn z) ++ new /\ (@nil N = [] \/ new = [])).
  { intros C ev r z1 H. destruct (L _ _ _ _ H) as [new N]. eauto. }
  assert (S0 : forall s, k_log s = k_log (z_conn z) -> exists new, k_log s = k_log (z_conn z) ++ new /\ (@nil N = [] \/ new = [])).
  { intros s ->. exists []. rewrite app_nil_r. auto. }
  intros H. destruct e; cbn [zstep zarrived] in *.
  - destruct (z_phase z); try discriminate H. apply SOME in H. subst z'. apply S0. now destruct ok.
  - destruct (callers_event ev) eqn:CE; [|discriminate H]. destruct (step B (z_conn z) ev) as [s|] eqn:E; [|discriminate H]. apply SOME in H. subst z'.
    apply S0. exact (proj1 (callers_quiet _ _ _ _ CE E)).
  - apply SOME in H. subst z'. exists []. rewrite app_nil_r. auto.
  - destruct (k_task (z_conn z)); try discriminate H. destruct (z_phase z) as [| |h]; try discriminate H.
    + destruct (receive_hello _ _) as [[h rest]|[]|]; apply SOME in H; subst z'; now apply S0.
    + destruct (read_packet _ _) as [[p rest]|[]|]; try (now apply L' in H). apply SOME in H. subst z'. now apply S0.
  - destruct (z_phase z); try discriminate H. now apply L' in H.
  - destruct (z_phase z); try discriminate H. now apply L' in H.
  - destruct (z_phase z); try discriminate H. now apply L' in H.
  - destruct (z_phase z), (k_task (z_conn z)); try discriminate H; apply SOME in H; subst z'; now apply S0.
Qed.

Lemma in_turn_init O B g bss es e : in_turn O B g bss (es ++ [e]) -> in_turn O B g bss es.
Proof. intros H es1 es2 z -> R. apply (H es1 (es2 ++ [e]) z); [now rewrite app_assoc|exact R]. Qed.

Lemma firstn_plus {A} n k : forall l : list A, firstn (n + k) l = firstn n l ++ firstn k (skipn n l).
Proof. induction n as [|n IH]; intros l; [reflexivity|]. destruct l as [|x l]; cbn [firstn skipn app Nat.add]; [now rewrite firstn_nil|]. f_equal. apply IH. Qed.
Lemma session_news O B g h bss pss es e z0 z new pre p post :
  (forall more, receive_hello (at_revision B 0) (g ++ more) = Ok (h, more)) ->
  (forall n more, decodes (at_revision B (h_revision h)) (concat (firstn n bss) ++ more) (concat (firstn n pss)) more) ->
  zrun O B session_init es = Some z0 -> zrun O B session_init (es ++ [e]) = Some z -> calm O B (es ++ [e]) -> in_turn O B g bss (es ++ [e]) ->
  k_log (z_conn z) = k_log (z_conn z0) ++ new -> zarrived [e] = [] \/ new = [] -> new = pre ++ LRecv p :: post ->
  exists more, incoming (k_log (z_conn z0) ++ pre) ++ p :: more = [] ++ concat (firstn (length (sent_queries (k_log (z_conn z0) ++ pre))) pss).
Proof.
  intros HE DE R0 R K T N Q E. subst new. destruct Q as [Q|Q]; [|now destruct pre].
  pose proof (session_reads _ _ _ _ R K) as J. unfold jinv in J. rewrite zarrived_app, Q, app_nil_r in J.
  pose proof (live_inv _ _ _ (zrun_live _ _ _ _ _ (live_init _ _) R)) as Z. unfold zinv in Z.
  assert (NE : k_log (z_conn z) <> []) by (rewrite N; destruct (k_log (z_conn z0)), pre; discriminate).
  destruct (z_phase z) as [| |h']; [now destruct Z as (_ & Z & _)|now destruct Z as (_ & _ & Z & _)|]. clear Z NE.
  cbv zeta in J. destruct J as (PK & rest0 & left & RH & D & _ & _). rewrite PK in D.
  destruct (T es [e] z0 eq_refl R0) as [later TL].
  pose proof (receive_hello_more (at_revision B 0) (zarrived es) later) as M. rewrite RH, TL, HE in M.
  assert (X : h = h' /\ concat (firstn (length (sent_queries (k_log (z_conn z0)))) bss) = rest0 ++ later) by (split; congruence).
  destruct X as [<- X]. apply (decodes_extend _ _ _ _ later) in D. rewrite <- X in D.
  pose proof (DE (length (sent_queries (k_log (z_conn z0)))) []) as D'. rewrite app_nil_r in D'.
  destruct (decodes_prefix _ _ _ _ D _ D') as [more MO]. rewrite N, !incoming_app in MO. cbn [incoming] in MO.
  rewrite sent_app, app_length, incoming_app. cbn [app].
  set (n := length (sent_queries (k_log (z_conn z0)))) in *. set (k := length (sent_queries pre)).
  exists (incoming post ++ more ++ concat (firstn k (skipn n pss))).
  replace (firstn (n + k) pss) with (firstn n pss ++ firstn k (skipn n pss)).
  - rewrite concat_app, MO, <- !app_assoc. cbn [app]. reflexivity.
  - symmetry. apply firstn_plus.
Qed.

Lemma session_paced O B g h bss pss es : forall z,
  (forall more, receive_hello (at_revision B 0) (g ++ more) = Ok (h, more)) ->
  (forall n more, decodes (at_revision B (h_revision h)) (concat (firstn n bss) ++ more) (concat (firstn n pss)) more) ->
  zrun O B session_init es = Some z -> calm O B es -> in_turn O B g bss es ->
  paced [] pss (k_log (z_conn z)).
Proof.
  induction es as [|e es IH] using rev_ind; intros z HE DE R K T.
  - injection R as <-. intros [|] p post E; discriminate E.
  - assert (R' := R). rewrite zrun_app in R. destruct (zrun O B session_init es) as [z0|] eqn:E0; [|discriminate R]. cbn [zrun] in R.
    destruct (zstep O B z0 e) as [z1|] eqn:ES; [|discriminate R]. injection R as ->.
    specialize (IH z0 HE DE eq_refl (calm_init _ _ _ _ K) (in_turn_init _ _ _ _ _ _ T)).
    destruct (zstep_log _ _ _ _ _ ES) as (new & N & Q). rewrite N. intros pre p post E.
    destruct (app_eq_app _ _ _ _ E) as [l [[E1 E2]|[E1 E2]]].
    + destruct l as [|x l]; cbn [app] in E2.
      * rewrite app_nil_r in E1. subst pre. clear E. rewrite <- (app_nil_r (k_log (z_conn z0))). apply (session_news O B g h bss pss es e z0 z new [] p post); auto.
      * injection E2 as <- E2. apply (IH pre p l). exact E1.
    + subst pre. apply (session_news O B g h bss pss es e z0 z new l p post); auto.
Qed.

(* ---------------- the callers ---------------- *)
Lemma number_seq l : forall n, map fst (number n l) = seq n (length l).
Proof. induction l; intros n; cbn; congruence. Qed.
Lemma seq_prefix n k a b : seq n k = a ++ b -> a = seq n (length a).
Proof.
  revert n k. induction a as [|x a IH]; intros n [|k] E; cbn in *; try discriminate; [reflexivity|reflexivity|]. injection E as <- E. f_equal. exact (IH _ _ E).
Qed.

Theorem session_answers O B g h es z bss pss :
  (forall more, receive_hello (at_revision B 0) (g ++ more) = Ok (h, more)) ->
  (forall n more, decodes (at_revision B (h_revision h)) (concat (firstn n bss) ++ more) (concat (firstn n pss)) more) -> Forall group pss ->
  zrun O B session_init es = Some z -> calm O B es -> in_turn O B g bss es ->
  forall q, sub_answer (nth q pss []) (answer q (k_log (z_conn z))) (ended q (k_log (z_conn z))).
Proof.
  intros HE DE G R K T q. pose proof (session_paced O B g h bss pss es z HE DE R K T) as P.
  pose proof (live_inv _ _ _ (zrun_live _ _ _ _ _ (live_init _ _) R)) as Z. unfold zinv in Z.
  assert (RE : exists C, reachable C (z_conn z)).
  { destruct (z_phase z); [exists B; apply Z|exists B; apply Z|eexists; apply Z]. }
  destruct RE as [C RE]. destruct (reachable_inv _ _ RE) as [IV _].
  destruct (i_prefix _ _ IV) as [rest E]. apply (f_equal (map fst)) in E. rewrite map_app, number_seq in E.
  destruct (paced_answers (k_log (z_conn z)) false 0 [] pss (i_serial _ _ IV) (ex_intro _ _ (seq_prefix _ _ _ _ E)) eq_refl G P) as [_ A].
  specialize (A q (Nat.le_0_l q)). now rewrite Nat.sub_0_r in A.
Qed.

(** Checking [in_turn] by running. *)
Definition starts (a b : list N) : bool := if list_eq_dec N.eq_dec (firstn (length a) b) a then true else false.
Lemma starts_ok a b : starts a b = true -> exists later, a ++ later = b.
Proof. unfold starts. destruct (list_eq_dec _ _ _) as [E|]; [|discriminate]. intros _. exists (skipn (length a) b). rewrite <- E at 1. apply firstn_skipn. Qed.
Fixpoint in_turnb (O : options) (B : conn) (g : list N) (bss : list (list N)) (z : session) (got : list N) (es : list zevent) : bool :=
  starts got (g ++ concat (firstn (length (sent_queries (k_log (z_conn z)))) bss)) &&
  match es with
  | [] => true
  | e :: es => match zstep O B z e with Some z' => in_turnb O B g bss z' (got ++ zarrived [e]) es | None => true end
  end.
Lemma in_turnb_ok O B g bss es : in_turnb O B g bss session_init [] es = true -> in_turn O B g bss es.
Proof.
  intros H es1 es2 z -> R. change (zarrived es1) with ([] ++ zarrived es1). revert H R. generalize session_init (@nil N).
  induction es1 as [|e es1 IH]; intros z0 got H R.
  - cbn [zrun] in R. injection R as <-. cbn [zarrived app] in *. rewrite app_nil_r. apply starts_ok. destruct es2; cbn [in_turnb] in H; now apply andb_prop in H as [H _].
  - cbn [app in_turnb zrun] in H, R. apply andb_prop in H as [_ H]. destruct (zstep O B z0 e) as [z1|]; [|discriminate R].
    change (e :: es1) with ([e] ++ es1). rewrite zarrived_app, app_assoc. exact (IH z1 _ H R).
Qed.
