From Coq Require Import Lia.
From Verif Require Import Base Types Block Progress Protocol ProtocolProofs ReaderLoop ReaderLoopProofs ReaderSpec.

Lemma lossy_extend C n bs ps left more : lossy C n bs ps left -> lossy C n (bs ++ more) ps (left ++ more).
Proof.
  induction 1 as [bs|n bs p rest ps left H _ IH|n half rest ps left H0 H _ IH]; [constructor| |].
  - apply (lo_packet C n _ p (rest ++ more)); [|exact IH].
    destruct (packet_incremental C bs more) as [E|E]; [rewrite E in H; discriminate H|]. rewrite E, H. reflexivity.
  - rewrite <- app_assoc. now constructor.
Qed.
Lemma lossy_snoc C n bs ps left p rest : lossy C n bs ps left -> read_packet C left = Ok (p, rest) -> lossy C n bs (ps ++ [p]) rest.
Proof.
  induction 1 as [bs|n bs p' rest' ps left H _ IH|n half rest' ps left H0 H _ IH]; intros E; cbn [app].
  - apply (lo_packet C 0 _ p rest); [exact E|constructor].
  - apply (lo_packet C n _ p' rest' _ _ H). now apply IH.
  - constructor; auto.
Qed.
Lemma lossy_lose C n bs ps left half rest : lossy C n bs ps left -> left = half ++ rest -> half <> [] -> read_packet C half = Err EIo -> lossy C (S n) bs ps rest.
Proof.
  induction 1 as [bs|n bs p' rest' ps left H _ IH|n half' rest' ps left H0 H _ IH]; intros E N R.
  - subst bs. apply (lo_lost C 0); auto. constructor.
  - apply (lo_packet C (S n) _ p' rest' _ _ H). now apply IH.
  - constructor; auto.
Qed.
Lemma lossy_zero C bs ps left : lossy C 0 bs ps left <-> decodes C bs ps left.
Proof.
  split.
  - intros H. remember 0%nat as n eqn:E. induction H as [bs|n bs p rest ps left H _ IH|n half rest ps left H0 H _ IH]; [constructor|econstructor; eauto|discriminate].
  - induction 1; econstructor; eauto.
Qed.

Lemma failed_stuck C : forall es r, r_failed r = true -> rrun C r es = r.
Proof. induction es as [|e es IH]; intros r H; [reflexivity|]. rewrite rrun_cons. unfold rstep. rewrite H. now apply IH. Qed.

Theorem run_lossy C es : forall r n sent, r_failed (rrun C r es) = false ->
  lossy C n sent (r_packets r) (r_partial r ++ r_avail r) -> (r_partial r = [] \/ read_packet C (r_partial r) = Err EIo) ->
  lossy C (n + disturbances C r es) (sent ++ arrived es) (r_packets (rrun C r es)) (r_partial (rrun C r es) ++ r_avail (rrun C r es)).
Proof.
  induction es as [|e es IH]; intros r n sent F D I; rewrite ?rrun_cons in *; cbn [disturbances arrived] in *.
  - cbn. now rewrite app_nil_r, Nat.add_0_r.
  - destruct (r_failed r) eqn:RF.
    { unfold rstep in F. rewrite RF in F. rewrite (failed_stuck C es r RF) in F. congruence. }
    destruct (r_failed (rstep C r e)) eqn:RF'; [rewrite (failed_stuck C es _ RF') in F; congruence|].
    unfold rstep in *. rewrite RF in *. destruct e as [bs| |]; cbn [Nat.add].
    + rewrite app_assoc. apply IH; [exact F| |exact I]. cbn. rewrite app_assoc. now apply lossy_extend.
    + destruct (read_packet C (r_partial r ++ r_avail r)) as [[p rest]|[]|] eqn:E; try discriminate RF'.
      * apply IH; [exact F| |now left]. cbn. now apply (lossy_snoc C n sent (r_packets r) (r_partial r ++ r_avail r)).
      * apply IH; [exact F|cbn; now rewrite app_nil_r|right; exact E].
    + destruct (r_partial r) as [|x l] eqn:EP.
      * cbn [Nat.add]. apply IH; [exact F|exact D|now left].
      * replace (n + (1 + disturbances C {| r_partial := []; r_avail := r_avail r; r_packets := r_packets r; r_failed := false |} es))%nat
          with (S n + disturbances C {| r_partial := []; r_avail := r_avail r; r_packets := r_packets r; r_failed := false |} es)%nat by lia.
        apply IH; [exact F| |now left]. cbn [r_partial r_avail r_packets app]. eapply lossy_lose; [exact D|reflexivity|discriminate|].
        destruct I as [I|I]; [discriminate|exact I].
Qed.

Lemma rrun_app C r a b : rrun C r (a ++ b) = rrun C (rrun C r a) b.
Proof. unfold rrun. apply fold_left_app. Qed.
Lemma disturb_app C : forall a r b, disturbances C r (a ++ b) = (disturbances C r a + disturbances C (rrun C r a) b)%nat.
Proof. induction a as [|e a IH]; intros r b; [reflexivity|]. cbn [app disturbances]. rewrite IH, rrun_cons. lia. Qed.
Lemma arrived_app a b : arrived (a ++ b) = arrived a ++ arrived b.
Proof. induction a as [|e a IH]; [reflexivity|]. cbn [app arrived]. destruct e; rewrite IH; [now rewrite app_assoc|reflexivity|reflexivity]. Qed.

(** Every lossy decoding is the result of some schedule. *)
Theorem lossy_run C n bs ps left : lossy C n bs ps left -> forall before, exists es, arrived es = bs /\
  let r := {| r_partial := []; r_avail := []; r_packets := before; r_failed := false |} in
  disturbances C r es = n /\ r_failed (rrun C r es) = false /\ r_packets (rrun C r es) = before ++ ps /\
  r_partial (rrun C r es) ++ r_avail (rrun C r es) = left.
Proof.
  induction 1 as [bs|n bs p rest ps left H _ IH|n half rest ps left H0 H _ IH]; intros before.
  - exists [Arrive bs]. cbn. rewrite !app_nil_r. auto.
  - destruct (packet_local C _ _ _ H) as (used & -> & U). destruct (IH (before ++ [p])) as (es & A & B & F & P & L).
    exists (Arrive used :: Poll :: es). cbn [arrived]. rewrite A. split; [reflexivity|]. cbv zeta. cbn [disturbances]. rewrite !rrun_cons.
    unfold rstep. cbn [r_failed r_partial r_avail r_packets app]. specialize (U []). rewrite app_nil_r in U. rewrite U. cbn [Nat.add].
    cbv zeta in B, F, P, L. rewrite B, F, P, L, <- app_assoc. auto.
  - destruct (IH before) as (es & A & B & F & P & L). exists (Arrive half :: Poll :: Request :: es). cbn [arrived]. rewrite A. split; [reflexivity|].
    cbv zeta. cbn [disturbances]. rewrite !rrun_cons. unfold rstep. cbn [r_failed r_partial r_avail r_packets app]. rewrite H. cbn [r_failed r_partial r_avail r_packets app].
    destruct half as [|x half]; [congruence|]. cbv zeta in B, F, P, L. cbn [Nat.add app]. rewrite B, F, P, L. auto.
Qed.
