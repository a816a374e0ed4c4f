From Verif Require Import Base Types Block Progress Protocol ProtocolProofs ReaderLoop.

Lemma decodes_extend C bs ps left more : decodes C bs ps left -> decodes C (bs ++ more) ps (left ++ more).
Proof.
  induction 1 as [bs|bs p rest ps left H _ IH]; [constructor|].
  apply (dec_cons C _ p (rest ++ more)); [|exact IH].
  destruct (packet_incremental C bs more) as [E|E]; [rewrite E in H; discriminate H|]. rewrite E, H. reflexivity.
Qed.
Lemma decodes_snoc C bs ps left p rest : decodes C bs ps left -> read_packet C left = Ok (p, rest) -> decodes C bs (ps ++ [p]) rest.
Proof.
  induction 1 as [bs|bs p' rest' ps left H _ IH]; intros E; cbn.
  - apply (dec_cons C _ p rest); [exact E|constructor].
  - apply (dec_cons C _ p' rest' _ _ H). now apply IH.
Qed.

Lemma rrun_cons C r e es : rrun C r (e :: es) = rrun C (rstep C r e) es.
Proof. reflexivity. Qed.

Theorem undisturbed_decodes C es : forall r sent, undisturbed C r es -> r_failed (rrun C r es) = false ->
  decodes C sent (r_packets r) (r_partial r ++ r_avail r) ->
  decodes C (sent ++ arrived es) (r_packets (rrun C r es)) (r_partial (rrun C r es) ++ r_avail (rrun C r es)).
Proof.
  assert (STUCK : forall es r, r_failed r = true -> rrun C r es = r).
  { induction es0 as [|e es0 IH]; intros r H; [reflexivity|]. rewrite rrun_cons. unfold rstep. rewrite H. now apply IH. }
  induction es as [|e es IH]; intros r sent U F D; rewrite ?rrun_cons in *; cbn [undisturbed arrived] in *.
  - cbn in *. now rewrite app_nil_r.
  - destruct U as [U1 U2]. destruct (r_failed r) eqn:RF.
    { unfold rstep in F. rewrite RF in F. rewrite (STUCK es r RF) in F. congruence. }
    destruct (r_failed (rstep C r e)) eqn:RF'.
    { rewrite (STUCK es _ RF') in F. congruence. }
    unfold rstep in *. rewrite RF in *. destruct e as [bs| |].
    + rewrite app_assoc. apply IH; [exact U2|exact F|]. cbn. rewrite app_assoc. now apply decodes_extend.
    + destruct (read_packet C (r_partial r ++ r_avail r)) as [[p rest]|[]|] eqn:E; try discriminate RF'.
      * apply IH; [exact U2|exact F|]. cbn. now apply (decodes_snoc C sent (r_packets r) (r_partial r ++ r_avail r)).
      * apply IH; [exact U2|exact F|]. cbn. now rewrite app_nil_r.
    + apply IH; [exact U2|exact F|]. cbn. now rewrite U1 in D.
Qed.

(** Decoding is deterministic, so the packets depend on the bytes only. *)
Lemma decodes_det C bs ps1 l1 : decodes C bs ps1 l1 -> forall ps2 l2, decodes C bs ps2 l2 -> length ps1 = length ps2 -> ps1 = ps2 /\ l1 = l2.
Proof.
  induction 1 as [bs|bs p rest ps left H _ IH]; intros ps2 l2 D L; destruct D as [bs'|bs' p' rest' ps' left' H' D']; try discriminate L; [auto|].
  rewrite H in H'. injection H' as <- <-. injection L as L. destruct (IH ps' left' D' L) as [-> ->]. auto.
Qed.
