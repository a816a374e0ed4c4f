(** The decoder of Utf8.v accepts exactly the well-formed byte sequences of Utf8Spec.v. *)
From Coq Require Import Lia.
From Verif Require Import Base Types Utf8 Utf8Spec.

Lemma low6 b : 128 <= b < 192 -> b mod 64 = b - 128.
Proof. intros H. symmetry. apply (N.mod_unique b 64 2 (b - 128)); lia. Qed.
Lemma spells_decode c bs r : spells c bs -> utf8_decode (bs ++ r) = option_map (cons c) (utf8_decode r).
Proof.
  intros H. destruct H as [a A|a b A B|b c B C|a b c A B C|b c B C|a b c A B C|b c d B C D|a b c d A B C D|b c d B C D]; cbn [app utf8_decode].
  - replace (a <? 128) with true by lia. reflexivity.
  - replace (a <? 128) with false by lia. replace ((194 <=? a) && (a <? 224)) with true by lia. unfold cont. replace ((128 <=? b) && (b <? 192)) with true by lia.
    rewrite low6 by lia. replace (a mod 32) with (a - 192) by (apply (N.mod_unique a 32 6 (a - 192)); lia). reflexivity.
  - rewrite !low6 by lia. cbn zeta. change (224 <? 128) with false. change ((194 <=? 224) && (224 <? 224)) with false. change ((224 <=? 224) && (224 <? 240)) with true. cbn [andb].
    unfold cont, scalar. replace (_ && _) with true by lia. f_equal; f_equal; lia.
  - rewrite !low6 by lia. cbn zeta. replace (a mod 16) with (a - 224) by (apply (N.mod_unique a 16 14 (a - 224)); lia).
    replace (a <? 128) with false by lia. replace ((194 <=? a) && (a <? 224)) with false by lia. replace ((224 <=? a) && (a <? 240)) with true by lia.
    unfold cont, scalar. replace (_ && _) with true by lia. reflexivity.
  - rewrite !low6 by lia. cbn zeta. change (237 <? 128) with false. change ((194 <=? 237) && (237 <? 224)) with false. change ((224 <=? 237) && (237 <? 240)) with true. cbn [andb].
    unfold cont, scalar. replace (_ && _) with true by lia. f_equal.
  - rewrite !low6 by lia. cbn zeta. replace (a mod 16) with (a - 224) by (apply (N.mod_unique a 16 14 (a - 224)); lia).
    replace (a <? 128) with false by lia. replace ((194 <=? a) && (a <? 224)) with false by lia. replace ((224 <=? a) && (a <? 240)) with true by lia.
    unfold cont, scalar. replace (_ && _) with true by lia. reflexivity.
  - rewrite !low6 by lia. cbn zeta. change (240 <? 128) with false. change ((194 <=? 240) && (240 <? 224)) with false. change ((224 <=? 240) && (240 <? 240)) with false.
    change ((240 <=? 240) && (240 <? 245)) with true. cbn [andb]. unfold cont, scalar. replace (_ && _) with true by lia. f_equal; f_equal; lia.
  - rewrite !low6 by lia. cbn zeta. replace (a mod 8) with (a - 240) by (apply (N.mod_unique a 8 30 (a - 240)); lia).
    replace (a <? 128) with false by lia. replace ((194 <=? a) && (a <? 224)) with false by lia. replace ((224 <=? a) && (a <? 240)) with false by lia.
    replace ((240 <=? a) && (a <? 245)) with true by lia. unfold cont, scalar. replace (_ && _) with true by lia. reflexivity.
  - rewrite !low6 by lia. cbn zeta. change (244 <? 128) with false. change ((194 <=? 244) && (244 <? 224)) with false. change ((224 <=? 244) && (244 <? 240)) with false.
    change ((240 <=? 244) && (244 <? 245)) with true. cbn [andb]. unfold cont, scalar. replace (_ && _) with true by lia. f_equal.
Qed.
Lemma encodes_decode s bs : encodes s bs -> utf8_decode bs = Some s.
Proof. induction 1 as [|c bs s l S E IH]; [reflexivity|]. rewrite (spells_decode _ _ _ S), IH. reflexivity. Qed.

Lemma decode_encodes_len n : forall l s, (length l <= n)%nat -> utf8_decode l = Some s -> encodes s l.
Proof.
  induction n as [|n IH]; intros l s Hn.
  - destruct l; [|cbn in Hn; lia]. intros [= <-]. constructor.
  - destruct l as [|a r]; [intros [= <-]; constructor|]. cbn [utf8_decode]. cbn [length] in Hn.
    assert (St : forall c c' bs r' s', spells c bs -> c = c' -> (length r' <= n)%nat -> option_map (cons c') (utf8_decode r') = Some s' -> encodes s' (bs ++ r')).
    { intros c c' bs r' s' E <- Hl. destruct (utf8_decode r') as [s0|] eqn:Ed; [|discriminate]. intros [= <-]. constructor; [exact E|now apply IH]. }
    destruct (N.ltb_spec a 128) as [H1|H1].
    { apply (St a a [a] r); [constructor; lia|reflexivity|lia]. }
    destruct ((194 <=? a) && (a <? 224)) eqn:H2.
    { destruct r as [|b r']; [discriminate|]. destruct (cont b) eqn:Cb; [|discriminate]. unfold cont in Cb. cbn [length] in Hn.
      eapply (St _ _ [a; b] r'); [apply sp_2; lia| |lia]. rewrite low6 by lia. replace (a mod 32) with (a - 192) by (apply (N.mod_unique a 32 6 (a - 192)); lia). reflexivity. }
    destruct ((224 <=? a) && (a <? 240)) eqn:H3.
    { destruct r as [|b [|c r']]; try discriminate. cbn zeta.
      match goal with |- (if ?e then _ else _) = _ -> _ => destruct e eqn:C end; [|discriminate]. unfold cont, scalar in C. cbn [length] in Hn.
      destruct (N.eq_dec a 224) as [->|N1]; [|destruct (N.eq_dec a 237) as [->|N2]; [|destruct (N.le_gt_cases a 236)]].
      - eapply (St _ _ [224; b; c] r'); [apply sp_3a; lia| |lia]. rewrite !low6 by lia. lia.
      - eapply (St _ _ [237; b; c] r'); [apply sp_3c; lia| |lia]. rewrite !low6 by lia. lia.
      - eapply (St _ _ [a; b; c] r'); [apply sp_3b; lia| |lia]. rewrite !low6 by lia. replace (a mod 16) with (a - 224) by (apply (N.mod_unique a 16 14 (a - 224)); lia). reflexivity.
      - eapply (St _ _ [a; b; c] r'); [apply sp_3d; lia| |lia]. rewrite !low6 by lia. replace (a mod 16) with (a - 224) by (apply (N.mod_unique a 16 14 (a - 224)); lia). reflexivity. }
    destruct ((240 <=? a) && (a <? 245)) eqn:H4; [|discriminate].
    destruct r as [|b [|c [|d r']]]; try discriminate. cbn zeta.
    match goal with |- (if ?e then _ else _) = _ -> _ => destruct e eqn:C end; [|discriminate]. unfold cont, scalar in C. cbn [length] in Hn.
    destruct (N.eq_dec a 240) as [->|N1]; [|destruct (N.eq_dec a 244) as [->|N2]].
    + eapply (St _ _ [240; b; c; d] r'); [apply sp_4a; lia| |lia]. rewrite !low6 by lia. lia.
    + eapply (St _ _ [244; b; c; d] r'); [apply sp_4c; lia| |lia]. rewrite !low6 by lia. lia.
    + eapply (St _ _ [a; b; c; d] r'); [apply sp_4b; lia| |lia]. rewrite !low6 by lia. replace (a mod 8) with (a - 240) by (apply (N.mod_unique a 8 30 (a - 240)); lia). reflexivity.
Qed.
Theorem decode_iff l s : utf8_decode l = Some s <-> encodes s l.
Proof. split; [apply (decode_encodes_len (length l)); lia|apply encodes_decode]. Qed.
Theorem encode_spec s bs : forallb scalar s = true -> (encodes s bs <-> bs = utf8 s).
Proof.
  intros F. split.
  - intros E. assert (B : bytes_ok bs). { clear F. unfold bytes_ok. induction E as [|c bs s l S E IH]; [constructor|]. apply Forall_app. split; [|exact IH].
      destruct S; repeat constructor; unfold byte_ok; lia. }
    apply decode_iff in E. now apply utf8_decode_sound in E as [_ <-].
  - intros ->. apply decode_iff. now apply utf8_roundtrip.
Qed.
Theorem encodes_scalar s bs : encodes s bs -> Forall (fun c => c < 0xD800 \/ 0xE000 <= c < 0x110000) s.
Proof.
  induction 1 as [|c bs s l S E IH]; constructor; [|exact IH].
  destruct S; repeat match goal with H : _ <= ?b <= _ |- context[?b mod 64] => rewrite (low6 b) by lia end; try lia.
Qed.
