(** UTF-8, as in [String::from_utf8] and [str::as_bytes]. *)
From Verif Require Import Base Types.

(** Unicode scalar values: what a Rust [char] can be. *)
Definition scalar (c : N) : bool := (c <? 55296) || ((57344 <=? c) && (c <? 1114112)).

Definition utf8_char (c : N) : list N :=
  if c <? 128 then [c]
  else if c <? 2048 then [192 + c / 64; 128 + c mod 64]
  else if c <? 65536 then [224 + c / 4096; 128 + (c / 64) mod 64; 128 + c mod 64]
  else [240 + c / 262144; 128 + (c / 4096) mod 64; 128 + (c / 64) mod 64; 128 + c mod 64].
Definition utf8 (s : text) : list N := concat (map utf8_char s).

Definition cont (b : N) : bool := (128 <=? b) && (b <? 192).

(** Strict decoding: no overlong forms, no surrogates, nothing above U+10FFFF. *)
Fixpoint utf8_decode (l : list N) : option text :=
  match l with
  | [] => Some []
  | a :: r =>
      if a <? 128 then option_map (cons a) (utf8_decode r)
      else if (194 <=? a) && (a <? 224) then
        match r with
        | b :: r' => if cont b then option_map (cons ((a - 192) * 64 + (b - 128))) (utf8_decode r') else None
        | _ => None
        end
      else if (224 <=? a) && (a <? 240) then
        match r with
        | b :: c :: r' =>
            let x := (a - 224) * 4096 + (b - 128) * 64 + (c - 128) in
            if cont b && cont c && (2048 <=? x) && scalar x then option_map (cons x) (utf8_decode r') else None
        | _ => None
        end
      else if (240 <=? a) && (a <? 245) then
        match r with
        | b :: c :: d :: r' =>
            let x := (a - 240) * 262144 + (b - 128) * 4096 + (c - 128) * 64 + (d - 128) in
            if cont b && cont c && cont d && (65536 <=? x) && scalar x then option_map (cons x) (utf8_decode r') else None
        | _ => None
        end
      else None
  end.

Lemma utf8_decode_char c r : scalar c = true -> utf8_decode (utf8_char c ++ r) = option_map (cons c) (utf8_decode r).
Proof.
  unfold scalar, utf8_char. intros Hs.
  destruct (N.ltb_spec c 128) as [H1|H1].
  { cbn [app utf8_decode]. apply N.ltb_lt in H1. now rewrite H1. }
  destruct (N.ltb_spec c 2048) as [H2|H2].
  { cbn [app utf8_decode]. pose proof (N.div_mod c 64 ltac:(lia)). pose proof (N.mod_lt c 64 ltac:(lia)).
    set (q := c / 64) in *; set (m := c mod 64) in *.
    replace (192 + q <? 128) with false by lia. replace ((194 <=? 192 + q) && (192 + q <? 224)) with true by lia.
    unfold cont. replace ((128 <=? 128 + m) && (128 + m <? 192)) with true by lia.
    replace ((192 + q - 192) * 64 + (128 + m - 128)) with c by lia. reflexivity. }
  assert (Q : c / 4096 = c / 64 / 64) by now rewrite N.div_div.
  pose proof (N.div_mod c 64 ltac:(lia)) as K1. pose proof (N.mod_lt c 64 ltac:(lia)) as K2.
  pose proof (N.div_mod (c / 64) 64 ltac:(lia)) as K3. pose proof (N.mod_lt (c / 64) 64 ltac:(lia)) as K4.
  destruct (N.ltb_spec c 65536) as [H3|H3].
  { cbn [app utf8_decode]. rewrite Q. set (q := c / 64) in *; set (m := c mod 64) in *.
    set (q2 := q / 64) in *; set (m2 := q mod 64) in *.
    replace (224 + q2 <? 128) with false by lia. replace ((194 <=? 224 + q2) && (224 + q2 <? 224)) with false by lia.
    replace ((224 <=? 224 + q2) && (224 + q2 <? 240)) with true by lia.
    replace ((224 + q2 - 224) * 4096 + (128 + m2 - 128) * 64 + (128 + m - 128)) with c by lia.
    unfold cont, scalar. replace (_ && _) with true by lia. reflexivity. }
  assert (Q2 : c / 262144 = c / 64 / 64 / 64) by (rewrite !N.div_div by lia; reflexivity).
  pose proof (N.div_mod (c / 64 / 64) 64 ltac:(lia)). pose proof (N.mod_lt (c / 64 / 64) 64 ltac:(lia)).
  cbn [app utf8_decode]. rewrite Q, Q2. set (q := c / 64) in *; set (m := c mod 64) in *.
  set (q2 := q / 64) in *; set (m2 := q mod 64) in *. set (q3 := q2 / 64) in *; set (m3 := q2 mod 64) in *.
  replace (240 + q3 <? 128) with false by lia. replace ((194 <=? 240 + q3) && (240 + q3 <? 224)) with false by lia.
  replace ((224 <=? 240 + q3) && (240 + q3 <? 240)) with false by lia.
  replace ((240 <=? 240 + q3) && (240 + q3 <? 245)) with true by lia.
  replace ((240 + q3 - 240) * 262144 + (128 + m3 - 128) * 4096 + (128 + m2 - 128) * 64 + (128 + m - 128)) with c by lia.
  unfold cont, scalar. replace (_ && _) with true by lia. reflexivity.
Qed.

Lemma utf8_roundtrip s : forallb scalar s = true -> utf8_decode (utf8 s) = Some s.
Proof.
  unfold utf8. induction s as [|c s IH]; intros H; [reflexivity|].
  cbn [forallb] in H. apply andb_true_iff in H as [Hc Hs]. cbn [map concat]. rewrite utf8_decode_char by exact Hc.
  now rewrite IH.
Qed.

Lemma utf8_char_bytes c : scalar c = true -> bytes_ok (utf8_char c).
Proof.
  unfold scalar, utf8_char, bytes_ok, byte_ok. intros Hs.
  assert (c < 1114112) as B by lia. clear Hs.
  assert (M : forall x, x mod 64 < 64) by (intros; apply N.mod_lt; lia).
  destruct (N.ltb_spec c 128); [repeat constructor; lia|].
  destruct (N.ltb_spec c 2048).
  { assert (c / 64 < 32) by (apply N.div_lt_upper_bound; lia). pose proof (M c). repeat constructor; lia. }
  destruct (N.ltb_spec c 65536).
  { assert (c / 4096 < 16) by (apply N.div_lt_upper_bound; lia). pose proof (M c). pose proof (M (c / 64)). repeat constructor; lia. }
  assert (c / 262144 < 5) by (apply N.div_lt_upper_bound; lia). pose proof (M c). pose proof (M (c / 64)). pose proof (M (c / 4096)).
  repeat constructor; lia.
Qed.
Lemma utf8_bytes s : forallb scalar s = true -> bytes_ok (utf8 s).
Proof.
  unfold utf8. induction s as [|c s IH]; intros H; [constructor|].
  cbn [forallb] in H. apply andb_true_iff in H as [Hc Hs]. cbn [map concat].
  apply Forall_app. split; [now apply utf8_char_bytes|now apply IH].
Qed.

(** Decoding only yields scalar values, and re-encoding gives the same bytes. *)
Lemma utf8_decode_sound_len n : forall l s, (length l <= n)%nat -> bytes_ok l -> utf8_decode l = Some s ->
  forallb scalar s = true /\ utf8 s = l.
Proof.
  induction n as [|n IH]; intros l s Hn Hb.
  - destruct l; [|cbn in Hn; lia]. intros [= <-]. split; reflexivity.
  - destruct l as [|a r]; [intros [= <-]; split; reflexivity|]. cbn [utf8_decode].
    assert (St : forall c bs r' s', utf8_char c = bs -> scalar c = true -> (length r' <= n)%nat -> bytes_ok r' ->
       option_map (cons c) (utf8_decode r') = Some s' -> forallb scalar s' = true /\ utf8 s' = bs ++ r').
    { intros c bs r' s' E Hc Hl Hr. destruct (utf8_decode r') as [s0|] eqn:Ed; [|discriminate]. intros [= <-].
      destruct (IH r' s0 Hl Hr Ed) as [A B]. cbn [forallb]. rewrite Hc, A. split; [reflexivity|].
      unfold utf8 in *. cbn [map concat]. now rewrite B, E. }
    inversion Hb as [|? ? Ha Hr]; subst. unfold byte_ok in Ha. cbn [length] in Hn.
    assert (DM : forall h l, l < 64 -> (h * 64 + l) / 64 = h /\ (h * 64 + l) mod 64 = l).
    { intros h l Hl. split; [symmetry; apply (N.div_unique _ 64 h l); lia|symmetry; apply (N.mod_unique _ 64 h l); lia]. }
    destruct (N.ltb_spec a 128) as [H1|H1].
    { apply (St a [a] r); [|unfold scalar; lia|lia|exact Hr]. unfold utf8_char. apply N.ltb_lt in H1. now rewrite H1. }
    destruct ((194 <=? a) && (a <? 224)) eqn:H2.
    { destruct r as [|b r']; [discriminate|]. destruct (cont b) eqn:Cb; [|discriminate]. unfold cont in Cb.
      cbn [length] in Hn. inversion Hr; subst.
      apply (St ((a - 192) * 64 + (b - 128)) [a; b] r'); [|unfold scalar; lia|lia|assumption].
      unfold utf8_char. destruct (DM (a - 192) (b - 128)) as [-> ->]; [lia|].
      replace (_ <? 128) with false by lia. replace (_ <? 2048) with true by lia. repeat f_equal; lia. }
    destruct ((224 <=? a) && (a <? 240)) eqn:H3.
    { destruct r as [|b [|c r']]; try discriminate. cbn zeta.
      match goal with |- (if ?e then _ else _) = _ -> _ => destruct e eqn:C end; [|discriminate]. unfold cont in C. cbn [length] in Hn.
      inversion Hr as [|? ? ? Hr1]; subst. inversion Hr1; subst.
      apply andb_true_iff in C as [C Hsc]. apply andb_true_iff in C as [C Hx].
      apply (St ((a - 224) * 4096 + (b - 128) * 64 + (c - 128)) [a; b; c] r'); [|exact Hsc|lia|assumption].
      unfold utf8_char. replace (_ <? 128) with false by lia. replace (_ <? 2048) with false by lia.
      replace (_ <? 65536) with true by lia.
      replace ((a - 224) * 4096 + (b - 128) * 64 + (c - 128)) with (((a - 224) * 64 + (b - 128)) * 64 + (c - 128)) by lia.
      change 4096 with (64 * 64). rewrite <- N.div_div by lia.
      destruct (DM ((a - 224) * 64 + (b - 128)) (c - 128)) as [-> ->]; [lia|].
      destruct (DM (a - 224) (b - 128)) as [-> ->]; [lia|]. repeat f_equal; lia. }
    destruct ((240 <=? a) && (a <? 245)) eqn:H4; [|discriminate].
    destruct r as [|b [|c [|d r']]]; try discriminate. cbn zeta.
    match goal with |- (if ?e then _ else _) = _ -> _ => destruct e eqn:C end; [|discriminate]. unfold cont in C. cbn [length] in Hn.
    inversion Hr as [|? ? ? Hr1]; subst. inversion Hr1 as [|? ? ? Hr2]; subst. inversion Hr2; subst.
    apply andb_true_iff in C as [C Hsc]. apply andb_true_iff in C as [C Hx].
    apply (St ((a - 240) * 262144 + (b - 128) * 4096 + (c - 128) * 64 + (d - 128)) [a; b; c; d] r'); [|exact Hsc|lia|assumption].
    unfold utf8_char. replace (_ <? 128) with false by lia. replace (_ <? 2048) with false by lia.
    replace (_ <? 65536) with false by lia.
    replace ((a - 240) * 262144 + (b - 128) * 4096 + (c - 128) * 64 + (d - 128))
       with ((((a - 240) * 64 + (b - 128)) * 64 + (c - 128)) * 64 + (d - 128)) by lia.
    change 262144 with (64 * 64 * 64). change 4096 with (64 * 64). rewrite <- !N.div_div by lia.
    destruct (DM (((a - 240) * 64 + (b - 128)) * 64 + (c - 128)) (d - 128)) as [-> ->]; [lia|].
    destruct (DM ((a - 240) * 64 + (b - 128)) (c - 128)) as [-> ->]; [lia|].
    destruct (DM (a - 240) (b - 128)) as [-> ->]; [lia|]. repeat f_equal; lia.
Qed.
Lemma utf8_decode_sound l s : bytes_ok l -> utf8_decode l = Some s -> forallb scalar s = true /\ utf8 s = l.
Proof. apply (utf8_decode_sound_len (length l)). lia. Qed.
