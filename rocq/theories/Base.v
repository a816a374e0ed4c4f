(** Shared vocabulary of the model: results with panics, byte strings, readers,
    little-endian integers.  Used by every other file. *)
From Coq Require Export List NArith ZArith Lia Bool.
From Coq Require Export ZifyBool ZifyNat ZifyN.
Export ListNotations.
#[global] Open Scope N_scope.
#[global] Open Scope list_scope.

Arguments N.add : simpl never.
Arguments N.mul : simpl never.
Arguments N.sub : simpl never.
Arguments N.div : simpl never.
Arguments N.modulo : simpl never.
Arguments N.pow : simpl never.
Arguments N.shiftl : simpl never.
Arguments N.shiftr : simpl never.
Arguments N.land : simpl never.
Arguments N.lor : simpl never.
Arguments N.leb : simpl never.
Arguments N.ltb : simpl never.
Arguments N.eqb : simpl never.
Arguments N.of_nat : simpl never.
Arguments N.to_nat : simpl never.
Arguments Z.add : simpl never.
Arguments Z.mul : simpl never.
Arguments Z.sub : simpl never.
Arguments Z.div : simpl never.
Arguments Z.modulo : simpl never.
Arguments Z.pow : simpl never.
Arguments Z.leb : simpl never.
Arguments Z.ltb : simpl never.
Arguments Z.eqb : simpl never.
Arguments Z.of_N : simpl never.
Arguments Z.to_N : simpl never.

(** errors.rs 9-44: the KlickhouseError variants.  Messages are dropped, the names of columns and fields are
    kept.  [UnexpectedType] is a variant that nothing in the crate constructs. *)
Inductive err : Type :=
| EIo            (* Io: includes UnexpectedEof from read_exact *)
| EProtocol      (* ProtocolError *)
| EDeser         (* DeserializeError *)
| ESer           (* SerializeError *)
| ETypeParse     (* TypeParseError *)
| EUtf8          (* Utf8Error *)
| EDeserColumn (name : list N)              (* DeserializeErrorWithColumn *)
| EMissingField (name : list N) | EDuplicateField (name : list N)
| EFlattenedMissing                         (* MissingField with the text of row.rs 556: it names the Rust field, not the column *)
| EUnexpectedType | EUnexpectedTypeWithColumn (name : list N)
| EServerException | EMissingRow | EOutOfBounds | EDoubleFetch | EOther
| EFuel.         (* model only: a loop ran out of fuel; shown unreachable *)

(** A Rust computation: a value, an [Err] or a panic. *)
Inductive res (A : Type) : Type :=
| Ok (a : A)
| Err (e : err)
| Panic.
Arguments Ok {A} a.
Arguments Err {A} e.
Arguments Panic {A}.

Definition rbind {A B} (r : res A) (f : A -> res B) : res B :=
  match r with Ok a => f a | Err e => Err e | Panic => Panic end.
Notation "x <- e ;; f" := (rbind e (fun x => f)) (at level 61, e at next level, right associativity).
Notation "' p <- e ;; f" := (rbind e (fun p => f)) (at level 61, p pattern, e at next level, right associativity).

Definition rmap {A B} (f : A -> B) (r : res A) : res B :=
  match r with Ok a => Ok (f a) | Err e => Err e | Panic => Panic end.

Lemma rbind_ok {A B} (r : res A) (f : A -> res B) b :
  rbind r f = Ok b -> exists a, r = Ok a /\ f a = Ok b.
Proof. destruct r; cbn; intros H; try discriminate; eauto. Qed.

Ltac inv_bind H :=
  let a := fresh "a" in let E := fresh "E" in
  apply rbind_ok in H; destruct H as (a & E & H).

Definition is_ok {A} (r : res A) : bool := match r with Ok _ => true | _ => false end.
Definition is_panic {A} (r : res A) : bool := match r with Panic => true | _ => false end.

(** Run [f] on each element in order, stop at the first failure: a Rust [for]
    loop with [?], or [map(...).collect::<Result<Vec<_>>>()]. *)
Fixpoint mapM {A B} (f : A -> res B) (l : list A) : res (list B) :=
  match l with
  | [] => Ok []
  | x :: t => y <- f x ;; ys <- mapM f t ;; Ok (y :: ys)
  end.

Lemma mapM_ok_length {A B} (f : A -> res B) l ys : mapM f l = Ok ys -> length ys = length l.
Proof.
  revert ys; induction l as [|x t IH]; cbn; intros ys H; [now injection H as <-|].
  inv_bind H. inv_bind H. injection H as <-. cbn. f_equal. now apply IH.
Qed.

Lemma mapM_ok_map {A B} (f : A -> res B) (g : A -> B) l :
  (forall x, In x l -> f x = Ok (g x)) -> mapM f l = Ok (map g l).
Proof.
  induction l as [|x t IH]; cbn; intros H; [reflexivity|].
  rewrite H by now left. cbn. rewrite IH by (intros; apply H; now right). reflexivity.
Qed.

(* ------------------------------------------------------------------ *)
(** * Bytes *)

Definition byte_ok (b : N) : Prop := b < 256.
Definition bytes_ok (l : list N) : Prop := Forall byte_ok l.

Definition lenN {A} (l : list A) : N := N.of_nat (length l).

Lemma lenN_nil {A} : lenN (@nil A) = 0.
Proof. reflexivity. Qed.
Lemma lenN_cons {A} (x : A) l : lenN (x :: l) = lenN l + 1.
Proof. unfold lenN; cbn [length]; lia. Qed.
Lemma lenN_app {A} (l m : list A) : lenN (l ++ m) = lenN l + lenN m.
Proof. unfold lenN; rewrite app_length; lia. Qed.
Lemma lenN_map {A B} (f : A -> B) l : lenN (map f l) = lenN l.
Proof. unfold lenN; now rewrite map_length. Qed.
Lemma lenN_0 {A} (l : list A) : lenN l = 0 -> l = [].
Proof. destruct l; [reflexivity|rewrite lenN_cons; lia]. Qed.

(** A reader: the remaining input goes in, the result and the input left over
    come out.  Models any [&mut R where R: ClickhouseRead]; the input list is
    everything the peer will ever send before closing, so running out of it is
    the [UnexpectedEof] of [read_exact]. *)
Definition rd (A : Type) := list N -> res (A * list N).

Definition rret {A} (a : A) : rd A := fun inp => Ok (a, inp).
Definition rerr {A} (e : err) : rd A := fun _ => Err e.
Definition rpanic {A} : rd A := fun _ => Panic.
Definition rdbind {A B} (r : rd A) (f : A -> rd B) : rd B :=
  fun inp => '(a, rest) <- r inp ;; f a rest.
Notation "x <~ e ;;; f" := (rdbind e (fun x => f)) (at level 61, e at next level, right associativity).

(** tokio [read_exact]: exactly [n] bytes or an error. *)
Fixpoint read_exact_go (n : N) (inp : list N) {struct inp} : res (list N * list N) :=
  if n =? 0 then Ok ([], inp) else
  match inp with
  | [] => Err EIo
  | b :: t => '(bs, rest) <- read_exact_go (N.pred n) t ;; Ok (b :: bs, rest)
  end.
Definition read_exact (n : N) : rd (list N) := read_exact_go n.

Lemma read_exact_go_0 inp : read_exact_go 0 inp = Ok ([], inp).
Proof. destruct inp; reflexivity. Qed.

Lemma read_exact_app bs rest : read_exact (lenN bs) (bs ++ rest) = Ok (bs, rest).
Proof.
  unfold read_exact; induction bs as [|b bs IH].
  - rewrite lenN_nil. apply read_exact_go_0.
  - cbn [app read_exact_go]. rewrite lenN_cons.
    destruct (N.eqb_spec (lenN bs + 1) 0) as [E|E]; [lia|].
    replace (N.pred (lenN bs + 1)) with (lenN bs) by lia. rewrite IH. reflexivity.
Qed.

Lemma read_exact_app' n bs rest : n = lenN bs -> read_exact n (bs ++ rest) = Ok (bs, rest).
Proof. intros ->; apply read_exact_app. Qed.

Lemma read_exact_ok n inp bs rest :
  read_exact n inp = Ok (bs, rest) -> inp = bs ++ rest /\ lenN bs = n.
Proof.
  unfold read_exact; revert n bs rest; induction inp as [|b t IH]; intros n bs rest; cbn [read_exact_go];
    destruct (N.eqb_spec n 0) as [->|E]; intros H.
  - injection H as <- <-; split; reflexivity.
  - discriminate.
  - injection H as <- <-; split; reflexivity.
  - inv_bind H. destruct a as [bs' rest']. cbn in H. injection H as <- <-.
    apply IH in E0 as [-> L]. split; [reflexivity|]. rewrite lenN_cons; lia.
Qed.

Lemma read_exact_short n inp : lenN inp < n -> read_exact n inp = Err EIo.
Proof.
  unfold read_exact; revert n; induction inp as [|b t IH]; intros n H; cbn [read_exact_go];
    destruct (N.eqb_spec n 0) as [->|E].
  - unfold lenN in H; cbn in H; lia.
  - reflexivity.
  - lia.
  - rewrite lenN_cons in H. rewrite IH by lia. reflexivity.
Qed.

Lemma read_exact_nopanic n inp : read_exact n inp <> Panic.
Proof.
  destruct (N.ltb_spec (lenN inp) n) as [H|H].
  - now rewrite read_exact_short.
  - assert (E : inp = firstn (N.to_nat n) inp ++ skipn (N.to_nat n) inp) by now rewrite firstn_skipn.
    rewrite E, read_exact_app'; [discriminate|].
    unfold lenN in *. rewrite firstn_length. lia.
Qed.

(* ------------------------------------------------------------------ *)
(** * Little-endian integers (tokio's [read_u16_le] ... and their writers) *)

Fixpoint le_bytes (n : nat) (x : N) : list N :=
  match n with O => [] | S k => (x mod 256) :: le_bytes k (x / 256) end.
Fixpoint le_val (l : list N) : N :=
  match l with [] => 0 | b :: t => b + 256 * le_val t end.

Lemma le_bytes_length n x : length (le_bytes n x) = n.
Proof. revert x; induction n as [|n IH]; intros x; cbn; [reflexivity|now rewrite IH]. Qed.
Lemma le_bytes_lenN n x : lenN (le_bytes n x) = N.of_nat n.
Proof. unfold lenN; now rewrite le_bytes_length. Qed.

Lemma le_bytes_ok n x : bytes_ok (le_bytes n x).
Proof.
  revert x; induction n as [|n IH]; intros x; cbn; constructor; [|apply IH].
  apply N.mod_lt; lia.
Qed.

Lemma pow256_S n : 256 ^ N.of_nat (S n) = 256 * 256 ^ N.of_nat n.
Proof. rewrite Nat2N.inj_succ, N.pow_succ_r'; reflexivity. Qed.

Lemma le_val_bytes n x : x < 256 ^ N.of_nat n -> le_val (le_bytes n x) = x.
Proof.
  revert x; induction n as [|n IH]; intros x H.
  - change (256 ^ N.of_nat 0) with 1 in H. cbn. lia.
  - rewrite pow256_S in H. cbn. rewrite IH.
    + rewrite (N.div_mod x 256) at 3 by lia. lia.
    + apply N.div_lt_upper_bound; lia.
Qed.

Lemma le_val_bound l : bytes_ok l -> le_val l < 256 ^ lenN l.
Proof.
  unfold lenN; induction l as [|b t IH]; intros H; [cbn; lia|].
  inversion H as [|? ? Hb Ht]; subst. specialize (IH Ht).
  cbn [length le_val]. rewrite pow256_S. unfold byte_ok in Hb. nia.
Qed.

Lemma le_bytes_val l : bytes_ok l -> le_bytes (length l) (le_val l) = l.
Proof.
  induction l as [|b t IH]; intros H; [reflexivity|].
  inversion H as [|? ? Hb Ht]; subst. unfold byte_ok in Hb.
  cbn [length le_bytes le_val]. f_equal.
  - rewrite N.mul_comm, N.mod_add by lia. now apply N.mod_small.
  - rewrite N.mul_comm, N.div_add by lia. rewrite N.div_small by assumption. now apply IH.
Qed.

Lemma le_bytes_mod n x : le_bytes n x = le_bytes n (x mod 256 ^ N.of_nat n).
Proof.
  revert x; induction n as [|n IH]; intros x; [reflexivity|].
  assert (Hp : 256 ^ N.of_nat n <> 0) by (apply N.pow_nonzero; lia).
  cbn [le_bytes]. rewrite pow256_S. f_equal.
  - rewrite N.mod_mul_r by (assumption || lia).
    rewrite N.mul_comm, N.mod_add by lia. now rewrite N.mod_mod by lia.
  - rewrite (IH (x / 256)), (IH (x mod _ / 256)). f_equal.
    rewrite N.mod_mul_r by (assumption || lia).
    rewrite N.mul_comm, N.div_add by lia.
    rewrite (N.div_small (x mod 256)) by (apply N.mod_lt; lia).
    rewrite N.add_0_l. now rewrite N.mod_mod.
Qed.

(** [read_u8], [read_u16_le], [read_u32_le], [read_u64_le], [read_u128_le] *)
Definition read_le (n : nat) : rd N := bs <~ read_exact (N.of_nat n) ;;; rret (le_val bs).

Lemma read_le_app n x rest :
  x < 256 ^ N.of_nat n -> read_le n (le_bytes n x ++ rest) = Ok (x, rest).
Proof.
  intros H. unfold read_le, rdbind. rewrite read_exact_app' by now rewrite le_bytes_lenN.
  cbn. unfold rret. now rewrite le_val_bytes.
Qed.

(** Two's complement: the unsigned bit pattern of a signed integer of [w] bits and back. *)
Definition s2u (w : N) (x : Z) : N := Z.to_N (x mod 2 ^ Z.of_N w).
Definition u2s (w : N) (n : N) : Z :=
  if n <? 2 ^ (w - 1) then Z.of_N n else (Z.of_N n - 2 ^ Z.of_N w)%Z.
Definition in_signed (w : N) (x : Z) : Prop := (- 2 ^ Z.of_N (w - 1) <= x < 2 ^ Z.of_N (w - 1))%Z.

Lemma pow_split (w : N) : 0 < w -> (2 ^ Z.of_N w = 2 * 2 ^ Z.of_N (w - 1))%Z.
Proof.
  intros H. replace (Z.of_N w) with (Z.succ (Z.of_N (w - 1))) by lia.
  rewrite Z.pow_succ_r by lia. reflexivity.
Qed.

Lemma Zpow_of_N w : (2 ^ Z.of_N w)%Z = Z.of_N (2 ^ w).
Proof. now rewrite N2Z.inj_pow. Qed.

Lemma u2s_s2u w x : 0 < w -> in_signed w x -> u2s w (s2u w x) = x.
Proof.
  intros Hw [Hl Hh]. unfold u2s, s2u.
  pose proof (pow_split w Hw) as HP. rewrite <- (Zpow_of_N (w-1)) || idtac.
  assert (H0 : (0 < 2 ^ Z.of_N (w - 1))%Z) by (apply Z.pow_pos_nonneg; lia).
  assert (E : Z.of_N (2 ^ (w - 1)) = (2 ^ Z.of_N (w - 1))%Z) by now rewrite N2Z.inj_pow.
  destruct (Z.ltb_spec x 0) as [Hx|Hx].
  - rewrite <- (Z.mod_unique x (2 ^ Z.of_N w) (-1) (x + 2 ^ Z.of_N w)) by lia.
    destruct (N.ltb_spec (Z.to_N (x + 2 ^ Z.of_N w)) (2 ^ (w - 1))) as [L|L]; lia.
  - rewrite Z.mod_small by lia.
    destruct (N.ltb_spec (Z.to_N x) (2 ^ (w - 1))) as [L|L]; lia.
Qed.

Lemma s2u_bound w x : s2u w x < 2 ^ w.
Proof.
  unfold s2u. assert (0 < 2 ^ Z.of_N w)%Z by (apply Z.pow_pos_nonneg; lia).
  pose proof (Z.mod_pos_bound x (2 ^ Z.of_N w) H).
  pose proof (Zpow_of_N w). lia.
Qed.

Lemma u2s_signed w n : 0 < w -> n < 2 ^ w -> in_signed w (u2s w n).
Proof.
  intros Hw Hn. unfold u2s, in_signed.
  pose proof (pow_split w Hw). pose proof (Zpow_of_N w). pose proof (Zpow_of_N (w - 1)).
  assert (H3 : (0 < 2 ^ Z.of_N (w - 1))%Z) by (apply Z.pow_pos_nonneg; lia).
  destruct (N.ltb_spec n (2 ^ (w - 1))); lia.
Qed.

Lemma s2u_u2s w n : 0 < w -> n < 2 ^ w -> s2u w (u2s w n) = n.
Proof.
  intros Hw Hn. unfold u2s, s2u.
  pose proof (pow_split w Hw). pose proof (Zpow_of_N w). pose proof (Zpow_of_N (w - 1)).
  assert (H3 : (0 < 2 ^ Z.of_N (w - 1))%Z) by (apply Z.pow_pos_nonneg; lia).
  destruct (N.ltb_spec n (2 ^ (w - 1))).
  - rewrite Z.mod_small by lia. lia.
  - rewrite <- (Z.mod_unique (Z.of_N n - 2 ^ Z.of_N w) (2 ^ Z.of_N w) (-1) (Z.of_N n)) by lia. lia.
Qed.

Lemma pow256_2 n : 256 ^ N.of_nat n = 2 ^ (8 * N.of_nat n).
Proof. rewrite N.pow_mul_r. reflexivity. Qed.

(** Bit lemmas for masks and shifts. *)
Lemma lor_shiftl_add a b k : a < 2 ^ k -> N.lor a (N.shiftl b k) = a + b * 2 ^ k.
Proof.
  intros H. rewrite <- N.shiftl_mul_pow2.
  assert (L : N.land a (N.shiftl b k) = 0).
  { apply N.bits_inj_0. intros i. rewrite N.land_spec.
    destruct (N.ltb_spec i k) as [Hi|Hi].
    - rewrite N.shiftl_spec_low by assumption. apply andb_false_r.
    - rewrite <- (N.mod_small a (2 ^ k)) by assumption. rewrite N.mod_pow2_bits_high by assumption. reflexivity. }
  rewrite N.add_nocarry_lxor by assumption. symmetry. now apply N.lxor_lor.
Qed.

Lemma land127 b : N.land b 127 = b mod 128.
Proof. change 127 with (N.ones 7). rewrite N.land_ones. reflexivity. Qed.
Lemma land255 b : N.land b 255 = b mod 256.
Proof. change 255 with (N.ones 8). rewrite N.land_ones. reflexivity. Qed.

Lemma Forall_firstn {A} (P : A -> Prop) n l : Forall P l -> Forall P (firstn n l).
Proof. intros H. rewrite <- (firstn_skipn n l) in H. now apply Forall_app in H as [H _]. Qed.
Lemma Forall_skipn {A} (P : A -> Prop) n l : Forall P l -> Forall P (skipn n l).
Proof. intros H. rewrite <- (firstn_skipn n l) in H. now apply Forall_app in H as [_ H]. Qed.
