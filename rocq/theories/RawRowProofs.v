(** Proofs about raw rows and type inference. *)
From Verif Require Import Base Types Text RawRow.

Lemma position_some n l i : position n l = Some i -> nth_error l i = Some n /\ forall j, (j < i)%nat -> nth_error l j <> Some n.
Proof.
  revert i. induction l as [|x l IH]; intros i; cbn [position]; [discriminate|]. destruct (text_eqb x n) eqn:E.
  - intros [= <-]. apply text_eqb_eq in E. subst. split; [reflexivity|]. intros j J. lia.
  - destruct (position n l) as [k|]; [|discriminate]. intros [= <-]. destruct (IH k eq_refl) as [A B]. split; [exact A|].
    intros [|j] J; cbn [nth_error]; [|apply B; lia]. intros [= ->]. now rewrite text_eqb_refl in E.
Qed.
Lemma position_none n l : position n l = None <-> ~ In n l.
Proof.
  induction l as [|x l IH]; cbn [position In]; [tauto|]. destruct (text_eqb x n) eqn:E.
  - apply text_eqb_eq in E. split; [discriminate|]. intros H. exfalso. apply H. now left.
  - destruct (position n l); cbn [option_map]; split; try discriminate.
    + intros H. exfalso. apply H. right. destruct IH as [_ IH]. destruct (in_dec (list_eq_dec N.eq_dec) n l) as [I|I]; [exact I|]. discriminate (IH I).
    + intros _ [->|I]; [now rewrite text_eqb_refl in E|]. now apply IH.
    + reflexivity.
Qed.
Lemma position_first n l i : nth_error l i = Some n -> (forall j, (j < i)%nat -> nth_error l j <> Some n) -> position n l = Some i.
Proof.
  revert l. induction i as [|i IH]; intros [|x l] H F; try discriminate; cbn [nth_error position] in *.
  - injection H as ->. now rewrite text_eqb_refl.
  - destruct (text_eqb x n) eqn:E; [apply text_eqb_eq in E; subst; exfalso; now apply (F 0%nat ltac:(lia))|].
    rewrite (IH l H); [reflexivity|]. intros j J. apply (F (S j)). lia.
Qed.

Lemma set_nth_length {A} i (a : A) l : length (set_nth i a l) = length l.
Proof. revert i. induction l as [|x l IH]; intros [|i]; cbn [set_nth length]; auto. Qed.
Lemma set_nth_same {A} i (a : A) l : (i < length l)%nat -> nth_error (set_nth i a l) i = Some a.
Proof. revert i. induction l as [|x l IH]; intros [|i] H; cbn [set_nth length nth_error] in *; try lia; [reflexivity|]. apply IH. lia. Qed.
Lemma set_nth_other {A} i j (a : A) l : i <> j -> nth_error (set_nth i a l) j = nth_error l j.
Proof. revert i j. induction l as [|x l IH]; intros [|i] [|j] H; cbn [set_nth nth_error]; try reflexivity; try lia. apply IH. lia. Qed.

Lemma nth_error_lt {A} (l : list A) i x : nth_error l i = Some x -> (i < length l)%nat.
Proof. intros H. apply nth_error_Some. congruence. Qed.

(** Where a lookup goes. *)
Definition finds (ix : row_index) (r : raw_row) (i : nat) : Prop :=
  match ix with
  | ByIndex j => i = j
  | ByName n => nth_error (map cell_name r) i = Some n /\ forall j, (j < i)%nat -> nth_error (map cell_name r) j <> Some n
  end.
Lemma find_index_finds ix r i : finds ix r i -> (i < length r)%nat -> find_index ix (map cell_name r) = Some i.
Proof.
  destruct ix; cbn [finds find_index].
  - intros -> L. rewrite map_length. destruct (Nat.leb_spec i0 (length r)); [reflexivity|lia].
  - intros [A B] _. now apply position_first.
Qed.

Lemma taken_kept o r i : nth_error r i = Some None -> nth_error (fst (rr_op o r)) i = Some None.
Proof.
  intros H. pose proof (nth_error_lt _ _ _ H) as L. destruct o as [ix c|n t c]; cbn [rr_op].
  - unfold rr_try_get, rr_take. destruct (find_index _ _) as [j|]; [|exact H]. destruct (nth_error r j) as [[[[n t] v]|]|] eqn:E; try exact H.
    rewrite ?E. cbn [fst snd rbind]. destruct (Nat.eq_dec j i) as [->|NE]; [congruence|]. cbn [fst]. now rewrite set_nth_other.
  - unfold rr_set. destruct (c t) as [v| |]; try exact H. destruct (match t with Some t => _ | None => _ end); try exact H.
    destruct (position _ _) as [j|].
    + destruct (nth_error r j) as [[[[n' t'] v']|]|] eqn:E; try exact H. cbn [fst].
      destruct (Nat.eq_dec j i) as [->|NE]; [congruence|]. now rewrite set_nth_other.
    + cbn [fst]. rewrite nth_error_app1; assumption.
Qed.
Lemma taken_forever ops : forall r i, nth_error r i = Some None -> nth_error (fst (rr_run ops r)) i = Some None.
Proof.
  induction ops as [|o ops IH]; intros r i H; cbn [rr_run]; [exact H|].
  pose proof (taken_kept o r i H) as K. destruct (rr_op o r) as [r' x]. cbn [fst] in K.
  specialize (IH r' i K). destruct (rr_run ops r') as [r'' xs]. exact IH.
Qed.

Lemma rr_serialize_ok r out : rr_serialize r = Ok out <-> exists m, r = map Some m /\ out = map (fun c => (fst (fst c), snd c)) m.
Proof.
  split.
  - revert out. induction r as [|[[[n t] v]|] r IH]; intros out; cbn [rr_serialize]; [|destruct (rr_serialize r) as [o| |]; try discriminate|discriminate].
    + intros [= <-]. now exists [].
    + cbn [rbind]. intros E. assert (E' : out = (n, v) :: o) by congruence. subst out. destruct (IH o eq_refl) as (m & -> & ->). now exists ((n, t, v) :: m).
  - intros (m & -> & ->). induction m as [|[[n t] v] m IH]; [reflexivity|]. cbn [map rr_serialize fst snd]. now rewrite IH.
Qed.
Lemma rr_serialize_panics r : rr_serialize r = Panic <-> In None r.
Proof.
  induction r as [|[[[n t] v]|] r IH]; cbn [rr_serialize In]; [split; [discriminate|tauto]| |split; [auto|reflexivity]].
  split.
  - destruct (rr_serialize r); cbn [rbind]; try discriminate. intros _. right. now apply IH.
  - intros [H|H]; [discriminate|]. apply IH in H. now rewrite H.
Qed.
Lemma rr_serialize_no_err r e : rr_serialize r <> Err e.
Proof. induction r as [|[[[n t] v]|] r IH]; cbn [rr_serialize]; try discriminate. destruct (rr_serialize r); cbn [rbind]; congruence. Qed.

(* ---------------- guess_type ---------------- *)

Lemma guess_tuple_eq l : guess_type (VTuple l) = (ts <- mapM guess_type l ;; Ok (TTuple ts)).
Proof.
  cbn [guess_type]. f_equal. induction l as [|x l IH]; cbn [mapM]; [reflexivity|]. now rewrite IH.
Qed.
