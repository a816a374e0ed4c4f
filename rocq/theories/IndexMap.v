(** Model of [indexmap::IndexMap<String, A>]: an insertion-ordered association list with
    distinct keys.  Only the operations the crate uses. *)
From Coq Require Import Permutation.
From Verif Require Import Base Types Text.

Section IndexMap.
  Context {A : Type}.
  Definition imap := list (text * A).

  (** [get] *)
  Fixpoint im_get (k : text) (m : imap) : option A :=
    match m with [] => None | (k', a) :: r => if text_eqb k k' then Some a else im_get k r end.

  (** [insert]: replaces the value in place if the key exists, else appends. *)
  Fixpoint im_insert (k : text) (a : A) (m : imap) : imap :=
    match m with
    | [] => [(k, a)]
    | (k', a') :: r => if text_eqb k k' then (k', a) :: r else (k', a') :: im_insert k a r
    end.

  (** [swap_remove]: the entry is replaced by the last one, which is popped. *)
  Fixpoint im_swap_remove (k : text) (m : imap) : option (A * imap) :=
    match m with
    | [] => None
    | (k', a) :: r =>
        if text_eqb k k' then
          Some (a, match r with [] => [] | _ => last r (k', a) :: removelast r end)
        else match im_swap_remove k r with
             | Some (x, r') => Some (x, (k', a) :: r')
             | None => None
             end
    end.

  Definition im_keys (m : imap) : list text := map fst m.

  Lemma im_get_none k m : ~ In k (im_keys m) -> im_get k m = None.
  Proof.
    induction m as [|[k' a] m IH]; intros H; [reflexivity|]. cbn [im_get].
    destruct (text_eqb k k') eqn:E; [apply text_eqb_eq in E; subst; exfalso; apply H; now left|].
    apply IH. intros Hi; apply H; now right.
  Qed.
  Lemma im_get_some_in k m a : im_get k m = Some a -> In (k, a) m.
  Proof.
    induction m as [|[k' a'] m IH]; cbn [im_get]; [discriminate|].
    destruct (text_eqb k k') eqn:E; [apply text_eqb_eq in E; subst; intros [= ->]; now left|]. intros H; right; auto.
  Qed.
  Lemma im_get_in k m a : NoDup (im_keys m) -> In (k, a) m -> im_get k m = Some a.
  Proof.
    induction m as [|[k' a'] m IH]; intros Hn; [intros []|]. cbn [im_get im_keys map fst] in *. inversion Hn; subst.
    intros [[= -> ->]|H]; [now rewrite text_eqb_refl|].
    destruct (text_eqb k k') eqn:E; [|auto]. apply text_eqb_eq in E; subst.
    exfalso. apply H1. apply (in_map fst) in H. exact H.
  Qed.
  Lemma im_get_iff k m a : NoDup (im_keys m) -> (im_get k m = Some a <-> In (k, a) m).
  Proof. intros H. split; [apply im_get_some_in|now apply im_get_in]. Qed.

  Lemma im_insert_new k a m : ~ In k (im_keys m) -> im_insert k a m = m ++ [(k, a)].
  Proof.
    induction m as [|[k' a'] m IH]; intros H; [reflexivity|]. cbn [im_insert].
    destruct (text_eqb k k') eqn:E; [apply text_eqb_eq in E; subst; exfalso; apply H; now left|].
    cbn [app]. f_equal. apply IH. intros Hi; apply H; now right.
  Qed.
  Lemma im_insert_keys k a m : im_keys (im_insert k a m) = if existsb (text_eqb k) (im_keys m) then im_keys m else im_keys m ++ [k].
  Proof.
    induction m as [|[k' a'] m IH]; [reflexivity|]. cbn [im_insert im_keys map fst existsb].
    destruct (text_eqb k k') eqn:E; cbn [orb im_keys map fst]; [reflexivity|].
    unfold im_keys in IH. rewrite IH. destruct (existsb (text_eqb k) (map fst m)); reflexivity.
  Qed.
  Lemma im_get_insert k a m k' : im_get k' (im_insert k a m) = if text_eqb k' k then Some a else im_get k' m.
  Proof.
    induction m as [|[k0 a0] m IH]; cbn [im_insert im_get]; [reflexivity|].
    destruct (text_eqb k k0) eqn:E.
    - apply text_eqb_eq in E; subst k0. cbn [im_get]. destruct (text_eqb k' k); reflexivity.
    - cbn [im_get]. rewrite IH. destruct (text_eqb k' k0) eqn:E0; [|reflexivity].
      apply text_eqb_eq in E0; subst k0. destruct (text_eqb k' k) eqn:E1; [|reflexivity].
      apply text_eqb_eq in E1; subst. rewrite text_eqb_refl in E. discriminate.
  Qed.

  Lemma swap_remove_perm k m : match im_swap_remove k m with
    | Some (a, m') => exists p q, m = p ++ (k, a) :: q /\ Permutation m' (p ++ q) /\ ~ In k (im_keys p)
    | None => ~ In k (im_keys m)
    end.
  Proof.
    induction m as [|[k' a] m IH]; cbn [im_swap_remove]; [intros []|].
    destruct (text_eqb k k') eqn:E.
    - apply text_eqb_eq in E; subst. exists [], m. repeat split; [|intros []]. cbn [app].
      destruct m as [|x m]; [reflexivity|].
      rewrite (app_removelast_last (k', a) (l := x :: m)) at 3 by discriminate.
      apply Permutation_cons_append.
    - apply text_eqb_neq in E. destruct (im_swap_remove k m) as [[x m']|].
      + destruct IH as (p & q & -> & P & Hn). exists ((k', a) :: p), q. repeat split.
        * cbn [app]. now constructor.
        * intros [H|H]; [cbn in H; congruence|auto].
      + intros [H|H]; [cbn in H; congruence|auto].
  Qed.

  Lemma perm_get m m' k : NoDup (im_keys m) -> Permutation m' m -> im_get k m' = im_get k m.
  Proof.
    intros Hn P. assert (Hn' : NoDup (im_keys m')).
    { eapply Permutation_NoDup; [|exact Hn]. apply Permutation_sym. now apply Permutation_map. }
    destruct (im_get k m) as [a|] eqn:E.
    - apply im_get_in; [exact Hn'|]. apply im_get_some_in in E. eapply Permutation_in; [apply Permutation_sym, P|exact E].
    - destruct (im_get k m') as [a|] eqn:E'; [|reflexivity]. apply im_get_some_in in E'.
      apply (Permutation_in _ P) in E'. apply (im_get_in _ _ _ Hn) in E'. congruence.
  Qed.

  Lemma swap_remove_get k m : NoDup (im_keys m) -> match im_swap_remove k m with
    | Some (a, m') => im_get k m = Some a /\ NoDup (im_keys m') /\ (forall k', k' <> k -> im_get k' m' = im_get k' m)
    | None => im_get k m = None
    end.
  Proof.
    intros Hn. pose proof (swap_remove_perm k m) as S. destruct (im_swap_remove k m) as [[a m']|]; [|now apply im_get_none].
    destruct S as (p & q & -> & P & Hp).
    assert (Hpq : NoDup (im_keys (p ++ q))).
    { unfold im_keys in *. rewrite map_app in *. cbn [map] in Hn. now apply NoDup_remove_1 in Hn. }
    split; [|split].
    - apply im_get_in; [exact Hn|]. apply in_app_iff; right; now left.
    - eapply Permutation_NoDup; [|exact Hpq]. apply Permutation_sym. now apply Permutation_map.
    - intros k' Hk. rewrite (perm_get (p ++ q) m' k' Hpq P). clear - Hk.
      induction p as [|[k0 a0] p IH]; cbn [app im_get].
      + apply text_eqb_neq in Hk. now rewrite Hk.
      + destruct (text_eqb k' k0); [reflexivity|exact IH].
  Qed.
End IndexMap.
Arguments imap A : clear implicits.
