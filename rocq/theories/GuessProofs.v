(** Type inference for values. *)
From Verif Require Import Base Io Types RawRow ColumnSpec ConvertSpec.

Definition is_enum (v : value) : bool := match v with VEnum8 _ | VEnum16 _ => true | _ => false end.
Definition guess_first (l : list value) : res ty := match l with [] => Ok TString | x :: _ => guess_type x end.
Definition guess_all : list value -> res (list ty) :=
  fix go l := match l with [] => Ok [] | x :: r => t <- guess_type x ;; ts <- go r ;; Ok (t :: ts) end.
Lemma guess_array l : guess_type (VArray l) = (t <- guess_first l ;; Ok (TArray t)). Proof. reflexivity. Qed.
Lemma guess_tuple l : guess_type (VTuple l) = (ts <- guess_all l ;; Ok (TTuple ts)). Proof. reflexivity. Qed.
Lemma guess_map k v : guess_type (VMap k v) = (a <- guess_first k ;; b <- guess_first v ;; Ok (TMap a b)). Proof. reflexivity. Qed.

Definition decides (v : value) : Prop :=
  (forall e, guess_type v <> Err e) /\ (guess_type v = Panic <-> exists w, leading v w /\ is_enum w = true).

Lemma lead_enum v w : leading v w -> is_enum v = true -> is_enum w = true.
Proof. intros L. induction L; cbn [is_enum]; try discriminate; auto. Qed.

Lemma first_decides l : Forall decides l -> (forall e, guess_first l <> Err e) /\
  (guess_first l = Panic <-> exists x r w, l = x :: r /\ leading x w /\ is_enum w = true).
Proof.
  intros F. destruct F as [|x l [A B] _]; cbn [guess_first].
  - split; [discriminate|]. split; [discriminate|]. intros (x & r & w & E & _). discriminate.
  - split; [exact A|]. rewrite B. split.
    + intros (w & L & E). exists x, l, w. auto.
    + intros (y & r & w & E & L & E'). injection E as <- <-. eauto.
Qed.
Lemma all_decides l : Forall decides l -> (forall e, guess_all l <> Err e) /\
  (guess_all l = Panic <-> exists x w, In x l /\ leading x w /\ is_enum w = true).
Proof.
  induction 1 as [|x l [A B] _ [IHA IHB]]; cbn [guess_all].
  - split; [discriminate|]. split; [discriminate|]. intros (x & w & [] & _).
  - fold guess_all. destruct (guess_type x) as [t|e|] eqn:G; cbn [rbind].
    + destruct (guess_all l) as [ts|e|] eqn:GA; cbn [rbind].
      * split; [discriminate|]. split; [discriminate|]. intros (y & w & [<-|I] & L & E).
        { assert (K : @Ok ty t = Panic) by (apply B; eauto). discriminate. }
        { assert (K : @Ok (list ty) ts = Panic) by (apply IHB; eauto). discriminate. }
      * exfalso. now apply (IHA e).
      * split; [discriminate|]. split; [|reflexivity]. intros _. destruct (proj1 IHB eq_refl) as (y & w & I & L & E). exists y, w. cbn [In]. auto.
    + exfalso. now apply (A e).
    + split; [discriminate|]. split; [|reflexivity]. intros _. destruct (proj1 B eq_refl) as (w & L & E). exists x, w. cbn [In]. auto.
Qed.

Lemma decided v : decides v.
Proof.
  induction v as [v Hv|l IH|l IH|ks vs IHk IHv] using value_nested_ind.
  - destruct v; try contradiction Hv; (split; [discriminate|]); split; try discriminate; try (intros (u & L & E); inversion L; subst; discriminate);
      intros _; eexists; (split; [apply lead_self|reflexivity]).
  - unfold decides. rewrite guess_array. destruct (first_decides l IH) as [A B]. destruct (guess_first l) as [t|e|] eqn:G; cbn [rbind].
    + split; [discriminate|]. split; [discriminate|]. intros (w & L & E). inversion L; subst; [discriminate|].
      assert (K : @Ok ty t = Panic) by (apply B; eauto 6). discriminate.
    + exfalso. now apply (A e).
    + split; [discriminate|]. split; [|reflexivity]. intros _. destruct (proj1 B eq_refl) as (x & r & w & -> & L & E). exists w. split; [now apply lead_array|exact E].
  - unfold decides. rewrite guess_tuple. destruct (all_decides l IH) as [A B]. destruct (guess_all l) as [t|e|] eqn:G; cbn [rbind].
    + split; [discriminate|]. split; [discriminate|]. intros (w & L & E). inversion L; subst; [discriminate|].
      assert (K : @Ok (list ty) t = Panic) by (apply B; eauto 6). discriminate.
    + exfalso. now apply (A e).
    + split; [discriminate|]. split; [|reflexivity]. intros _. destruct (proj1 B eq_refl) as (x & w & I & L & E). exists w. split; [eapply lead_tuple; eauto|exact E].
  - unfold decides. rewrite guess_map. destruct (first_decides ks IHk) as [A B], (first_decides vs IHv) as [A' B'].
    destruct (guess_first ks) as [t|e|] eqn:G; cbn [rbind].
    + destruct (guess_first vs) as [t'|e|] eqn:G'; cbn [rbind].
      * split; [discriminate|]. split; [discriminate|]. intros (w & L & E). inversion L; subst; [discriminate| |].
        { assert (K : @Ok ty t = Panic) by (apply B; eauto 6). discriminate. }
        { assert (K : @Ok ty t' = Panic) by (apply B'; eauto 6). discriminate. }
      * exfalso. now apply (A' e).
      * split; [discriminate|]. split; [|reflexivity]. intros _. destruct (proj1 B' eq_refl) as (x & r & w & -> & L & E). exists w. split; [now apply lead_value|exact E].
    + exfalso. now apply (A e).
    + split; [discriminate|]. split; [|reflexivity]. intros _. destruct (proj1 B eq_refl) as (x & r & w & -> & L & E). exists w. split; [now apply lead_key|exact E].
Qed.

Lemma guess_exact t : forall v, plain_type t = true -> typed t v = true -> shape_ok t v = true -> no_empty v = true -> guess_type v = Ok t.
Proof.
  induction t as [t Hl|t IH|t IH|ts IH|t IH|k w IHk IHv] using ty_ind_leaf; intros v P T S E.
  - destruct t; try discriminate Hl; try discriminate P; destruct v; cbn [typed same_scalar] in T; try discriminate T;
      try (destruct w; try discriminate T; destruct w0; try discriminate T; reflexivity); try reflexivity.
    all: try (apply N.eqb_eq in T; subst; reflexivity).
    all: try (destruct w; discriminate T).
    apply andb_prop in T as [T1 T2]. apply N.eqb_eq in T1, T2. subst. reflexivity.
  - discriminate P.
  - destruct v; cbn [typed same_scalar] in T; try discriminate. cbn [no_empty] in E. destruct l as [|x l]; [discriminate|].
    cbn [forallb plain_type shape_ok] in *. apply andb_prop in E as [_ E]. apply andb_prop in E as [E _], T as [T _], S as [S _].
    rewrite guess_array. cbn [guess_first]. now rewrite (IH x P T S E).
  - destruct v; cbn [typed same_scalar] in T; try discriminate. cbn [no_empty plain_type shape_ok] in *. apply andb_prop in S as [L S]. rewrite L in T.
    rewrite guess_tuple. assert (K : guess_all l = Ok ts); [|now rewrite K].
    apply N.eqb_eq in L. unfold lenN in L. apply Nat2N.inj in L. revert l T S E L. induction IH as [|t ts Ht _ IHts]; intros [|x l] T S E L; try discriminate; [reflexivity|].
    cbn [zip_all forallb] in *. apply andb_prop in T as [T1 T], S as [S1 S], E as [E1 E], P as [P1 P]. cbn [guess_all]. fold guess_all.
    rewrite (Ht x P1 T1 S1 E1). cbn [rbind]. rewrite (IHts P l T S E); [reflexivity|]. now injection L.
  - discriminate P.
  - destruct v; cbn [typed same_scalar] in T; try discriminate. cbn [no_empty plain_type shape_ok] in *.
    apply andb_prop in P as [P1 P2]. destruct ks as [|x ks]; [discriminate|]. destruct vs as [|y vs]; [rewrite andb_false_r in E; discriminate|].
    cbn [forallb] in *. rewrite !andb_true_iff in T, S, E. rewrite ?andb_true_iff in E. rewrite guess_map. cbn [guess_first]. rewrite (IHk x), (IHv y); try tauto; reflexivity.
Qed.

(** The rules give exactly what is inferred. *)
Definition ruled (v : value) : Prop := forall t, guess_type v = Ok t <-> guessed v t.
Lemma first_ruled l : Forall ruled l -> forall t, guess_first l = Ok t <-> guessed_first l t.
Proof.
  intros F t. destruct F as [|x l A _]; cbn [guess_first].
  - split; [intros [= <-]; constructor|inversion 1; reflexivity].
  - rewrite (A t). split; [now constructor|now inversion 1].
Qed.
Lemma all_ruled l : Forall ruled l -> forall ts, guess_all l = Ok ts <-> guessed_all l ts.
Proof.
  induction 1 as [|x l A _ IH]; intros ts; cbn [guess_all]; fold guess_all.
  - split; [intros [= <-]; constructor|inversion 1; reflexivity].
  - split.
    + destruct (guess_type x) as [t|e|] eqn:G; try discriminate. cbn [rbind]. destruct (guess_all l) as [r|e|] eqn:GA; try discriminate. cbn [rbind]. intros [= <-].
      constructor; [now apply A|now apply IH].
    + inversion 1 as [|x' l' t r G GA]; subst. apply A in G. apply IH in GA. rewrite G. cbn [rbind]. now rewrite GA.
Qed.
Lemma guess_ruled v : ruled v.
Proof.
  induction v as [v Hv|l IH|l IH|ks vs IHk IHv] using value_nested_ind; intros t.
  - split.
    + destruct v; try contradiction Hv; intros E; try discriminate E; injection E as <-; try (apply gs_null);
        (apply gs_scalar; [reflexivity|cbn [typed same_scalar]; rewrite ?N.eqb_refl; try reflexivity; destruct w; reflexivity]).
    + inversion 1 as [u t' S T| | | | ]; subst; try reflexivity; try contradiction Hv.
      destruct t; try discriminate S; destruct v; try contradiction Hv; cbn [typed same_scalar] in T; try discriminate T; try reflexivity;
        try (destruct w, w0; try discriminate T; reflexivity).
      all: try (apply N.eqb_eq in T; subst; reflexivity).
      all: try (destruct w; discriminate T).
      apply andb_prop in T as [T1 T2]. apply N.eqb_eq in T1, T2. subst. reflexivity.
  - rewrite guess_array. pose proof (first_ruled l IH) as A. split.
    + destruct (guess_first l) as [t'|e|] eqn:G; try discriminate. cbn [rbind]. intros [= <-]. apply gs_array. now apply A.
    + inversion 1 as [u t' S T| |u t' G| | ]; subst.
      * destruct t; try discriminate S; cbn [typed same_scalar] in T; try discriminate T; destruct w; discriminate T.
      * apply A in G. now rewrite G.
  - rewrite guess_tuple. pose proof (all_ruled l IH) as A. split.
    + destruct (guess_all l) as [t'|e|] eqn:G; try discriminate. cbn [rbind]. intros [= <-]. apply gs_tuple. now apply A.
    + inversion 1 as [u t' S T| | |u ts G| ]; subst.
      * destruct t; try discriminate S; cbn [typed same_scalar] in T; try discriminate T; destruct w; discriminate T.
      * apply A in G. now rewrite G.
  - rewrite guess_map. pose proof (first_ruled ks IHk) as A. pose proof (first_ruled vs IHv) as B. split.
    + destruct (guess_first ks) as [k|e|] eqn:G; try discriminate. cbn [rbind]. destruct (guess_first vs) as [v|e|] eqn:G'; try discriminate. cbn [rbind].
      intros [= <-]. apply gs_map; [now apply A|now apply B].
    + inversion 1 as [u t' S T| | | |u1 u2 k v G G']; subst.
      * destruct t; try discriminate S; cbn [typed same_scalar] in T; try discriminate T; destruct w; discriminate T.
      * apply A in G. apply B in G'. rewrite G. cbn [rbind]. now rewrite G'.
Qed.
