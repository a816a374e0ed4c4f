(** Property C39: access to raw rows. *)
From Coq Require Import String Lia.
From Verif Require Import Base Types Text RawRow RawRowProofs.
Local Open Scope list_scope.
Local Open Scope N_scope.

(** A column that has not been read yet is found by its position, or by its name if it is the
    first with that name; reading gives the conversion of the stored value and type, empties that
    position and touches no other. *)
Theorem C39_read : forall (T : Type) (conv : ty -> value -> res T) ix r i n t v,
  finds ix r i -> nth_error r i = Some (Some (n, t, v)) ->
  exists r', rr_try_get conv ix r = (r', conv t v) /\ List.length r' = List.length r /\
    nth_error r' i = Some None /\ forall j, j <> i -> nth_error r' j = nth_error r j.
Proof.
  intros T conv ix r i n t v F H. pose proof (nth_error_lt _ _ _ H) as L. exists (set_nth i None r).
  split; [|split; [apply set_nth_length|split; [now apply set_nth_same|intros j J; apply set_nth_other; congruence]]].
  unfold rr_try_get, rr_take. rewrite (find_index_finds ix r i F L), H. reflexivity.
Qed.

(** Reading a position that has been read is an error for ever, whatever happens in between
    (other reads, replacing or adding columns): a value is handed out at most once. *)
Theorem C39_read_once : forall ops r i (T : Type) (conv : ty -> value -> res T),
  nth_error r i = Some None ->
  rr_try_get conv (ByIndex i) (fst (rr_run ops r)) = (fst (rr_run ops r), Err EDoubleFetch).
Proof.
  intros ops r i T conv H. apply (taken_forever ops) in H. pose proof (nth_error_lt _ _ _ H) as L.
  unfold rr_try_get, rr_take. rewrite (find_index_finds (ByIndex i) _ i eq_refl L), H. reflexivity.
Qed.

(** By name the column is then gone: the same name finds the next column with it, or nothing. *)
Theorem C39_read_name_missing : forall r n (T : Type) (conv : ty -> value -> res T),
  n <> [] -> (forall m t v, In (Some (m, t, v)) r -> m <> n) ->
  rr_try_get conv (ByName n) r = (r, Err EOutOfBounds).
Proof.
  intros r n T conv NE A. unfold rr_try_get, rr_take. cbn [find_index].
  replace (position n (map cell_name r)) with (@None nat); [reflexivity|]. symmetry. apply position_none.
  intros I. apply in_map_iff in I as ([[[m t] v]|] & E & I); cbn [cell_name] in E; [now apply (A m t v I)|congruence].
Qed.

(** Positions beyond the end: an error, except the first one beyond the end, which panics. *)
Theorem C39_out_of_range : forall r i (T : Type) (conv : ty -> value -> res T),
  ((List.length r < i)%nat -> rr_try_get conv (ByIndex i) r = (r, Err EOutOfBounds)) /\
  (i = List.length r -> rr_try_get conv (ByIndex i) r = (r, Panic)).
Proof.
  intros r i T conv. unfold rr_try_get, rr_take. cbn [find_index]. rewrite map_length. split.
  - intros L. destruct (Nat.leb_spec i (List.length r)); [lia|reflexivity].
  - intros ->. rewrite Nat.leb_refl.
    replace (nth_error r (List.length r)) with (@None cell); [reflexivity|]. symmetry. apply nth_error_None. lia.
Qed.

(** So "out-of-range reads are errors" is false. *)
Theorem C39_out_of_range_refuted : exists r i (conv : ty -> value -> res value), (List.length r <= i)%nat /\ snd (rr_try_get conv (ByIndex i) r) = Panic.
Proof. exists [], 0%nat, (fun _ v => Ok v). split; [apply le_n|reflexivity]. Qed.

(** A fallible read panics in that case and if the conversion does, and in no other. *)
Theorem C39_read_panics_iff : forall ix r (T : Type) (conv : ty -> value -> res T),
  snd (rr_try_get conv ix r) = Panic <->
  ix = ByIndex (List.length r) \/ exists i n t v, finds ix r i /\ nth_error r i = Some (Some (n, t, v)) /\ conv t v = Panic.
Proof.
  intros ix r T conv. split.
  - unfold rr_try_get, rr_take. destruct (find_index ix (map cell_name r)) as [i|] eqn:F; [|discriminate].
    assert (FI : (i < List.length r)%nat -> finds ix r i).
    { intros L. destruct ix as [j|n]; cbn [find_index finds] in *; [destruct (Nat.leb _ _); congruence|]. now apply position_some. }
    destruct (nth_error r i) as [[[[n t] v]|]|] eqn:E; cbn [snd rbind fst]; [|discriminate|].
    + intros P. right. exists i, n, t, v. split; [|auto]. apply FI. now apply nth_error_lt in E.
    + intros _. left. apply nth_error_None in E. destruct ix as [j|n]; cbn [find_index] in F.
      * destruct (Nat.leb_spec j (List.length (map cell_name r))) as [L|L]; [|discriminate]. injection F as ->. rewrite map_length in L. f_equal. lia.
      * apply position_some in F as [F _]. apply nth_error_lt in F. rewrite map_length in F. lia.
  - intros [->|(i & n & t & v & F & E & P)].
    + now rewrite (proj2 (C39_out_of_range r _ T conv) eq_refl).
    + pose proof (nth_error_lt _ _ _ E) as L. unfold rr_try_get, rr_take. rewrite (find_index_finds ix r i F L), E. exact P.
Qed.

(** The infallible read does to the row what the fallible one does, returns its value, and panics
    whenever that one does not return a value. *)
Theorem C39_get : forall ix r (T : Type) (conv : ty -> value -> res T),
  fst (rr_get conv ix r) = fst (rr_try_get conv ix r) /\
  (forall x, snd (rr_get conv ix r) = Ok x <-> snd (rr_try_get conv ix r) = Ok x) /\
  (forall e, snd (rr_get conv ix r) <> Err e) /\
  (snd (rr_get conv ix r) = Panic <-> forall x, snd (rr_try_get conv ix r) <> Ok x).
Proof.
  intros ix r T conv. unfold rr_get. destruct (rr_try_get conv ix r) as [r' [y|e|]]; cbn [fst snd]; (split; [reflexivity|]);
    repeat split; try discriminate; try (intros H; now apply H); try (intros _ x; discriminate); try (intros H; exfalso; now apply (H y)); auto.
Qed.
Print Assumptions C39_get.
Example C39_get_nonvacuous : forall v,
  rr_get (fun _ v => Ok v) (ByName (txt "a")) [Some (txt "a", TUInt I8, v)] = ([None], Ok v) /\
  rr_get (fun _ v => Ok v) (ByName (txt "b")) [Some (txt "a", TUInt I8, v)] = ([Some (txt "a", TUInt I8, v)], Panic).
Proof. intros v. split; reflexivity. Qed.

(** Setting a column: the converted value replaces the value and type of the first column with
    that name in place, or is appended; nothing else changes. *)
Theorem C39_set_replaces : forall name t conv r i n0 t0 v0 v t',
  conv t = Ok v -> (match t with Some x => Ok x | None => guess_type v end) = Ok t' ->
  finds (ByName name) r i -> nth_error r i = Some (Some (n0, t0, v0)) ->
  rr_set name t conv r = (set_nth i (Some (name, t', v)) r, Ok tt) /\ n0 = name.
Proof.
  intros name t conv r i n0 t0 v0 v t' C G F H. pose proof (nth_error_lt _ _ _ H) as L. unfold rr_set. rewrite C, G.
  pose proof (find_index_finds (ByName name) r i F L) as P. cbn [find_index] in P. rewrite P, H.
  destruct F as [F _]. rewrite nth_error_map, H in F. cbn [option_map cell_name] in F. injection F as ->. auto.
Qed.
Theorem C39_set_appends : forall name t conv r v t',
  conv t = Ok v -> (match t with Some x => Ok x | None => guess_type v end) = Ok t' ->
  ~ In name (map cell_name r) -> rr_set name t conv r = (r ++ [Some (name, t', v)], Ok tt).
Proof.
  intros name t conv r v t' C G NI. unfold rr_set. rewrite C, G. apply position_none in NI. now rewrite NI.
Qed.

(** A column that was set is read back by name (the row having no unread position named "" that
    would be confused with taken ones). *)
Theorem C39_set_then_get : forall name t v r r' (T : Type) (conv : ty -> value -> res T), name <> [] ->
  rr_set name (Some t) (fun _ => Ok v) r = (r', Ok tt) -> snd (rr_try_get conv (ByName name) r') = conv t v.
Proof.
  intros name t v r r' T conv NE H. unfold rr_set in H. destruct (position name (map cell_name r)) as [i|] eqn:P.
  - destruct (position_some _ _ _ P) as [A B]. rewrite nth_error_map in A.
    destruct (nth_error r i) as [[[[n t0] v0]|]|] eqn:E; cbn [option_map cell_name] in A; try discriminate. injection A as ->. injection H as <-.
    pose proof (nth_error_lt _ _ _ E) as L. unfold rr_try_get, rr_take.
    rewrite (find_index_finds (ByName name) _ i); [|split|rewrite set_nth_length; exact L].
    + rewrite set_nth_same by exact L. reflexivity.
    + rewrite nth_error_map, set_nth_same by exact L. reflexivity.
    + intros j J. rewrite nth_error_map, set_nth_other by lia. rewrite <- nth_error_map. now apply B.
  - injection H as <-. apply position_none in P. unfold rr_try_get, rr_take.
    rewrite (find_index_finds (ByName name) _ (List.length r)); [|split|rewrite app_length; cbn; lia].
    + rewrite nth_error_app2, Nat.sub_diag by lia. reflexivity.
    + rewrite nth_error_map, nth_error_app2, Nat.sub_diag by lia. reflexivity.
    + intros j J E. rewrite nth_error_map, nth_error_app1 in E by exact J. rewrite <- nth_error_map in E. apply P. now apply nth_error_In in E.
Qed.

(** Setting the column named "" panics as soon as an earlier column has been read. *)
Theorem C39_set_panics_iff : forall name t v r,
  snd (rr_set name (Some t) (fun _ => Ok v) r) = Panic <-> exists i, finds (ByName name) r i /\ nth_error r i = Some None.
Proof.
  intros name t v r. unfold rr_set. destruct (position name (map cell_name r)) as [i|] eqn:P.
  - destruct (position_some _ _ _ P) as [A B].
    assert (U : forall k, finds (ByName name) r k -> k = i).
    { intros k [K1 K2]. assert (L : position name (map cell_name r) = Some k) by now apply position_first. congruence. }
    split.
    + destruct (nth_error r i) as [[[[n t0] v0]|]|] eqn:E; cbn [snd]; try discriminate.
      * intros _. exists i. repeat split; assumption.
      * intros _. apply nth_error_lt in A. apply nth_error_None in E. rewrite map_length in A. lia.
    + intros (k & F & E). rewrite (U k F) in E. now rewrite E.
  - split; [discriminate|]. intros (k & [F _] & _). apply position_none in P. exfalso. apply P. now apply nth_error_In in F.
Qed.
Theorem C39_set_empty_name_refuted : exists r t v, snd (rr_set [] (Some t) (fun _ => Ok v) (fst (rr_take (ByIndex 0) r))) = Panic
  /\ snd (rr_take (ByIndex 0) r) = Ok (TUInt I8, VUInt I8 1).
Proof. exists [Some (txt "a", TUInt I8, VUInt I8 1)], TString, (VString []). split; reflexivity. Qed.

(** Sending a row: every column in order, or a panic if one of them has been read. *)
Theorem C39_send : forall r,
  (forall out, rr_serialize r = Ok out <-> exists m, r = map Some m /\ out = map (fun c => (fst (fst c), snd c)) m) /\
  (rr_serialize r = Panic <-> In None r) /\ (forall e, rr_serialize r <> Err e).
Proof. intros r. split; [intros out; apply rr_serialize_ok|]. split; [apply rr_serialize_panics|apply rr_serialize_no_err]. Qed.

Example C39_nonvacuous :
  let r := rr_deserialize [(txt "a", TUInt I8, VUInt I8 1); (txt "b", TString, VString [104])] in
  let '(r1, x1) := rr_try_get (fun _ v => Ok v) (ByName (txt "b")) r in
  let '(r2, x2) := rr_try_get (fun _ v => Ok v) (ByIndex 1) r1 in
  let '(r3, x3) := rr_set (txt "b") None (fun _ => Ok (VUInt I16 7)) r2 in
  x1 = Ok (VString [104]) /\ x2 = Err EDoubleFetch /\ x3 = Ok tt /\
  r3 = [Some (txt "a", TUInt I8, VUInt I8 1); None; Some (txt "b", TUInt I16, VUInt I16 7)] /\
  finds (ByName (txt "b")) r3 2 /\ rr_serialize r3 = Panic.
Proof. cbn. repeat split. intros [|[|[|j]]] J; cbn; try discriminate; lia. Qed.

Print Assumptions C39_read.
Print Assumptions C39_read_once.
Print Assumptions C39_read_name_missing.
Print Assumptions C39_out_of_range.
Print Assumptions C39_out_of_range_refuted.
Print Assumptions C39_read_panics_iff.
Print Assumptions C39_set_replaces.
Print Assumptions C39_set_appends.
Print Assumptions C39_set_then_get.
Print Assumptions C39_set_panics_iff.
Print Assumptions C39_set_empty_name_refuted.
Print Assumptions C39_send.
