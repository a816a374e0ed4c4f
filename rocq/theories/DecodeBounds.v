(** Nothing that is decoded has more than 2^30 elements, at any depth (C10). *)
From Verif Require Import Base Io IoProofs Types Ser Deser ColumnSpec ColumnProofs ColumnRoundtrip DecodeProofs DecodeProofs2 ConvertSpec DecodeTyped.

(** Specification: no array, map, ring, polygon or multipolygon in the value has more than 2^30 members. *)
Fixpoint bounded (v : value) : bool :=
  match v with
  | VArray l => (lenN l <=? 2 ^ 30) && forallb bounded l
  | VTuple l => forallb bounded l
  | VMap ks vs => (lenN ks <=? 2 ^ 30) && (lenN vs <=? 2 ^ 30) && forallb bounded ks && forallb bounded vs
  | VRing r => lenN r <=? 2 ^ 30
  | VPolygon p => (lenN p <=? 2 ^ 30) && forallb (fun r => lenN r <=? 2 ^ 30) p
  | VMultiPolygon m => (lenN m <=? 2 ^ 30) && forallb (fun p => (lenN p <=? 2 ^ 30) && forallb (fun r => lenN r <=? 2 ^ 30) p) m
  | _ => true
  end.
Definition small (vs : list value) : Prop := Forall (fun v => bounded v = true) vs /\ lenN vs <= 2 ^ 30.

Lemma takeN_at_most {A} n (l : list A) : lenN (takeN n l) <= lenN l.
Proof. rewrite takeN_firstn. unfold lenN. rewrite firstn_length. lia. Qed.
Lemma dropN_at_most {A} n (l : list A) : lenN (dropN n l) <= lenN l.
Proof. rewrite dropN_skipn. unfold lenN. rewrite skipn_length. lia. Qed.
Lemma split_small {A} M offs : forall p (items : list A) out, lenN items <= M -> split_offsets p offs items = Ok out -> Forall (fun l => lenN l <= M) out.
Proof.
  induction offs as [|o offs IH]; intros p items out L E; cbn [split_offsets] in E.
  - injection E as <-. constructor.
  - destruct (o <? p); [discriminate|]. inv_bind E. injection E as <-. constructor.
    + pose proof (takeN_at_most (o - p) items). lia.
    + eapply IH; [|exact E0]. pose proof (dropN_at_most (o - p) items). lia.
Qed.
Lemma mapM_lenN {A B} (f : A -> res B) l : forall m, mapM f l = Ok m -> lenN m = lenN l.
Proof.
  induction l as [|a l IH]; intros m E; cbn [mapM] in E; [injection E as <-; reflexivity|]. inv_bind E. inv_bind E. injection E as <-.
  specialize (IH _ E1). unfold lenN in *. cbn [length]. lia.
Qed.

Lemma bd_array {A} (inner : N -> rd (list value)) (Q : A -> Prop) (im : value -> res A) mk rows :
  (forall n, gives small (inner n)) -> (forall v a, bounded v = true -> im v = Ok a -> Q a) ->
  (forall l, Forall Q l -> lenN l <= 2 ^ 30 -> bounded (mk l) = true) ->
  gives (Forall (fun v => bounded v = true)) (deser_array_generic inner im mk rows).
Proof.
  intros G HQ HR. unfold deser_array_generic. destruct (rows =? 0); [apply gv_ret; constructor|].
  eapply gv_bind; [apply gv_local, local_n, local_le|]. intros offs _. eapply gv_bind; [apply G|]. intros items [F L].
  intros inp v rest B E. inv_bind E. inv_bind E. injection E as <- <-. split; [|exact B].
  pose proof (mapM_forall (fun v => bounded v = true) Q im items HQ F _ E0) as F'. pose proof (Forall_split Q offs 0 _ _ F' E1) as F2.
  pose proof (mapM_lenN im items _ E0) as L'. pose proof (split_small (2 ^ 30) offs 0 _ _ ltac:(rewrite L'; exact L) E1) as F3.
  apply Forall_map. apply Forall_forall. intros l I. apply HR; [exact (proj1 (Forall_forall _ _) F2 l I)|exact (proj1 (Forall_forall _ _) F3 l I)].
Qed.

Lemma check_le {A} n (r : rd A) inp v : check_rows n r inp = Ok v -> n <= 2 ^ 30.
Proof. unfold check_rows. destruct (N.ltb_spec MAX_STRING_SIZE n) as [|L]; [discriminate|]. intros _. exact L. Qed.
Lemma deser_le t rows inp v rest : deser t rows inp = Ok (v, rest) -> rows <= 2 ^ 30.
Proof. intros E. destruct (N.le_gt_cases rows (2 ^ 30)) as [L|L]; [exact L|]. now rewrite (too_many_rows t rows inp L) in E. Qed.
(** Every column is at most as long as asked for, which is at most 2^30. *)
Lemma bd_all t rows : gives (Forall (fun v => bounded v = true)) (deser t rows) -> gives small (deser t rows).
Proof.
  intros G inp v rest B E. destruct (G _ _ _ B E) as [F B']. split; [|exact B']. split; [exact F|].
  pose proof (deser_at_most _ _ _ _ _ E). pose proof (deser_le t rows inp v rest E). lia.
Qed.
Lemma bd_inner t (r : N -> rd (list value)) : (forall n inp, deser t n inp = check_rows n (r n) inp) ->
  (forall n inp v, r n inp = Ok v -> n <= 2 ^ 30) -> (forall n, gives (Forall (fun v => bounded v = true)) (r n)) -> forall n, gives small (r n).
Proof.
  intros EQ LE G n inp v rest B E. destruct (G n _ _ _ B E) as [F B']. split; [|exact B']. split; [exact F|].
  pose proof (LE n inp _ E) as L. assert (D : deser t n inp = Ok (v, rest)).
  { rewrite EQ. unfold check_rows. apply N.ltb_ge in L. unfold MAX_STRING_SIZE. now rewrite L. }
  pose proof (deser_at_most _ _ _ _ _ D). lia.
Qed.
Lemma bd_point n : gives small (deser_point n).
Proof.
  apply (bd_inner TPoint deser_point); [reflexivity|intros; eapply check_le; eassumption|]. clear n. intros n. apply gv_check.
  eapply gv_bind; [apply gv_float|]. intros xs _. eapply gv_bind; [apply gv_float|]. intros ys _.
  intros inp v rest B E. inv_bind E. inv_bind E. injection E as <- <-. split; [|exact B]. apply Forall_map, Forall_forall. reflexivity.
Qed.
Lemma bd_ring n : gives small (deser_ring n).
Proof.
  apply (bd_inner TRing deser_ring); [reflexivity|intros; eapply check_le; eassumption|]. clear n. intros n. apply gv_check.
  eapply (bd_array deser_point (fun _ => True)); [apply bd_point|auto|]. intros l _ L. now apply N.leb_le.
Qed.
Lemma bd_polygon n : gives small (deser_polygon n).
Proof.
  apply (bd_inner TPolygon deser_polygon); [reflexivity|intros; eapply check_le; eassumption|]. clear n. intros n. apply gv_check.
  eapply (bd_array deser_ring (fun r => (lenN r <=? 2 ^ 30) = true)); [apply bd_ring| |].
  - intros v a P E. destruct v; try discriminate E. injection E as <-. exact P.
  - intros l F L. cbn [bounded]. apply andb_true_intro. split; [now apply N.leb_le|now apply forallb_Forall].
Qed.
Lemma bd_multi n : gives small (deser_multipolygon n).
Proof.
  apply (bd_inner TMultiPolygon deser_multipolygon); [reflexivity|intros; eapply check_le; eassumption|]. clear n. intros n. apply gv_check.
  eapply (bd_array deser_polygon (fun p => ((lenN p <=? 2 ^ 30) && forallb (fun r => lenN r <=? 2 ^ 30) p) = true)); [apply bd_polygon| |].
  - intros v a P E. destruct v; try discriminate E. injection E as <-. exact P.
  - intros l F L. cbn [bounded]. apply andb_true_intro. split; [now apply N.leb_le|now apply forallb_Forall].
Qed.

Lemma bd_map : forall offs p ks vs out, small ks -> small vs -> split_map p offs ks vs = Ok out -> Forall (fun v => bounded v = true) out.
Proof.
  induction offs as [|o offs IH]; intros p ks vs out [Fk Lk] [Fv Lv] E; cbn [split_map] in E; [injection E as <-; constructor|].
  destruct (_ || _) eqn:L; [discriminate|]. inv_bind E. injection E as <-. constructor.
  - cbn [bounded]. pose proof (takeN_at_most (o - p) ks). pose proof (takeN_at_most (o - p) vs).
    rewrite !andb_true_iff, !N.leb_le. split; [split; [split; lia|]|]; now apply forallb_Forall, Forall_takeN.
  - eapply IH; [| |exact E0].
    + split; [now apply Forall_dropN|]. pose proof (dropN_at_most (o - p) ks). lia.
    + split; [now apply Forall_dropN|]. pose proof (dropN_at_most (o - p) vs). lia.
Qed.
Lemma bd_push : forall acc col out, Forall (Forall (fun v => bounded v = true)) acc -> Forall (fun v => bounded v = true) col ->
  push_column acc col = Ok out -> Forall (Forall (fun v => bounded v = true)) out.
Proof.
  induction acc as [|l acc IH]; intros [|v col] out Fa Fc E; cbn [push_column] in E; try discriminate; try (injection E as <-; exact Fa).
  inv_bind E. injection E as <-. pose proof (Forall_inv Fa) as Hl. pose proof (Forall_inv Fc) as Hv. apply Forall_inv_tail in Fa, Fc.
  constructor; [apply Forall_app; split; [exact Hl|repeat constructor; exact Hv]|]. exact (IH _ _ Fa Fc E0).
Qed.
Lemma bd_cols rows : forall ts acc, Forall (fun t => forall n, gives (Forall (fun v => bounded v = true)) (deser t n)) ts ->
  Forall (Forall (fun v => bounded v = true)) acc -> gives (Forall (Forall (fun v => bounded v = true))) (deser_cols rows ts acc).
Proof.
  induction ts as [|t ts IH]; intros acc G Fa; cbn [deser_cols]; [now apply gv_ret|].
  fold (deser_cols rows). pose proof (Forall_inv G) as G1. apply Forall_inv_tail in G. eapply gv_bind; [apply G1|]. intros col Fc.
  intros inp v rest B E. inv_bind E. exact (IH a G (bd_push acc col a Fa Fc E0) inp v rest B E).
Qed.

Lemma bd_leaf_sized t : ty_leaf t = true -> is_geo t = false -> gives (fun v => bounded v = true) (dec_sized t).
Proof.
  intros L NG. eapply gv_weaken; [|now apply gv_dec_sized]. intros v [T _]. destruct t; try discriminate L; try discriminate NG; destruct v; try discriminate T; try reflexivity; try (match goal with w : iw |- _ => destruct w end; discriminate T).
Qed.

Lemma deser_bounded t : forall rows, gives (Forall (fun v => bounded v = true)) (deser t rows).
Proof.
  induction t as [t Hl|t IH IHs|t IH|ts IH|t IH|k v IHk IHv] using ty_ind_strip; intros rows.
  - assert (K : forall r, gives (fun v => bounded v = true) r -> gives (Forall (fun v => bounded v = true)) (read_n (N.to_nat rows) r)).
    { intros r G. eapply gv_weaken; [|apply gv_n, G]. intros l [_ F]. exact F. }
    assert (W : forall r, gives small r -> gives (Forall (fun v => bounded v = true)) r).
    { intros r G. eapply gv_weaken; [|apply G]. intros l [F _]. exact F. }
    assert (ST : forall t', t' = TString \/ (exists n, t' = TFixedString n) -> gives (fun v => bounded v = true) (dec_string t')).
    { intros t' H. eapply gv_weaken; [|now apply gv_dec_string]. intros v [T _]. destruct H as [->|[n ->]]; destruct v; try discriminate T; reflexivity. }
    destruct t; try discriminate Hl; apply gv_check;
      first [ apply W, bd_point | apply W, bd_ring | apply W, bd_polygon | apply W, bd_multi
            | apply K; apply ST; eauto; fail | apply K; now apply bd_leaf_sized ].
  - rewrite deser_lc_eq. apply gv_check. intros inp v rest B E. unfold deser_low_card in E.
    eapply (gv_loop (deser (strip_null t)) (fun v => bounded v = true) (is_nullable t)); [apply IHs|reflexivity| |constructor|exact B|exact E].
    split; exact I.
  - cbn [deser]. apply gv_check. eapply (bd_array (deser t) (fun v => bounded v = true)); [intros n; apply bd_all, IH|intros v a P E; now injection E as <-|].
    intros l F L. cbn [bounded]. apply andb_true_intro. split; [now apply N.leb_le|now apply forallb_Forall].
  - rewrite deser_tuple_eq. apply gv_check. eapply gv_bind; [apply (bd_cols rows ts); [exact IH|]|].
    + apply Forall_forall. intros l I. apply repeat_spec in I as ->. constructor.
    + intros tu F. apply gv_ret. apply Forall_map. eapply Forall_impl; [|exact F]. intros l Fl. cbn [bounded]. now apply forallb_Forall.
  - cbn [deser]. apply gv_check. eapply gv_bind; [apply gv_exact|]. intros mask _. eapply gv_bind; [apply IH|]. intros out F.
    apply gv_pure. intros r E. eapply mask_ok; [reflexivity|exact F|exact E].
  - cbn [deser]. apply gv_check. destruct (rows =? 0); [apply gv_ret; constructor|].
    eapply gv_bind; [apply gv_local, local_n, local_le|]. intros offs _. cbv zeta. eapply gv_bind; [apply bd_all, IHk|]. intros ks Fk.
    destruct (negb _); [apply gv_panic|]. eapply gv_bind; [apply bd_all, IHv|]. intros vs Fv. destruct (negb _); [apply gv_panic|].
    apply gv_pure. intros r E. exact (bd_map _ _ _ _ _ Fk Fv E).
Qed.
