(** Whatever bytes arrive, the values of a decoded column are of the column's type, and every
    number in them is within its machine type. *)
From Verif Require Import Base Io IoProofs Types Ser Deser ColumnSpec ColumnProofs ColumnRoundtrip DecodeProofs DecodeProofs2 ConvertSpec.

Definition gives {A} (P : A -> Prop) (r : rd A) : Prop :=
  forall inp v rest, bytes_ok inp -> r inp = Ok (v, rest) -> P v /\ bytes_ok rest.

Lemma gv_weaken {A} (P Q : A -> Prop) r : (forall a, P a -> Q a) -> gives P r -> gives Q r.
Proof. intros H G inp v rest B E. destruct (G _ _ _ B E). auto. Qed.
Lemma gv_ret {A} (P : A -> Prop) a : P a -> gives P (rret a).
Proof. intros H inp v rest B E. injection E as <- <-. auto. Qed.
Lemma gv_err {A} (P : A -> Prop) e : gives P (rerr e).
Proof. intros inp v rest B E. discriminate. Qed.
Lemma gv_panic {A} (P : A -> Prop) : gives P rpanic.
Proof. intros inp v rest B E. discriminate. Qed.
Lemma gv_bind {A B} (P : A -> Prop) (Q : B -> Prop) r f : gives P r -> (forall a, P a -> gives Q (f a)) -> gives Q (rdbind r f).
Proof.
  intros G H inp v rest B0 E. unfold rdbind in E. inv_bind E. destruct a as [a i1]. destruct (G _ _ _ B0 E0) as [Pa B1].
  exact (H a Pa _ _ _ B1 E).
Qed.
Lemma gv_pure {A} (P : A -> Prop) (x : res A) : (forall a, x = Ok a -> P a) -> gives P (fun inp => a <- x ;; Ok (a, inp)).
Proof. intros H inp v rest B E. inv_bind E. injection E as <- <-. auto. Qed.
Lemma gv_local {A} (r : rd A) : local r -> gives (fun _ => True) r.
Proof.
  intros L inp v rest B E. split; [exact I|]. destruct (L _ _ _ E) as (u & -> & _). unfold bytes_ok in *. now apply Forall_app in B as [_ B].
Qed.
Lemma gv_check {A} (P : A -> Prop) n r : gives P r -> gives P (check_rows n r).
Proof. intros G inp v rest B E. apply check_ok in E. eauto. Qed.
Lemma gv_exact n : gives (fun bs => lenN bs = n /\ bytes_ok bs) (read_exact n).
Proof.
  intros inp v rest B E. apply read_exact_ok in E as [-> L]. unfold bytes_ok in *. apply Forall_app in B as [B1 B2]. auto.
Qed.
Lemma gv_le n : gives (fun x => x < 256 ^ N.of_nat n) (read_le n).
Proof. unfold read_le. eapply gv_bind; [apply gv_exact|]. intros bs [L B]. apply gv_ret. rewrite <- L. now apply le_val_bound. Qed.
Lemma gv_n {A} (P : A -> Prop) n r : gives P r -> gives (fun l => length l = n /\ Forall P l) (read_n n r).
Proof.
  intros G. induction n as [|n IH]; cbn [read_n]; [apply gv_ret; auto|]. eapply gv_bind; [exact G|]. intros a Pa.
  eapply gv_bind; [exact IH|]. intros l [L F]. apply gv_ret. cbn [length]. auto.
Qed.
Lemma gv_string : gives (fun bs => forallb byteb bs = true) read_string.
Proof.
  unfold read_string. eapply gv_bind; [apply gv_local, local_var|]. intros len _. destruct (_ <? len); [apply gv_err|].
  destruct (len =? 0); [now apply gv_ret|]. eapply gv_weaken; [|apply gv_exact]. intros bs [_ B].
  apply forallb_forall. intros b I. apply N.ltb_lt, (proj1 (Forall_forall _ _) B b I).
Qed.

Definition fine (t : ty) (v : value) : Prop := typed t v = true /\ representable v = true.
Definition column (t : ty) (vs : list value) : Prop := Forall (fine t) vs.

Lemma byteb_forall bs : bytes_ok bs -> forallb byteb bs = true.
Proof. intros B. apply forallb_forall. intros b I. apply N.ltb_lt, (proj1 (Forall_forall _ _) B b I). Qed.
Lemma gv_signed w : gives (fun z => signedb (ibits w) z = true) (read_signed w).
Proof.
  unfold read_signed. eapply gv_bind; [apply gv_le|]. intros n H. apply gv_ret.
  assert (E : 256 ^ N.of_nat (ibytes w) = 2 ^ ibits w) by (destruct w; reflexivity). rewrite E in H. clear E.
  assert (D : 2 ^ ibits w = 2 * 2 ^ (ibits w - 1)) by (destruct w; reflexivity).
  unfold u2s, signedb.
  assert (Y : (2 ^ Z.of_N (ibits w) = 2 * Z.of_N (2 ^ (ibits w - 1)))%Z) by (destruct w; reflexivity).
  assert (X : (2 ^ Z.of_N (ibits w - 1) = Z.of_N (2 ^ (ibits w - 1)))%Z) by (rewrite N2Z.inj_pow; reflexivity). rewrite X, Y. rewrite D in H. clear X Y D.
  generalize dependent (2 ^ (ibits w - 1)). intros m H. destruct (N.ltb_spec n m); apply andb_true_intro; split; try apply Z.leb_le; try apply Z.ltb_lt; lia.
Qed.
Lemma gv_256 : gives (fun be => bytes_of_len 32 be = true) read_256.
Proof.
  unfold read_256. eapply gv_bind; [apply gv_exact|]. intros bs [L B]. apply gv_ret. unfold bytes_of_len. unfold lenN in *. rewrite rev_length, L.
  cbn [andb]. apply byteb_forall. unfold bytes_ok. now apply Forall_rev.
Qed.

Lemma gv_dec_sized t : ty_leaf t = true -> gives (fine t) (dec_sized t).
Proof.
  intros L. destruct t; try discriminate L; cbn [dec_sized]; try apply gv_panic.
  all: try (eapply gv_bind; [apply gv_signed|intros q Hz; apply gv_ret; split; [first [destruct w|idtac]; cbn [typed same_scalar]; try apply N.eqb_refl; reflexivity|exact Hz]]).
  all: try (eapply gv_bind; [apply gv_256|intros q Hz; apply gv_ret; split; [cbn [typed same_scalar]; try apply N.eqb_refl; reflexivity|exact Hz]]).
  all: try (eapply gv_bind; [apply gv_exact|intros q [Hl Hz]; apply gv_ret; split; [reflexivity|cbn [representable]; unfold bytes_of_len; rewrite Hl; cbn [N.eqb]; apply byteb_forall in Hz; rewrite Hz; reflexivity]]).
  all: try (eapply gv_bind; [apply gv_le|intros q Hz; apply gv_ret; split; [first [destruct w|idtac]; cbn [typed same_scalar]; rewrite ?N.eqb_refl; reflexivity|]]).
  all: try (cbn [representable]; apply N.ltb_lt; try destruct w; exact Hz).
  eapply gv_bind; [apply gv_le|]. intros a Ha. eapply gv_bind; [apply gv_le|]. intros b Hb. apply gv_ret. split; [reflexivity|].
  cbn [representable]. apply N.ltb_lt. 
  assert (E : 256 ^ N.of_nat 8 = 2 ^ 64) by reflexivity. rewrite E in *. clear E.
  assert (N.land (N.shiftl a 64) b = 0).
  { apply N.bits_inj. intros i. rewrite N.land_spec, N.bits_0. destruct (N.ltb_spec i 64).
    - now rewrite N.shiftl_spec_low.
    - destruct b as [|p]; [now rewrite N.bits_0, andb_false_r|]. rewrite (N.bits_above_log2 (N.pos p) i), andb_false_r; [reflexivity|].
      eapply N.lt_le_trans; [|exact H]. now apply N.log2_lt_pow2. }
  rewrite <- N.lxor_lor by assumption. rewrite <- N.add_nocarry_lxor by assumption. rewrite N.shiftl_mul_pow2.
  change (2 ^ 128) with (2 ^ 64 * 2 ^ 64). revert Ha Hb. generalize (2 ^ 64). intros. nia.
Qed.

Lemma until_nul_bytes l : bytes_ok l -> bytes_ok (until_nul l).
Proof. induction 1 as [|b l H _ IH]; cbn [until_nul]; [constructor|]. destruct (b =? 0); constructor; assumption. Qed.
Lemma gv_dec_string t : t = TString \/ (exists n, t = TFixedString n) -> gives (fine t) (dec_string t).
Proof.
  intros [->|[n ->]]; cbn [dec_string].
  - eapply gv_bind; [apply gv_string|]. intros bs B. apply gv_ret. split; [reflexivity|exact B].
  - destruct (ISIZE_MAX <? n); [apply gv_panic|]. eapply gv_bind; [apply gv_exact|]. intros bs [_ B]. apply gv_ret. split; [reflexivity|]. cbn [representable]. now apply byteb_forall, until_nul_bytes.
Qed.

Lemma Forall_takeN {A} (P : A -> Prop) n l : Forall P l -> Forall P (takeN n l).
Proof. rewrite takeN_firstn. generalize (N.to_nat n) as k. intros k H. revert k. induction H; intros [|k]; constructor; auto. Qed.
Lemma Forall_dropN {A} (P : A -> Prop) n l : Forall P l -> Forall P (dropN n l).
Proof. rewrite dropN_skipn. generalize (N.to_nat n) as k. intros k H. revert k. induction H; intros [|k]; try constructor; auto. cbn [skipn]. auto. Qed.
Lemma Forall_split {A} (P : A -> Prop) offs : forall p items out, Forall P items -> split_offsets p offs items = Ok out -> Forall (Forall P) out.
Proof.
  induction offs as [|o offs IH]; intros p items out F E; cbn [split_offsets] in E.
  - injection E as <-. constructor.
  - destruct (o <? p); [discriminate|]. inv_bind E. injection E as <-. constructor; [now apply Forall_takeN|]. eapply IH; [|exact E0]. now apply Forall_dropN.
Qed.
Lemma mapM_forall {A B} (P : A -> Prop) (Q : B -> Prop) (f : A -> res B) l : (forall a b, P a -> f a = Ok b -> Q b) ->
  Forall P l -> forall m, mapM f l = Ok m -> Forall Q m.
Proof.
  intros H F. induction F as [|a l Pa _ IH]; intros m E; cbn [mapM] in E; [injection E as <-; constructor|].
  inv_bind E. inv_bind E. injection E as <-. constructor; eauto.
Qed.

Lemma gv_array {A} (inner : N -> rd (list value)) (P : value -> Prop) (Q : A -> Prop) (R : value -> Prop) (im : value -> res A) mk rows :
  (forall n, gives (Forall P) (inner n)) -> (forall v a, P v -> im v = Ok a -> Q a) -> (forall l, Forall Q l -> R (mk l)) ->
  gives (Forall R) (deser_array_generic inner im mk rows).
Proof.
  intros G HQ HR. unfold deser_array_generic. destruct (rows =? 0); [apply gv_ret; constructor|].
  eapply gv_bind; [apply gv_local, local_n, local_le|]. intros offs _. eapply gv_bind; [apply G|]. intros items F.
  intros inp v rest B E. inv_bind E. inv_bind E. injection E as <- <-. split; [|exact B].
  pose proof (mapM_forall P Q im items HQ F _ E0) as F'. pose proof (Forall_split Q offs 0 _ _ F' E1) as F2.
  apply Forall_map. eapply Forall_impl; [|exact F2]. exact HR.
Qed.

Lemma gv_float n : gives (Forall (fine TFloat64)) (deser_float64 n).
Proof. apply gv_check. eapply gv_weaken; [|apply gv_n, gv_dec_sized; reflexivity]. intros l [_ F]. exact F. Qed.
Lemma gv_point n : gives (Forall (fine TPoint)) (deser_point n).
Proof.
  apply gv_check. eapply gv_bind; [apply gv_float|]. intros xs Fx. eapply gv_bind; [apply gv_float|]. intros ys Fy.
  intros inp v rest B E. inv_bind E. inv_bind E. injection E as <- <-. split; [|exact B].
  assert (K : forall vs m, Forall (fine TFloat64) vs -> mapM unwrap_float vs = Ok m -> Forall (fun x => x < 2 ^ 64) m).
  { intros vs m F. apply (mapM_forall (fine TFloat64)); [|exact F]. intros w b [_ R] U. destruct w; cbn [unwrap_float] in U; try discriminate.
    injection U as <-. now apply N.ltb_lt. }
  pose proof (K _ _ Fx E0) as Kx. pose proof (K _ _ Fy E1) as Ky. apply Forall_map. apply Forall_forall. intros [x y] I.
  split; [reflexivity|]. cbn [representable]. unfold pointb. cbn [fst snd].
  pose proof (proj1 (Forall_forall _ _) Kx x (in_combine_l _ _ _ _ I)) as X. pose proof (proj1 (Forall_forall _ _) Ky y (in_combine_r _ _ _ _ I)) as Y.
  cbv beta in X, Y. apply N.ltb_lt in X, Y. now rewrite X, Y.
Qed.
Lemma forallb_Forall {A} (f : A -> bool) l : Forall (fun x => f x = true) l -> forallb f l = true.
Proof. intros H. apply forallb_forall. exact (proj1 (Forall_forall _ _) H). Qed.
Lemma gv_ring n : gives (Forall (fine TRing)) (deser_ring n).
Proof.
  apply gv_check. eapply (gv_array deser_point (fine TPoint) (fun p => pointb p = true)); [apply gv_point| |].
  - intros v a [_ R] E. destruct v; cbn [as_point] in E; try discriminate. injection E as <-. exact R.
  - intros l F. split; [reflexivity|]. now apply forallb_Forall.
Qed.
Lemma gv_polygon n : gives (Forall (fine TPolygon)) (deser_polygon n).
Proof.
  apply gv_check. eapply (gv_array deser_ring (fine TRing) (fun p => forallb pointb p = true)); [apply gv_ring| |].
  - intros v a [_ R] E. destruct v; cbn [as_ring] in E; try discriminate. injection E as <-. exact R.
  - intros l F. split; [reflexivity|]. cbn [representable]. now apply forallb_Forall.
Qed.
Lemma gv_multi n : gives (Forall (fine TMultiPolygon)) (deser_multipolygon n).
Proof.
  apply gv_check. eapply (gv_array deser_polygon (fine TPolygon) (fun p => forallb (forallb pointb) p = true)); [apply gv_polygon| |].
  - intros v a [_ R] E. destruct v; cbn [as_polygon] in E; try discriminate. injection E as <-. exact R.
  - intros l F. split; [reflexivity|]. cbn [representable]. now apply forallb_Forall.
Qed.

(* ---------------- dictionaries ---------------- *)

Definition dict_ok (P : value -> Prop) (d : option (list value)) : Prop := match d with None => True | Some l => Forall P l end.
Definition lc_ok (P : value -> Prop) (st : lc_state) : Prop := dict_ok P (gdict st) /\ dict_ok P (adict st).

Lemma gv_header (inner : N -> rd (list value)) P st : (forall n, gives (Forall P) (inner n)) -> lc_ok P st -> gives (lc_ok P) (lc_header inner st).
Proof.
  intros G [Hg Ha]. unfold lc_header. eapply gv_bind; [apply gv_local, local_le|]. intros flags _. cbv zeta. destruct (index_width flags); [|apply gv_err].
  assert (K : gives (dict_ok P) (n <~ read_le 8 ;;; d <~ inner n ;;; rret (Some d))).
  { eapply gv_bind; [apply gv_local, local_le|]. intros n _. eapply gv_bind; [apply G|]. intros d F. apply gv_ret. exact F. }
  eapply (gv_bind (dict_ok P)); [destruct (_ && _); [exact K|now apply gv_ret]|]. intros gd Hgd.
  eapply (gv_bind (dict_ok P)); [destruct (has_bit _ _); [exact K|now apply gv_ret]|]. intros ad Had.
  eapply gv_bind; [apply gv_local, local_le|]. intros pend _. apply gv_ret. split; assumption.
Qed.

Lemma nthN_in {A} (l : list A) : forall n v, nthN l n = Some v -> In v l.
Proof. induction l as [|x l IH]; intros n v; cbn [nthN]; [discriminate|]. destruct (n =? 0); [intros E; injection E as <-; now left|intros E; right; eauto]. Qed.
Lemma lookup_ok P (g h nullable : bool) gd ad e vs : dict_ok P gd -> dict_ok P ad -> (nullable = true -> P VNull) ->
  lc_lookup g h nullable gd ad e = Ok vs -> Forall P vs.
Proof.
  intros Hg Ha HN. unfold lc_lookup, get_or_illegal. destruct h, g; destruct ad as [ad|], gd as [gd|]; try discriminate;
    repeat match goal with |- context [if ?b then _ else _] => destruct b eqn:? end;
    try (match goal with |- context [nthN ?l ?i] => destruct (nthN l i) eqn:EN end); cbn [rbind]; intros H;
    try discriminate H; injection H as <-; repeat constructor.
  all: try (apply nthN_in in EN; cbn [dict_ok] in Hg, Ha; (apply (proj1 (Forall_forall _ _) Ha _ EN) || apply (proj1 (Forall_forall _ _) Hg _ EN))).
  all: apply HN; match goal with H : (_ && _)%bool = true |- _ => now apply andb_prop in H end.
Qed.

Lemma gv_loop (inner : N -> rd (list value)) P (nullable : bool) : (forall n, gives (Forall P) (inner n)) -> (nullable = true -> P VNull) ->
  forall f limit st out inp v rest, lc_ok P st -> Forall P out -> bytes_ok inp ->
  lc_loop f inner nullable limit st out inp = Ok (v, rest) -> Forall P v /\ bytes_ok rest.
Proof.
  intros G HN. induction f as [|f IH]; intros limit st out inp v rest Hst Hout B E.
  - cbn [lc_loop] in E. destruct (limit =? 0); [|discriminate]. injection E as <- <-. auto.
  - rewrite lc_loop_iter in E. destruct (limit =? 0); [injection E as <- <-; auto|].
    inv_bind E. destruct a as [[[st1 reading] vals] i1].
    assert (K : gives (fun x => lc_ok P (fst (fst x)) /\ Forall P (concat (snd x))) (lc_iter inner nullable limit st)).
    { unfold lc_iter. eapply (gv_bind (lc_ok P)); [destruct (_ =? 0); [now apply gv_header|now apply gv_ret]|].
      intros st' [Hg Ha]. cbv zeta. eapply gv_bind; [apply gv_check, gv_local, local_n, local_le|]. intros es _.
      intros i w r B' E'. inv_bind E'. injection E' as <- <-. split; [|exact B']. cbn [fst snd]. split; [split; assumption|].
      apply Forall_concat. apply (mapM_forall (fun _ => True) (Forall P) _ es) in E1; [exact E1| |apply Forall_forall; auto].
      intros e vs _. now apply lookup_ok. }
    destruct (K _ _ _ B E0) as [[K1 K2] K3]. cbn [fst snd] in K1, K2. eapply IH; [exact K1| |exact K3|exact E].
    apply Forall_app. auto.
Qed.

(* ---------------- masks, maps, tuples ---------------- *)

Lemma mask_ok (P : value -> Prop) : P VNull -> forall m out v, Forall P out -> apply_mask m out = Ok v -> Forall P v.
Proof.
  intros N0. induction m as [|b m IH]; intros [|x out] v F E; cbn [apply_mask] in E; try (injection E as <-; exact F).
  - destruct (forallb _ _); [injection E as <-; constructor|discriminate].
  - inv_bind E. injection E as <-. pose proof (Forall_inv F). apply Forall_inv_tail in F. constructor; [destruct (b =? 0); assumption|eauto].
Qed.

Lemma map_ok k w : forall offs p ks vs out, Forall (fine k) ks -> Forall (fine w) vs -> split_map p offs ks vs = Ok out -> Forall (fine (TMap k w)) out.
Proof.
  induction offs as [|o offs IH]; intros p ks vs out Fk Fv E; cbn [split_map] in E; [injection E as <-; constructor|].
  destruct (_ || _) eqn:L; [discriminate|]. apply orb_false_elim in L as [L1 L2]. apply N.ltb_ge in L1, L2. inv_bind E. injection E as <-.
  constructor; [|eapply IH; [| |exact E0]; now apply Forall_dropN].
  pose proof (Forall_takeN _ (o - p) _ Fk) as A. pose proof (Forall_takeN _ (o - p) _ Fv) as B.
  split; cbn [typed representable].
  - rewrite !andb_true_iff. repeat split.
    + apply N.eqb_eq. rewrite !takeN_firstn. unfold lenN in *. rewrite !firstn_length. lia.
    + apply forallb_Forall. eapply Forall_impl; [|exact A]. intros x0 H0; apply H0.
    + apply forallb_Forall. eapply Forall_impl; [|exact B]. intros x0 H0; apply H0.
  - rewrite andb_true_iff. split; apply forallb_Forall; (eapply Forall_impl; [|eassumption]); intros x0 H0; apply H0.
Qed.

(** Tuples under construction: at most one value per column read so far, and if none is missing
    each is of its column's type. *)
Definition tup_ok (ts : list ty) (l : list value) : Prop :=
  Forall (fun v => representable v = true) l /\ (length l <= length ts)%nat /\ (length l = length ts -> zip_all typed ts l = true).

Lemma zip_all_snoc {A B} (f : A -> B -> bool) l m a b : length l = length m -> zip_all f l m = true -> f a b = true -> zip_all f (l ++ [a]) (m ++ [b]) = true.
Proof.
  revert m. induction l as [|x l IH]; intros [|y m] L Z E; try discriminate; cbn [app zip_all] in *; [now rewrite E|].
  apply andb_prop in Z as [Z1 Z]. rewrite Z1, IH; auto.
Qed.
Lemma tup_widen ts t l : tup_ok ts l -> tup_ok (ts ++ [t]) l.
Proof. intros (R & L & Z). split; [exact R|]. rewrite app_length. cbn [length]. split; [lia|]. intros E. exfalso. lia. Qed.
Lemma tup_push ts t l v : tup_ok ts l -> fine t v -> tup_ok (ts ++ [t]) (l ++ [v]).
Proof.
  intros (R & L & Z) [T Rv]. split; [apply Forall_app; auto|]. rewrite !app_length. cbn [length]. split; [lia|]. intros E. apply zip_all_snoc; [lia|apply Z; lia|exact T].
Qed.
Lemma push_ok ts t : forall acc col out, Forall (tup_ok ts) acc -> Forall (fine t) col -> push_column acc col = Ok out -> Forall (tup_ok (ts ++ [t])) out.
Proof.
  induction acc as [|l acc IH]; intros [|v col] out Fa Fc E; cbn [push_column] in E; try discriminate.
  - injection E as <-. constructor.
  - injection E as <-. eapply Forall_impl; [|exact Fa]. intros a. apply tup_widen.
  - inv_bind E. injection E as <-. pose proof (Forall_inv Fa) as Hl. pose proof (Forall_inv Fc) as Hv. apply Forall_inv_tail in Fa, Fc.
    constructor; [now apply tup_push|]. eapply IH; eauto.
Qed.

Lemma gv_cols rows : forall ts done acc, Forall (fun t => forall n, gives (column t) (deser t n)) ts -> Forall (tup_ok done) acc ->
  gives (Forall (tup_ok (done ++ ts))) (deser_cols rows ts acc).
Proof.
  induction ts as [|t ts IH]; intros done acc G Fa; cbn [deser_cols].
  - apply gv_ret. now rewrite app_nil_r.
  - fold (deser_cols rows). pose proof (Forall_inv G) as G1. apply Forall_inv_tail in G. eapply gv_bind; [apply G1|]. intros col Fc.
    intros inp v rest B E. inv_bind E. pose proof (push_ok done t acc col a Fa Fc E0) as F'.
    specialize (IH (done ++ [t]) a G F' inp v rest B E). rewrite <- app_assoc in IH. exact IH.
Qed.

Lemma deser_typed t : forall rows, gives (column t) (deser t rows).
Proof.
  induction t as [t Hl|t IH IHs|t IH|ts IH|t IH|k v IHk IHv] using ty_ind_strip; intros rows.
  - assert (K : forall r, (forall l, Forall (fine t) l -> column t l) -> gives (fine t) r -> gives (column t) (read_n (N.to_nat rows) r)).
    { intros r _ G. eapply gv_weaken; [|apply gv_n, G]. intros l [_ F]. exact F. }
    destruct t; try discriminate Hl; apply gv_check;
      first [ apply gv_point | apply gv_ring | apply gv_polygon | apply gv_multi
            | apply K; [exact (fun _ H => H)|apply gv_dec_string; eauto] | apply K; [exact (fun _ H => H)|now apply gv_dec_sized] ].
  - rewrite deser_lc_eq. apply gv_check. intros inp v rest B E. unfold deser_low_card in E.
    eapply (gv_loop (deser (strip_null t)) (fine (TLowCard t)) (is_nullable t)); [| | |constructor|exact B|exact E].
    + intros n. eapply gv_weaken; [|apply IHs]. intros l F. eapply Forall_impl; [|exact F]. intros w [T R]. split; [|exact R].
      cbn [typed]. destruct t; try exact T. cbn [strip_null] in T. cbn [typed]. now rewrite T, orb_true_r.
    + intros HN. destruct t; try discriminate. split; reflexivity.
    + split; exact I.
  - cbn [deser]. apply gv_check. eapply (gv_array (deser t) (fine t) (fine t)); [apply IH|intros v a P E; now injection E as <-|].
    intros l F. split; cbn [typed representable]; apply forallb_Forall; (eapply Forall_impl; [|exact F]); intros x0 H0; apply H0.
  - rewrite deser_tuple_eq. apply gv_check. eapply gv_bind; [apply (gv_cols rows ts []); [exact IH|]|].
    + apply Forall_forall. intros l I. apply repeat_spec in I as ->. split; [constructor|]. split; [apply le_n|reflexivity].
    + intros tu F. apply gv_ret. apply Forall_map. eapply Forall_impl; [|exact F]. cbn [app]. intros l (R & L & Z). split.
      * cbn [typed]. destruct (N.eqb_spec (lenN ts) (lenN l)); [|reflexivity]. apply Z. unfold lenN in *. lia.
      * cbn [representable]. now apply forallb_Forall.
  - cbn [deser]. apply gv_check. eapply gv_bind; [apply gv_exact|]. intros mask _. eapply gv_bind; [apply IH|]. intros out F.
    apply gv_pure. intros r E. eapply mask_ok; [split; reflexivity| |exact E]. eapply Forall_impl; [|exact F].
    intros w [T R]. split; [cbn [typed]; now rewrite T, orb_true_r|exact R].
  - cbn [deser]. apply gv_check. destruct (rows =? 0); [apply gv_ret; constructor|].
    eapply gv_bind; [apply gv_local, local_n, local_le|]. intros offs _. cbv zeta. eapply gv_bind; [apply IHk|]. intros ks Fk.
    destruct (negb _); [apply gv_panic|]. eapply gv_bind; [apply IHv|]. intros vs Fv. destruct (negb _); [apply gv_panic|].
    apply gv_pure. intros r E. eapply map_ok; eauto.
Qed.
