(** Properties C22, C25, C46, C57: values rendered as query text. *)
From Coq Require Import String Lia.
From Verif Require Import Base Types Text Literal LiteralSpec LiteralProofs.
Local Open Scope list_scope.
Local Open Scope N_scope.

Definition demo_fmt : ext_fmt := {|
  x_f32 := fun _ => txt "1.5"; x_f64 := fun _ => txt "1.5"; x_bf16 := fun _ => txt "1.5";
  x_offset := fun _ _ => 3600%Z; x_debug := fun _ => txt "1.5" |}.

(* ===================== C22 ===================== *)

(** A string value rendered into a query is read by the server as one string literal with
    exactly those bytes, whatever follows it, unless another quote follows immediately. *)
Theorem C22_string_reads_back : forall E bs t rest, Forall (fun b => b < 256) bs ->
  display E (VString bs) = Ok t -> starts_with 39 rest = false -> read_string (t ++ rest) = Some (bs, rest).
Proof. intros E bs t rest B D R. cbn [display] in D. injection D as <-. now apply read_quote. Qed.

(** If another quote does follow immediately, the two literals run together (a doubled quote
    is the server's other way to write a quote): the bytes of the string still come out
    unchanged and first, and no part of them is read as query text. *)
Theorem C22_never_breaks_out : forall E bs t rest out rest', Forall (fun b => b < 256) bs ->
  display E (VString bs) = Ok t -> read_string (t ++ rest) = Some (out, rest') ->
  exists more, out = bs ++ more /\ (more = [] <-> starts_with 39 rest = false) /\ exists eaten, rest = eaten ++ rest'.
Proof.
  intros E bs t rest out rest' B D R. cbn [display] in D. injection D as <-. rewrite read_quote_any in R by exact B.
  destruct (starts_with 39 rest) eqn:S.
  - destruct (string_body (tl rest)) as [[a r]|] eqn:Q; [|discriminate]. cbn [option_map fst snd] in R. injection R as <- <-.
    exists (39 :: a). split; [reflexivity|]. split; [split; discriminate|].
    destruct rest as [|c rest]; [discriminate|]. cbn [tl] in Q.
    assert (SUF : forall n s a r, (length s <= n)%nat -> string_body s = Some (a, r) -> exists eaten, s = eaten ++ r).
    { clear. induction n as [|n IH]; intros s a r L H; destruct s as [|c s]; cbn [string_body length] in *; try discriminate; try lia.
      destruct (c =? 39).
      - destruct s as [|d s]; [injection H as <- <-; now exists [c]|]. destruct (d =? 39).
        + destruct (string_body s) as [[a' r']|] eqn:Q; [|discriminate]. cbn [option_map snd fst] in H. injection H as <- <-.
          cbn [length] in L. apply IH in Q as [e ->]; [|lia]. now exists (c :: d :: e).
        + injection H as <- <-. now exists [c].
      - destruct (c =? 92).
        + destruct s as [|d s]; [discriminate|]. cbn [length] in L. destruct (d =? 120).
          * destruct s as [|h [|l s]]; try discriminate. cbn [length] in L.
            destruct (hex_val h); [|discriminate]. destruct (hex_val l); [|discriminate].
            destruct (string_body s) as [[a' r']|] eqn:Q; [|discriminate]. cbn [option_map snd fst] in H. injection H as <- <-.
            apply IH in Q as [e ->]; [|lia]. now exists (c :: d :: h :: l :: e).
          * destruct (d =? 78).
            -- apply IH in H as [e ->]; [|lia]. now exists (c :: d :: e).
            -- destruct (string_body s) as [[a' r']|] eqn:Q; [|discriminate]. cbn [option_map snd fst] in H. injection H as <- <-.
               apply IH in Q as [e ->]; [|lia]. now exists (c :: d :: e).
        + destruct (string_body s) as [[a' r']|] eqn:Q; [|discriminate]. cbn [option_map snd fst] in H. injection H as <- <-.
          apply IH in Q as [e ->]; [|lia]. now exists (c :: e). }
    apply (SUF (length rest)) in Q as [e ->]; [|lia]. now exists (c :: e).
  - injection R as <- <-. exists []. rewrite app_nil_r. split; [reflexivity|]. split; [easy|]. now exists [].
Qed.

(** The rendering is plain ASCII, so it is the same in every encoding of the query text. *)
Theorem C22_ascii : forall E bs t, Forall (fun b => b < 256) bs ->
  display E (VString bs) = Ok t -> Forall (fun c => c < 128) t.
Proof.
  intros E bs t B D. cbn [display] in D. injection D as <-. unfold quote.
  apply Forall_app. split; [repeat constructor|]. apply Forall_app. split; [now apply escape_ascii|repeat constructor].
Qed.

Example C22_example : display demo_fmt (VString [39; 92; 255; 10; 65]) = Ok (txt "'\'\\\xFF\nA'") /\
  read_string (txt "'\'\\\xFF\nA'; DROP TABLE t") = Some ([39; 92; 255; 10; 65], txt "; DROP TABLE t").
Proof. split; vm_compute; reflexivity. Qed.

(* ===================== C25 ===================== *)

(** The text rendered for a decimal with scale p and raw value x denotes x / 10^p exactly when
    x is zero or has at least p digits. *)
Theorem C25_decimal_value_iff : forall E v p x t, v = VDecimal32 p x \/ v = VDecimal64 p x \/ v = VDecimal128 p x ->
  display E v = Ok t -> (denotes_decimal t x p <-> x = 0%Z \/ (10 ^ Z.of_N p <= 10 * Z.abs x)%Z).
Proof.
  intros E v p x t V D. replace t with (show_decimal p x); [apply show_decimal_exact|].
  destruct V as [V|[V|V]]; subst v; cbn [display] in D; now injection D.
Qed.

(** The claim for all decimals is false: 0.05 is rendered as 5, and -0.05 as text that is no number. *)
Theorem C25_all_decimals_refuted :
  ~ forall E p x t, display E (VDecimal32 p x) = Ok t -> denotes_decimal t x p.
Proof.
  intros H. specialize (H demo_fmt 2 5%Z _ eq_refl).
  apply (C25_decimal_value_iff demo_fmt (VDecimal32 2 5)) in H; [|now left|reflexivity].
  destruct H as [H|H]; [discriminate|]. vm_compute in H. congruence.
Qed.
Example C25_example : display demo_fmt (VDecimal32 2 1234) = Ok (txt "12.34") /\ denotes_decimal (txt "12.34") 1234 2 /\
  display demo_fmt (VDecimal32 2 5) = Ok (txt "5") /\ dec_value (txt "5") = Some (5%Z, 0) /\
  display demo_fmt (VDecimal64 2 (-5)) = Ok (txt ".-5") /\ dec_value (txt ".-5") = None /\
  display demo_fmt (VDecimal64 2 (-51)) = Ok (txt "-.51") /\ dec_value (txt "-.51") = Some ((-51)%Z, 2).
Proof.
  split; [vm_compute; reflexivity|]. split.
  - exists 1234%Z, 2. split; vm_compute; reflexivity.
  - repeat split; vm_compute; reflexivity.
Qed.

(* ===================== C46 ===================== *)

(** Every value built from integers, enums, strings and NULL with arrays, tuples and maps is
    rendered, and the server reads the text back as that value, up to parentheses: a tuple of
    one element is read as its element. *)
Theorem C46_container_reads_back : forall E v l, meaning v = Some l ->
  exists t, display E v = Ok t /\ forall rest, follows rest -> read_literal (t ++ rest) = Some (ungroup l, rest).
Proof.
  intros E v l M. destruct (display_meaning_ok E v l M) as [t D]. exists t. split; [exact D|].
  intros rest R. now apply (read_literal_display E v).
Qed.

(** So the text reads back as the same value exactly when no tuple has one element. *)
Theorem C46_exactly_without_singletons : forall E v l t, meaning v = Some l -> display E v = Ok t ->
  (read_literal t = Some (l, []) <-> no_single v = true).
Proof.
  intros E v l t M D. rewrite <- (ungroup_fixed v l M). pose proof (read_literal_display E v l t [] M D I) as R.
  rewrite app_nil_r in R. rewrite R. split; [intros H; now injection H|intros ->; reflexivity].
Qed.

(** Different values have different texts. *)
Theorem C46_injective : forall E v w lv lw t, meaning v = Some lv -> meaning w = Some lw ->
  no_single v = true -> no_single w = true -> display E v = Ok t -> display E w = Ok t -> lv = lw.
Proof.
  intros E v w lv lw t Mv Mw Sv Sw Dv Dw.
  apply (C46_exactly_without_singletons E v lv t Mv Dv) in Sv. apply (C46_exactly_without_singletons E w lw t Mw Dw) in Sw. congruence.
Qed.

(** The claim for all tuples is false. *)
Theorem C46_singleton_tuple_refuted :
  ~ forall E v l t, meaning v = Some l -> display E v = Ok t -> read_literal t = Some (l, []).
Proof.
  intros H. specialize (H demo_fmt (VTuple [VInt I32 5]) _ _ eq_refl eq_refl).
  apply (C46_exactly_without_singletons demo_fmt (VTuple [VInt I32 5]) _ _ eq_refl eq_refl) in H. discriminate.
Qed.

(** Geometric values are not rendered as literals at all: their text is the debug form of the Rust
    type, [Point([1.0, 2.0])], which begins with a name. *)
Theorem C46_geometry_refuted : forall E v t rest,
  match v with VPoint _ | VRing _ | VPolygon _ | VMultiPolygon _ => True | _ => False end ->
  display E v = Ok t -> read_literal (t ++ rest) = None.
Proof. intros E v t rest G D. destruct v; try contradiction G; cbn [display] in D; injection D as <-; reflexivity. Qed.
Theorem C46_point_text : forall E a b, display E (VPoint (a, b)) = Ok (txt "Point([" ++ x_debug E a ++ txt ", " ++ x_debug E b ++ txt "])").
Proof. intros. unfold display, debug_point, debug_list. cbn [join fst snd]. now rewrite <- !app_assoc. Qed.

Definition demo_nested : value :=
  VMap [VString (txt "a'b"); VString []]
       [VTuple [VInt I8 (-5); VArray [VUInt I64 7; VUInt I64 8]; VNull]; VTuple [VUInt I128 9; VArray []]].
Example C46_example :
  display demo_fmt demo_nested = Ok (txt "{'a\'b':(-5,[7,8],NULL),'':(9::UInt128,[])}") /\
  no_single demo_nested = true /\
  (exists l, meaning demo_nested = Some l) /\
  display demo_fmt (VTuple [VInt I32 5]) = Ok (txt "(5)") /\ read_literal (txt "(5)") = Some (LNum 5, []).
Proof. split; [vm_compute; reflexivity|]. split; [reflexivity|]. split; [eexists; reflexivity|]. split; vm_compute; reflexivity. Qed.

(* ===================== C57 ===================== *)

(** A part of a value that cannot be rendered: a 256-bit decimal, a map with different numbers
    of keys and values, a DateTime64 with more than nine decimals or beyond chrono's range. *)
Inductive unrenderable : value -> Prop :=
| un_decimal s x : unrenderable (VDecimal256 s x)
| un_datetime z t p : 9 < p \/ CHRONO_MAX_SECS < t / 10 ^ p -> unrenderable (VDateTime64 z t p)
| un_map ks vs : length ks <> length vs -> unrenderable (VMap ks vs)
| un_in_array l v : In v l -> unrenderable v -> unrenderable (VArray l)
| un_in_tuple l v : In v l -> unrenderable v -> unrenderable (VTuple l)
| un_in_key ks vs v : In v ks -> unrenderable v -> unrenderable (VMap ks vs)
| un_in_value ks vs v : In v vs -> unrenderable v -> unrenderable (VMap ks vs).

Lemma fmt_panics_iff v : fmt_panics v = true <-> unrenderable v.
Proof.
  assert (X : forall l, Forall (fun v => fmt_panics v = true <-> unrenderable v) l ->
    (existsb fmt_panics l = true <-> exists v, In v l /\ unrenderable v)).
  { intros l H. rewrite existsb_exists. split; intros (x & I & U); exists x; (split; [exact I|]);
      apply (proj1 (Forall_forall _ _) H x I); exact U. }
  induction v as [v L|vs H|vs H|ks vs HK HV] using value_nested_ind.
  - split.
    + destruct v; cbn [fmt_panics]; try discriminate; try (destruct L; fail); intros F.
      * constructor.
      * constructor. apply orb_true_iff in F as [F|F]; [left|right]; now apply N.ltb_lt.
    + intros U. destruct U; try (destruct L; fail); [reflexivity|].
      cbn [fmt_panics]. apply orb_true_iff. destruct H; [left|right]; now apply N.ltb_lt.
  - cbn [fmt_panics]. rewrite (X vs H). split.
    + intros (v & I & U). exact (un_in_array _ v I U).
    + intros U. inversion U; subst. eauto.
  - cbn [fmt_panics]. rewrite (X vs H). split.
    + intros (v & I & U). exact (un_in_tuple _ v I U).
    + intros U. inversion U; subst. eauto.
  - cbn [fmt_panics]. rewrite !orb_true_iff, (X ks HK), (X vs HV). split.
    + intros [[F|(v & I & U)]|(v & I & U)].
      * apply un_map. apply negb_true_iff, N.eqb_neq in F. unfold lenN in F. lia.
      * exact (un_in_key _ _ v I U).
      * exact (un_in_value _ _ v I U).
    + intros U. inversion U; subst; [left; left| |].
      * apply negb_true_iff, N.eqb_neq. unfold lenN. lia.
      * left; right; eauto.
      * right; eauto.
Qed.

(** Rendering a value panics exactly if the value contains such a part, and otherwise gives a text. *)
Theorem C57_rendering_panics_iff : forall E v,
  (display E v = Panic <-> unrenderable v) /\ (~ unrenderable v -> exists t, display E v = Ok t).
Proof.
  intros E v. destruct (display_panics E v) as [A B]. rewrite fmt_panics_iff in A. split; [exact A|].
  intros NU. destruct (display E v) as [t|e|]; [now exists t|now destruct (B e)|]. destruct NU. now apply A.
Qed.
Example C57_example : display demo_fmt (VArray [VDecimal256 2 []]) = Panic /\ display demo_fmt (VDateTime64 UTC 5 10) = Panic /\
  ~ unrenderable (VArray [VDecimal32 2 1; VDateTime64 UTC 5 9]).
Proof.
  split; [reflexivity|]. split; [reflexivity|]. rewrite <- fmt_panics_iff. vm_compute. discriminate.
Qed.

Print Assumptions C22_string_reads_back.
Print Assumptions C22_never_breaks_out.
Print Assumptions C22_ascii.
Print Assumptions C25_decimal_value_iff.
Print Assumptions C25_all_decimals_refuted.
Print Assumptions C46_container_reads_back.
Print Assumptions C46_exactly_without_singletons.
Print Assumptions C46_injective.
Print Assumptions C46_singleton_tuple_refuted.
Print Assumptions C57_rendering_panics_iff.

Print Assumptions C46_geometry_refuted.
Print Assumptions C46_point_text.
