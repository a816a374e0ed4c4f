(** Printing and parsing types: round trip, stability, termination, panics. *)
From Coq Require Import String Ascii.
From Verif Require Import Base Types Text TypeText.
Local Open Scope list_scope.

(* ---------------- specification ---------------- *)

(** Parenthesis depth after reading [s] from depth [d]; [None] if a parenthesis is closed
    that was not opened, or a comma stands outside all parentheses. *)
Fixpoint nest (d : nat) (s : text) : option nat :=
  match s with
  | [] => Some d
  | c :: r =>
      if c =? 44 then match d with O => None | S _ => nest d r end
      else if c =? 40 then nest (S d) r
      else if c =? 41 then match d with O => None | S d' => nest d' r end
      else nest d r
  end.
Definition balanced (s : text) : Prop := nest 0 s = Some 0%nat.

(** Enum variant names the parser can read back: no '=', no white space at the ends,
    parentheses balanced and commas only within them. *)
Definition name_ok (U : unicode) (n : text) : Prop :=
  ~ In 61 n /\ trim U n = n /\ balanced n.
Definition variant_ok (U : unicode) (b : Z) (e : text * Z) : Prop :=
  name_ok U (fst e) /\ (- 2 ^ (b - 1) <= snd e < 2 ^ (b - 1))%Z.

(** Types that can exist in Rust (usize/i8/i16 components) with readable enum names. *)
Fixpoint printable (U : unicode) (t : ty) : Prop :=
  match t with
  | TDecimal32 s | TDecimal64 s | TDecimal128 s | TDecimal256 s | TFixedString s | TDateTime64 s _ => s < 2 ^ 64
  | TEnum8 l => Forall (variant_ok U 8) l
  | TEnum16 l => Forall (variant_ok U 16) l
  | TLowCard x | TArray x | TNullable x => printable U x
  | TTuple ts => (fix all l := match l with [] => True | x :: r => printable U x /\ all r end) ts
  | TMap k v => printable U k /\ printable U v
  | _ => True
  end.
Lemma printable_tuple U ts : printable U (TTuple ts) <-> Forall (printable U) ts.
Proof.
  cbn [printable]. induction ts as [|t ts IH]; split; intros H; try constructor; try tauto.
  - now inversion H.
  - apply IH. now inversion H.
Qed.

(* ---------------- nesting ---------------- *)

Lemma nest_app d a b : nest d (a ++ b) = match nest d a with Some e => nest e b | None => None end.
Proof.
  revert d; induction a as [|c a IH]; intros d; cbn [app nest]; [reflexivity|].
  destruct (c =? 44), (c =? 40), (c =? 41), d; auto.
Qed.
Lemma nest_up s : forall d e, nest d s = Some e -> forall k, nest (d + k)%nat s = Some (e + k)%nat.
Proof.
  induction s as [|c s IH]; intros d e; cbn [nest].
  - intros H; injection H as ->. reflexivity.
  - destruct (c =? 44).
    + destruct d; [discriminate|]. intros H k. cbn [plus]. now apply (IH (S d)).
    + destruct (c =? 40); [intros H k; now apply (IH (S d))|].
      destruct (c =? 41); [|intros H k; now apply IH].
      destruct d; [discriminate|]. intros H k. cbn [plus]. now apply IH.
Qed.
Lemma balanced_app a b : balanced a -> balanced b -> balanced (a ++ b).
Proof. unfold balanced; intros A B. now rewrite nest_app, A. Qed.
Lemma balanced_up s : balanced s -> forall d, nest d s = Some d.
Proof. intros H d. apply (nest_up s 0 0 H d). Qed.

Definition flat (c : N) : bool := negb ((c =? 44) || (c =? 40) || (c =? 41)).
Lemma nest_flat s : forall d, Forall (fun c => flat c = true) s -> nest d s = Some d.
Proof.
  induction s as [|c s IH]; intros d H; cbn [nest]; [reflexivity|]. inversion H as [|? ? Hc Hs]; subst.
  unfold flat in Hc. destruct (c =? 44), (c =? 40), (c =? 41); try discriminate. now apply IH.
Qed.
Lemma space_flat U c : is_space U c = true -> flat c = true.
Proof.
  unfold is_space, flat. destruct (N.ltb_spec c 128).
  - lia.
  - intros _. lia.
Qed.
Lemma digit_flat c : is_digit c = true -> flat c = true.
Proof. unfold is_digit, flat; lia. Qed.

Lemma nest_trim U d s : nest d (trim U s) = nest d s.
Proof.
  destruct (trim_infix U s) as (p & q & E & Fp & Fq). rewrite E at 2.
  rewrite nest_app, (nest_flat p) by (eapply Forall_impl; [|exact Fp]; apply space_flat).
  rewrite nest_app. destruct (nest d (trim U s)) as [e|]; [|reflexivity].
  rewrite (nest_flat q); [reflexivity|]. eapply Forall_impl; [|exact Fq]; apply space_flat.
Qed.

(* ---------------- argument lists ---------------- *)

Lemma scan_piece U a : forall d e seg s, nest d a = Some e ->
  scan_args U d seg (a ++ s) = scan_args U e (rev a ++ seg) s.
Proof.
  induction a as [|c a IH]; intros d e seg s; cbn [nest app scan_args rev].
  - now intros [= ->].
  - rewrite <- app_assoc. cbn [app]. destruct (c =? 44).
    + destruct d; [discriminate|]. intros H. now apply IH.
    + destruct (c =? 40); [intros H; now apply IH|].
      destruct (c =? 41); [|intros H; now apply IH].
      destruct d; [discriminate|]. intros H. now apply IH.
Qed.

Definition arg_ok (U : unicode) (s : text) : Prop := s <> [] /\ edge_ok U s /\ balanced s.

Lemma scan_join U l : Forall (arg_ok U) l -> scan_args U 0 [] (join [44] l) = Ok l.
Proof.
  induction l as [|x l IH]; intros H; [reflexivity|].
  inversion H as [|? ? (Hx & Ex & Bx) Hl]; subst. destruct l as [|y l].
  - cbn [join]. rewrite <- (app_nil_r x) at 1. rewrite (scan_piece U x 0 0) by exact Bx. cbn [scan_args].
    rewrite app_nil_r. destruct (rev x) eqn:E.
    + apply (f_equal (@rev N)) in E. rewrite rev_involutive in E. cbn in E; congruence.
    + rewrite <- E, rev_involutive, trim_id by exact Ex. reflexivity.
  - change (join [44] (x :: y :: l)) with (x ++ 44 :: join [44] (y :: l)).
    rewrite (scan_piece U x 0 0) by exact Bx. cbn [scan_args]. change (44 =? 44) with true. cbn iota.
    rewrite IH by exact Hl. cbn [rbind]. rewrite app_nil_r, rev_involutive, trim_id by exact Ex. reflexivity.
Qed.

Lemma rev_head_last (s : text) : match rev s with [] => s = [] | c :: _ => exists p, s = p ++ [c] end.
Proof.
  destruct (rev s) as [|c r] eqn:E; apply (f_equal (@rev N)) in E; rewrite rev_involutive in E; cbn in E; [assumption|].
  now exists (rev r).
Qed.
Lemma edge_app U a b : a <> [] -> b <> [] -> edge_ok U a -> edge_ok U b -> forall m, edge_ok U (a ++ m ++ b).
Proof.
  intros Ha Hb [A1 A2] [B1 B2] m. split.
  - destruct a; [congruence|exact A1].
  - rewrite !rev_app_distr. destruct (rev b) eqn:E; [|exact B2].
    pose proof (rev_head_last b) as R. rewrite E in R. congruence.
Qed.
Lemma join_nonempty l : Forall (fun s : text => s <> []) l -> l <> [] -> join [44] l <> [].
Proof.
  intros H Hn. destruct l as [|x [|y l]]; [congruence| |]; inversion H; subst; cbn [join]; [assumption|].
  destruct x; [congruence|discriminate].
Qed.
Lemma edge_join U l : Forall (arg_ok U) l -> edge_ok U (join [44] l).
Proof.
  induction l as [|x l IH]; intros H; [split; exact I|].
  inversion H as [|? ? (Hx & Ex & _) Hl]; subst. destruct l as [|y l]; [exact Ex|].
  change (join [44] (x :: y :: l)) with (x ++ [44] ++ join [44] (y :: l)).
  apply edge_app; auto. apply join_nonempty; [|discriminate].
  eapply Forall_impl; [|exact Hl]. now intros ? (? & _).
Qed.
Lemma nest_join U d l : Forall (arg_ok U) l -> nest (S d) (join [44] l) = Some (S d).
Proof.
  induction l as [|x l IH]; intros H; [reflexivity|].
  inversion H as [|? ? (_ & _ & Bx) Hl]; subst. destruct l as [|y l].
  - cbn [join]. now apply balanced_up.
  - change (join [44] (x :: y :: l)) with (x ++ 44 :: join [44] (y :: l)).
    rewrite nest_app, balanced_up by exact Bx. cbn [nest]. change (44 =? 44) with true. cbn iota. now apply IH.
Qed.

Lemma space_40 U : is_space U 40 = false. Proof. reflexivity. Qed.
Lemma space_41 U : is_space U 41 = false. Proof. reflexivity. Qed.
Lemma space_39 U : is_space U 39 = false. Proof. reflexivity. Qed.

Lemma edge_wrap U a b m : is_space U a = false -> is_space U b = false -> edge_ok U (a :: m ++ [b]).
Proof. intros Ha Hb. split; [exact Ha|]. cbn [rev]. rewrite rev_app_distr. exact Hb. Qed.

Lemma parse_args_wrap U body l : edge_ok U body -> scan_args U 0 [] body = l ->
  parse_args U (40 :: body ++ [41]) = l.
Proof.
  intros E H. unfold parse_args. cbn [starts_with]. change (40 =? 40) with true.
  change (40 :: body ++ [41]) with ((40 :: body) ++ [41]). rewrite ends_with_snoc. change (41 =? 41) with true.
  cbn [negb orb app]. destruct body as [|x b]; [cbn [app strip_ends removelast rbind]; exact H|].
  cbn [app strip_ends]. rewrite (removelast_last (x :: b) 41 : removelast (x :: b ++ [41]) = x :: b).
  cbn [rbind]. now rewrite trim_id.
Qed.

(** Heads: the names with arguments are read as themselves. *)
Definition head_name (h : head) : string :=
  match h with
  | HDecimal => "Decimal" | HDecimal32 => "Decimal32" | HDecimal64 => "Decimal64" | HDecimal128 => "Decimal128"
  | HDecimal256 => "Decimal256" | HFixedString => "FixedString" | HDateTime => "DateTime" | HDateTime64 => "DateTime64"
  | HEnum8 => "Enum8" | HEnum16 => "Enum16" | HLowCard => "LowCardinality" | HArray => "Array" | HTuple => "Tuple"
  | HNullable => "Nullable" | HMap => "Map"
  end%string.
Lemma lookup_head h : lookup (txt (head_name h)) head_table = Some h.
Proof. destruct h; reflexivity. Qed.
Lemma eat_head U h x : eat_identifier U true (txt (head_name h) ++ 40 :: x) = (txt (head_name h), 40 :: x).
Proof. destruct h; reflexivity. Qed.
Lemma head_nonempty h : txt (head_name h) <> [].
Proof. destruct h; discriminate. Qed.

Lemma parse_head U D f h l : Forall (arg_ok U) l ->
  parse_go U D (S f) (paren (head_name h) (join [44] l)) = apply_head U D (parse_go U D f) h l.
Proof.
  intros H. cbn [parse_go]. unfold paren. rewrite eat_head.
  destruct (txt (head_name h)) eqn:E; [now apply head_nonempty in E|]. rewrite <- E.
  rewrite (trim_id U (40 :: join [44] l ++ [41])) by (apply edge_wrap; reflexivity).
  rewrite (parse_args_wrap U (join [44] l) (Ok l)).
  - cbn [rbind]. now rewrite lookup_head.
  - now apply edge_join.
  - now apply scan_join.
Qed.

(* ---------------- printed pieces are good arguments ---------------- *)

Lemma digits_edge U s : Forall (fun c => is_digit c = true) s -> edge_ok U s.
Proof.
  assert (D : forall c, is_digit c = true -> is_space U c = false).
  { intros c H. unfold is_digit in H. unfold is_space. destruct (N.ltb_spec c 128); lia. }
  intros H. split.
  - destruct H; auto.
  - apply Forall_rev in H. destruct H; auto.
Qed.
Lemma show_N_arg U n : arg_ok U (show_N n).
Proof.
  split; [apply show_N_nonempty|]. split; [apply digits_edge, show_N_digits|].
  apply nest_flat. eapply Forall_impl; [|apply show_N_digits]. apply digit_flat.
Qed.
Lemma show_Z_arg U z : arg_ok U (show_Z z).
Proof.
  unfold show_Z. destruct (z <? 0)%Z; [|apply show_N_arg].
  destruct (show_N_arg U (Z.to_N (- z))) as (A & (B1 & B2) & C).
  split; [discriminate|]. split; [split; [reflexivity|]|].
  - cbn [rev]. pose proof (rev_head_last (show_N (Z.to_N (- z)))) as R.
    destruct (rev (show_N (Z.to_N (- z)))); [now rewrite R in A|exact B2].
  - exact C.
Qed.
Lemma quoted_balanced s : balanced s -> balanced (quoted s).
Proof. intros H. unfold balanced, quoted. cbn [nest]. change (39 =? 44) with false.
  change (39 =? 40) with false. change (39 =? 41) with false. cbn iota. rewrite nest_app, H. reflexivity. Qed.
Lemma quoted_arg U s : balanced s -> arg_ok U (quoted s).
Proof. intros H. split; [discriminate|]. split; [now apply edge_wrap|now apply quoted_balanced]. Qed.
Lemma tz_balanced D z : tzdb_ok D -> balanced (tz_name D z).
Proof.
  intros [_ H]. apply nest_flat. apply Forall_forall. intros c Hc. apply (H z) in Hc as (A & B & C).
  unfold flat. apply N.eqb_neq in A, B, C. now rewrite A, B, C.
Qed.
Lemma variant_arg U b e : variant_ok U b e -> arg_ok U (show_variant e).
Proof.
  intros ((_ & _ & B) & _). unfold show_variant. destruct (quoted_arg U _ B) as (A1 & A2 & A3).
  destruct (show_Z_arg U (snd e)) as (Z1 & Z2 & Z3). split; [discriminate|]. split.
  - now apply edge_app.
  - apply balanced_app; [assumption|]. now apply balanced_app.
Qed.

Lemma paren_arg U h l : Forall (arg_ok U) l -> arg_ok U (paren (head_name h) (join [44] l)).
Proof.
  intros H. assert (Eh : edge_ok U (txt (head_name h)) /\ balanced (txt (head_name h))) by (destruct h; repeat split).
  destruct Eh as [Eh Bh]. unfold paren. split; [destruct h; discriminate|]. split.
  - destruct (edge_wrap U 40 41 (join [44] l) eq_refl eq_refl) as [_ E2]. split.
    + destruct Eh as [E1 _]. destruct h; exact E1.
    + rewrite rev_app_distr. cbn [rev] in *. rewrite rev_app_distr in *. exact E2.
  - apply balanced_app; [exact Bh|]. unfold balanced. cbn [nest]. change (40 =? 44) with false.
    change (40 =? 40) with true. cbn iota. rewrite nest_app, (nest_join U) by exact H. reflexivity.
Qed.

(** A printed type as head and argument texts. *)
Definition pieces (D : tzdb) (t : ty) : option (head * list text) :=
  match t with
  | TDecimal32 s => Some (HDecimal32, [show_N s]) | TDecimal64 s => Some (HDecimal64, [show_N s])
  | TDecimal128 s => Some (HDecimal128, [show_N s]) | TDecimal256 s => Some (HDecimal256, [show_N s])
  | TFixedString s => Some (HFixedString, [show_N s])
  | TDateTime z => Some (HDateTime, [quoted (tz_name D z)])
  | TDateTime64 p z => Some (HDateTime64, [show_N p; quoted (tz_name D z)])
  | TEnum8 l => Some (HEnum8, map show_variant l) | TEnum16 l => Some (HEnum16, map show_variant l)
  | TLowCard x => Some (HLowCard, [show_ty D x]) | TArray x => Some (HArray, [show_ty D x])
  | TTuple ts => Some (HTuple, map (show_ty D) ts) | TNullable x => Some (HNullable, [show_ty D x])
  | TMap k v => Some (HMap, [show_ty D k; show_ty D v])
  | _ => None
  end.
Lemma show_pieces D t : match pieces D t with
  | Some (h, l) => show_ty D t = paren (head_name h) (join [44] l)
  | None => forall U f, arg_ok U (show_ty D t) /\ parse_go U D (S f) (show_ty D t) = Ok t
  end.
Proof. destruct t as [[]| |[]| | | | | | | | | | | | | | | | | | | | | | | | | | |]; try reflexivity; intros U f; repeat split; discriminate. Qed.

Lemma show_arg U D t : tzdb_ok D -> printable U t -> arg_ok U (show_ty D t).
Proof.
  intros HD. revert t. apply (ty_ind_leaf (fun t => printable U t -> arg_ok U (show_ty D t))).
  - intros t Hl Hp. pose proof (show_pieces D t) as S. destruct (pieces D t) as [[h l]|] eqn:E; [|apply (S U 0%nat)].
    rewrite S. apply paren_arg.
    destruct t; try discriminate; injection E as <- <-; repeat (apply Forall_cons || apply Forall_nil);
      try apply show_N_arg; try (apply quoted_arg, tz_balanced, HD).
    all: cbn [printable] in Hp; rewrite Forall_map; eapply Forall_impl; [|exact Hp]; intros; eapply variant_arg; eassumption.
  - intros t IH Hp. apply (paren_arg U HLowCard [show_ty D t]). constructor; [auto|constructor].
  - intros t IH Hp. apply (paren_arg U HArray [show_ty D t]). constructor; [auto|constructor].
  - intros ts IH Hp. apply printable_tuple in Hp. apply (paren_arg U HTuple (map (show_ty D) ts)).
    rewrite Forall_map. rewrite Forall_forall in *. auto.
  - intros t IH Hp. apply (paren_arg U HNullable [show_ty D t]). constructor; [auto|constructor].
  - intros k v IHk IHv [Hk Hv]. apply (paren_arg U HMap [show_ty D k; show_ty D v]). repeat (constructor; auto).
Qed.

Lemma parse_variant_show U b e : variant_ok U b e -> parse_enum_variant U b (show_variant e) = Ok e.
Proof.
  destruct e as [n z]. intros ((Hn & Ht & Hb) & Hz). cbn [fst snd] in *. unfold parse_enum_variant, show_variant.
  cbn [fst snd]. 
  change (quoted n ++ txt " = " ++ show_Z z) with (quoted n ++ ([32] ++ 61 :: 32 :: show_Z z)).
  rewrite (app_assoc (quoted n) [32]).
  rewrite split_once_intro.
  2:{ intros H. apply in_app_iff in H as [H|H]; [|cbn in H; lia].
      unfold quoted in H. destruct H as [H|H]; [discriminate|]. apply in_app_iff in H as [H|H]; [auto|]. cbn in H; lia. }
  cbn [or_err rbind].
  assert (T1 : trim U (quoted n ++ [32]) = quoted n).
  { unfold trim. rewrite trim_start_ok by reflexivity. unfold trim_end. rewrite rev_app_distr. cbn [rev app].
    replace (trim_start U (32 :: rev (quoted n))) with (trim_start U (rev (quoted n))) by reflexivity.
    rewrite trim_start_ok; [apply rev_involutive|]. unfold quoted. cbn [rev]. rewrite rev_app_distr. reflexivity. }
  assert (T2 : trim U (32 :: show_Z z) = show_Z z).
  { unfold trim. replace (trim_start U (32 :: show_Z z)) with (trim_start U (show_Z z)) by reflexivity.
    apply trim_id, show_Z_arg. }
  rewrite T1, T2. unfold quoted. cbn [starts_with].
  change (39 :: n ++ [39]) with ((39 :: n) ++ [39]). rewrite ends_with_snoc. change (39 =? 39) with true.
  cbn [negb orb app]. rewrite strip_ends_quoted. cbn [rbind]. rewrite parse_int_show by exact Hz.
  cbn [or_err rbind]. now rewrite Ht.
Qed.

Lemma parse_tz_show D z : tzdb_ok D -> parse_tz D (quoted (tz_name D z)) = Ok z.
Proof.
  intros [H _]. unfold parse_tz, quoted. cbn [starts_with].
  change (39 :: tz_name D z ++ [39]) with ((39 :: tz_name D z) ++ [39]). rewrite ends_with_snoc.
  change (39 =? 39) with true. cbn [negb orb app]. rewrite strip_ends_quoted. cbn [rbind]. now rewrite H.
Qed.

Lemma mapM_map_ok {A B} (f : B -> res A) (g : A -> B) l : (forall x, In x l -> f (g x) = Ok x) -> mapM f (map g l) = Ok l.
Proof.
  induction l as [|x l IH]; intros H; [reflexivity|]. cbn [map mapM]. rewrite H by now left. cbn [rbind].
  rewrite IH by (intros; apply H; now right). reflexivity.
Qed.

Lemma len_join x l : In x l -> (length x <= length (join [44%N] l))%nat.
Proof.
  induction l as [|y l IH]; [intros []|]. destruct l as [|z l].
  - intros [->|[]]. reflexivity.
  - change (join [44] (y :: z :: l)) with (y ++ 44 :: join [44] (z :: l)). rewrite app_length. cbn [length].
    intros [->|H]; [lia|]. specialize (IH H). lia.
Qed.
Lemma len_paren n b : (length b + 2 <= length (paren n b))%nat.
Proof. unfold paren. rewrite app_length. cbn [length]. rewrite app_length. cbn [length]. lia. Qed.

Lemma len_arg D t h l x : pieces D t = Some (h, l) -> In x l -> (length x < length (show_ty D t))%nat.
Proof.
  intros E Hx. pose proof (show_pieces D t) as S. rewrite E in S. rewrite S.
  pose proof (len_paren (head_name h) (join [44] l)). pose proof (len_join x l Hx). lia.
Qed.

Theorem parse_show_go U D : tzdb_ok D -> forall t, printable U t ->
  forall f, (length (show_ty D t) <= f)%nat -> parse_go U D (S f) (show_ty D t) = Ok t.
Proof.
  intros HD.
  apply (ty_ind_leaf (fun t => printable U t -> forall f, (length (show_ty D t) <= f)%nat -> parse_go U D (S f) (show_ty D t) = Ok t)).
  - intros t Hl Hp f Hf. pose proof (show_pieces D t) as S. destruct (pieces D t) as [[h l]|] eqn:E; [|apply S].
    rewrite S. rewrite parse_head.
    + destruct t; try discriminate; injection E as <- <-; cbn [apply_head]; cbn [printable] in Hp;
        unfold scale, one_arg; cbn [rbind]; rewrite ?parse_usize_show by exact Hp; rewrite ?parse_tz_show by exact HD;
        try reflexivity.
      * assert (Q : negb (starts_with 39 (quoted (tz_name D z))) || negb (ends_with 39 (quoted (tz_name D z))) = false).
        { unfold quoted. change (39 :: tz_name D z ++ [39]) with ((39 :: tz_name D z) ++ [39]). now rewrite ends_with_snoc. }
        rewrite Q. reflexivity.
      * rewrite (mapM_map_ok _ show_variant); [reflexivity|]. intros x Hx. rewrite Forall_forall in Hp.
        rewrite trim_id by (eapply variant_arg; eauto). now apply parse_variant_show, Hp.
      * rewrite (mapM_map_ok _ show_variant); [reflexivity|]. intros x Hx. rewrite Forall_forall in Hp.
        rewrite trim_id by (eapply variant_arg; eauto). now apply parse_variant_show, Hp.
    + destruct t; try discriminate; injection E as <- <-; repeat (apply Forall_cons || apply Forall_nil);
        try apply show_N_arg; try (apply quoted_arg, tz_balanced, HD).
      all: cbn [printable] in Hp; rewrite Forall_map; eapply Forall_impl; [|exact Hp]; intros; eapply variant_arg; eassumption.
  - intros t IH Hp f Hf. change (show_ty D (TLowCard t)) with (paren (head_name HLowCard) (join [44] [show_ty D t])) in *.
    rewrite parse_head by (constructor; [now apply show_arg|constructor]). cbn [apply_head one_arg rbind].
    destruct f as [|f]; [pose proof (len_paren (head_name HLowCard) (join [44] [show_ty D t])); lia|].
    rewrite IH; [reflexivity|assumption|]. pose proof (len_arg D (TLowCard t) _ _ _ eq_refl (or_introl eq_refl)).
    change (show_ty D (TLowCard t)) with (paren (head_name HLowCard) (join [44] [show_ty D t])) in *. lia.
  - intros t IH Hp f Hf. change (show_ty D (TArray t)) with (paren (head_name HArray) (join [44] [show_ty D t])) in *.
    rewrite parse_head by (constructor; [now apply show_arg|constructor]). cbn [apply_head one_arg rbind].
    destruct f as [|f]; [pose proof (len_paren (head_name HArray) (join [44] [show_ty D t])); lia|].
    rewrite IH; [reflexivity|assumption|]. pose proof (len_arg D (TArray t) _ _ _ eq_refl (or_introl eq_refl)).
    change (show_ty D (TArray t)) with (paren (head_name HArray) (join [44] [show_ty D t])) in *. lia.
  - intros ts IH Hp f Hf. apply printable_tuple in Hp. 
    change (show_ty D (TTuple ts)) with (paren (head_name HTuple) (join [44] (map (show_ty D) ts))) in *.
    rewrite Forall_forall in *.
    rewrite parse_head by (rewrite Forall_map, Forall_forall; intros; apply show_arg; auto). cbn [apply_head].
    destruct f as [|f]; [pose proof (len_paren (head_name HTuple) (join [44] (map (show_ty D) ts))); lia|].
    rewrite (mapM_map_ok _ (show_ty D)); [reflexivity|]. intros x Hx.
    rewrite trim_id by (apply show_arg; auto). apply IH; auto.
    pose proof (len_arg D (TTuple ts) _ _ (show_ty D x) eq_refl (in_map _ _ _ Hx)).
    change (show_ty D (TTuple ts)) with (paren (head_name HTuple) (join [44] (map (show_ty D) ts))) in *. lia.
  - intros t IH Hp f Hf. change (show_ty D (TNullable t)) with (paren (head_name HNullable) (join [44] [show_ty D t])) in *.
    rewrite parse_head by (constructor; [now apply show_arg|constructor]). cbn [apply_head one_arg rbind].
    destruct f as [|f]; [pose proof (len_paren (head_name HNullable) (join [44] [show_ty D t])); lia|].
    rewrite IH; [reflexivity|assumption|]. pose proof (len_arg D (TNullable t) _ _ _ eq_refl (or_introl eq_refl)).
    change (show_ty D (TNullable t)) with (paren (head_name HNullable) (join [44] [show_ty D t])) in *. lia.
  - intros k v IHk IHv [Hk Hv] f Hf.
    change (show_ty D (TMap k v)) with (paren (head_name HMap) (join [44] [show_ty D k; show_ty D v])) in *.
    rewrite parse_head by (repeat (constructor; [now apply show_arg|]); constructor). cbn [apply_head].
    pose proof (len_paren (head_name HMap) (join [44] [show_ty D k; show_ty D v])).
    pose proof (len_join (show_ty D k) [show_ty D k; show_ty D v] (or_introl eq_refl)).
    pose proof (len_join (show_ty D v) [show_ty D k; show_ty D v] (or_intror (or_introl eq_refl))).
    destruct f as [|f]; [lia|]. rewrite IHk by (assumption || lia). rewrite IHv by (assumption || lia). reflexivity.
Qed.

Theorem parse_show U D t : tzdb_ok D -> printable U t -> parse_ty U D (show_ty D t) = Ok t.
Proof. intros HD Hp. now apply parse_show_go. Qed.
