(** Property C82: the attributes on a struct decide what its rows are. *)
From Coq Require Import String Permutation.
From Verif Require Import Base Types Text Rename RawRow Numeric Convert ConvertSpec Migrate Attrs AttrSpec Derive DeriveSpec DeriveProofs DeriveProofs3 Declare DeclareSpec DeclareProofs.
Local Open Scope list_scope.
Local Open Scope N_scope.

(** In all the theorems: [pp], [pw], [pt] are the parsers of paths, predicates and types, [u] the functions
    the attributes name. *)

(** A declaration that follows the documentation is accepted. *)
Theorem C82_accepted : forall (where_ type_ : Type) pp (pw : text -> option where_) (pt : text -> option type_) u a std ds,
  good_struct pp pw pt u a std ds -> exists fs, compile pp pw pt u a std ds = Some fs.
Proof. exact @declared_accepted. Qed.

(** [column_names] of an accepted struct, to any depth of nesting and flattening, are the documented ones. *)
Theorem C82_columns : forall (where_ type_ : Type) pp (pw : text -> option where_) (pt : text -> option type_) u a std ds fs,
  compile pp pw pt u a std ds = Some fs -> struct_columns pp pw pt a ds (column_names fs).
Proof. exact @declared_columns. Qed.

(** A row of an accepted struct that converts field by field is written under the documented names, and is
    read back from columns sent in any order. *)
Theorem C82_roundtrip : forall (where_ type_ : Type) pp (pw : text -> option where_) (pt : text -> option type_) u a std ds fs hints T xs,
  compile pp pw pt u a std ds = Some fs -> sane fs -> NoDup (column_names fs) -> faithful hints T fs xs ->
  exists row, serialize hints fs xs = Ok row /\ struct_columns pp pw pt a ds (map fst row) /\
    forall cols, Permutation cols (sent_as T row) -> deserialize fs cols = Ok xs.
Proof.
  intros where_ type_ pp pw pt u a std ds fs hints T xs C S N F. destruct (roundtrip_all hints T fs xs S N F) as (row & A & B & D).
  exists row. split; [exact A|]. split; [|exact D]. rewrite B. exact (declared_columns pp pw pt u a std ds fs C).
Qed.

(** A struct of plain fields: what is written is, field by field, the value converted by the function given or by
    its type, under the documented name; nothing for a field that is not written. *)
Theorem C82_written : forall (where_ type_ : Type) pp (pw : text -> option where_) (pt : text -> option type_) u hints a std ds fs xs row,
  compile pp pw pt u a std ds = Some fs -> plain_fields ds -> serialize hints fs xs = Ok row ->
  exists cs r pieces, says_struct pp pw pt a cs /\ struct_rule cs r /\ row = concat pieces /\ List.length xs = List.length ds /\
    Forall2 (fun dx p => field_written pp pw u hints r (fst dx) (snd dx) p) (combine ds xs) pieces.
Proof. exact @compiled_written. Qed.

(** ... and what is read is, field by field, the column of the documented name converted likewise, or the
    documented default. *)
Theorem C82_read : forall (where_ type_ : Type) pp (pw : text -> option where_) (pt : text -> option type_) u a std ds fs cols xs,
  compile pp pw pt u a std ds = Some fs -> plain_fields ds ->
  (forall cs r, says_struct pp pw pt a cs -> struct_rule cs r ->
     distinct_names pp pw r ds /\ Forall (fun c => belongs pp pw r ds (cname c)) cols) ->
  deserialize fs cols = Ok xs ->
  exists cs r, says_struct pp pw pt a cs /\ struct_rule cs r /\ List.length xs = List.length ds /\
    forall j d x, nth_error ds j = Some d -> nth_error xs j = Some x -> field_read pp pw u cs r std j cols d x.
Proof. exact @compiled_read. Qed.

(** ** [from], [try_from] and [into] *)
(** With none of the three, the implementation is that of the fields. *)
Theorem C82_own_rows : forall (where_ type_ : Type) pp (pw : text -> option where_) (pt : text -> option type_) u v a std ds fs,
  compile pp pw pt u a std ds = Some fs ->
  exists ri, derive_row pp pw pt u v a std ds = Some ri /\ ri_count ri = column_count fs /\ ri_names ri = Some (column_names fs) /\
    (forall hints x, ri_serialize ri hints x = serialize hints fs x) /\ (forall cols, ri_deserialize ri cols = deserialize fs cols).
Proof. exact @derive_row_own. Qed.

(** With [into = "T"] a value is written as the [T] it converts to, and the names of the columns are not known
    beforehand; with [from = "T"] or [try_from = "T"] a row is read as a [T] and converted. *)
Theorem C82_converted : forall (where_ type_ : Type) pp (pw : text -> option where_) (pt : text -> option type_) u v a std ds ri cs,
  derive_row pp pw pt u v a std ds = Some ri -> says_struct pp pw pt a cs ->
  (forall t, In (CInto t) cs -> ri_count ri = None /\ ri_names ri = None /\ forall hints x, ri_serialize ri hints x = ri_serialize (v_row v t) hints (v_into v t x)) /\
  (forall t, In (CFrom t) cs -> forall cols, ri_deserialize ri cols = (x <- ri_deserialize (v_row v t) cols ;; Ok (v_from v t x))) /\
  (forall t, In (CTryFrom t) cs -> forall cols, ri_deserialize ri cols = (x <- ri_deserialize (v_row v t) cols ;; v_try_from v t x)).
Proof. exact @derive_row_converted. Qed.

(** So a value written through [into] and read through [try_from] comes back if the conversions are inverse and
    the rows of the other types come back. *)
Theorem C82_converted_roundtrip : forall (where_ type_ : Type) pp (pw : text -> option where_) (pt : text -> option type_) u v a std ds ri cs t t' hints x row cols,
  derive_row pp pw pt u v a std ds = Some ri -> says_struct pp pw pt a cs -> In (CInto t) cs ->
  (In (CFrom t') cs /\ v_from v t' (v_into v t x) = x) \/ (In (CTryFrom t') cs /\ v_try_from v t' (v_into v t x) = Ok x) ->
  ri_serialize (v_row v t) hints (v_into v t x) = Ok row -> ri_deserialize (v_row v t') cols = Ok (v_into v t x) ->
  ri_serialize ri hints x = Ok row /\ ri_deserialize ri cols = Ok x.
Proof.
  intros where_ type_ pp pw pt u v a std ds ri cs t t' hints x row cols D S I B W R.
  destruct (derive_row_converted pp pw pt u v a std ds ri cs D S) as (P & Q & Q'). split.
  - destruct (P t I) as (_ & _ & ->). exact W.
  - destruct B as [[B E]|[B E]]; [rewrite (Q t' B), R|rewrite (Q' t' B), R]; cbn [rbind]; congruence.
Qed.

(** ** Findings *)
(** A struct with [deny_unknown_fields] does not compile (unless a field is flattened). *)
Theorem C82_deny_unusable_refuted : forall (where_ type_ : Type) pp (pw : text -> option where_) (pt : text -> option type_) u a std ds cs,
  says_struct pp pw pt a cs -> In CDeny cs ->
  (forall d l, In d ds -> says_field pp pw (h_attrs (fst d)) l -> ~ In FFlatten l) -> compile pp pw pt u a std ds = None.
Proof. exact @deny_rejected. Qed.

(** Reading such a struct never panics unless a conversion of the user's does (chrono date-times aside). *)
Theorem C82_no_panic : forall (where_ type_ : Type) pp (pw : text -> option where_) (pt : text -> option type_) u a std ds fs cols,
  compile pp pw pt u a std ds = Some fs -> plain_fields ds ->
  (forall d r, In d ds -> snd d = FPlain r -> calm r) ->
  (forall q t v, typed t v = true -> u_de u q t v <> Panic) ->
  Forall (fun c => typed (snd (fst c)) (snd c) = true) cols -> deserialize fs cols <> Panic.
Proof. exact @compiled_no_panic. Qed.
Print Assumptions C82_no_panic.

(** ** Examples *)
Definition dpath (t : text) : option path := Some [t].
Definition dtext (t : text) : option text := Some t.
(** [half] (doubling on the way out, halving on the way in), [seven] and [dflt] are the functions there are. *)
Definition demo_funs : funs := {|
  u_ser p x := if text_eqb (concat p) (txt "half") then match x with XLeaf (VUInt I8 n) => if n <? 128 then Ok (VUInt I8 (2 * n)) else Err EDeser | _ => Err EDeser end else Err EDeser;
  u_de p t v := if text_eqb (concat p) (txt "half") then match v with VUInt I8 n => if N.even n then Ok (XLeaf (VUInt I8 (n / 2))) else Err EDeser | _ => Err EDeser end else Err EDeser;
  u_default p := SPlain (XLeaf (VUInt I8 7));
  u_struct p := [];
  u_nameable n := forallb (fun c => negb (c =? 46) && negb (c =? 32)) n |}.
Definition item_ (l : list meta) : list attribute := [AItems l].
Definition flag (s : string) : meta := MPath [txt s].
Definition key (k v : string) : meta := MNameValue [txt k] (VStr (txt v)).
Definition fh (n : string) (l : list attribute) : fhead := {| h_ident := txt n; h_attrs := l; h_std := Some (SPlain (XLeaf (VUInt I8 0))) |}.
Definition du8 : ftype := FPlain (RLeaf (LUInt I8)).
Definition dv (n : N) : sval := SPlain (XLeaf (VUInt I8 n)).

(** [#[klickhouse(rename_all = "PascalCase")] struct S { user_id: u8, #[klickhouse(rename = "y", serialize_with = "half",
    deserialize_with = "half")] x: u8, #[klickhouse(skip)] z: u8, #[klickhouse(default = "seven")] q: u8 }] *)
Definition demo_attrs : list attribute := item_ [key "rename_all" "PascalCase"].
Definition demo_plain : list (fhead * ftype) :=
  [(fh "user_id" [], du8); (fh "x" (item_ [key "rename" "y"; key "serialize_with" "half"; key "deserialize_with" "half"]), du8);
   (fh "z" (item_ [flag "skip"]), du8); (fh "q" (item_ [key "default" "seven"]), du8)].
Definition demo_compile := compile dpath dtext dtext demo_funs.

Example C82_plain_nonvacuous : exists fs,
  demo_compile demo_attrs None demo_plain = Some fs /\ plain_fields demo_plain /\
  column_names fs = [txt "UserId"; txt "y"; txt "Q"] /\
  serialize (fun _ => None) fs [dv 1; dv 2; dv 9; dv 4] = Ok [(txt "UserId", VUInt I8 1); (txt "y", VUInt I8 4); (txt "Q", VUInt I8 4)] /\
  deserialize fs [(txt "y", TUInt I8, VUInt I8 4); (txt "UserId", TUInt I8, VUInt I8 1)] = Ok [dv 1; dv 2; dv 0; dv 7] /\
  deserialize fs [(txt "y", TUInt I8, VUInt I8 5); (txt "UserId", TUInt I8, VUInt I8 1)] = Err EDeser.
Proof.
  eexists. split; [vm_compute; reflexivity|]. split; [repeat constructor; eexists; reflexivity|]. repeat split; vm_compute; reflexivity.
Qed.

Example C82_no_panic_nonvacuous :
  (forall d r, In d demo_plain -> snd d = FPlain r -> calm r) /\ (forall q t v, typed t v = true -> u_de demo_funs q t v <> Panic) /\
  u_de demo_funs [txt "half"] (TUInt I8) (VUInt I8 4) = Ok (XLeaf (VUInt I8 2)).
Proof.
  split; [|split; [|reflexivity]].
  - intros d r I E. repeat (destruct I as [<-|I]; [injection E as <-; exact Logic.I|]). destruct I.
  - intros q t v _. cbn [u_de demo_funs]. destruct (text_eqb _ _); [|discriminate]. destruct v; try discriminate. destruct w; try discriminate. match goal with |- (if ?b then _ else _) <> _ => destruct b end; discriminate.
Qed.

(** The hypothesis of [C82_read] for these columns. *)
Lemma says_one m l : freads dpath dtext m l -> NoDup (map fsort l) -> says_field dpath dtext (item_ [m]) l.
Proof. intros R N. split; [intros [H|[]]; discriminate|]. split; [exact N|]. exists [l]. cbn [items item_ flat_map app concat]. split; [now constructor|now rewrite app_nil_r]. Qed.
Lemma says_none : says_field dpath dtext [] [].
Proof. split; [intros []|]. split; [constructor|]. exists []. split; [constructor|reflexivity]. Qed.
Definition x_settings : list (@fsetting text) := [FRename (txt "y"); FSer [txt "half"]; FDe [txt "half"]].
Lemma says_x : says_field dpath dtext (item_ [key "rename" "y"; key "serialize_with" "half"; key "deserialize_with" "half"]) x_settings.
Proof.
  split; [intros [H|[]]; discriminate|]. split; [cbn; repeat constructor; cbn; intuition discriminate|].
  exists [[FRename (txt "y")]; [FSer [txt "half"]]; [FDe [txt "half"]]]. split; [|reflexivity].
  repeat constructor.
Qed.
Lemma says_demo : says_struct dpath dtext dtext demo_attrs [CRenameAll RPascal].
Proof.
  split; [intros [H|[]]; discriminate|]. split; [repeat constructor; intros []|]. exists [[CRenameAll RPascal]]. split; [|reflexivity].
  repeat constructor.
Qed.
Lemma demo_rule cs r : says_struct dpath dtext dtext demo_attrs cs -> struct_rule cs r -> r = RPascal.
Proof.
  intros S R. rewrite (AttrProofs.says_struct_fun _ _ _ _ _ _ S says_demo) in R. destruct R as [[R|[]]|[R _]]; [congruence|].
  elim (R RPascal). now left.
Qed.
Lemma demo_name j h t : nth_error demo_plain j = Some (h, t) -> forall l n, says_field dpath dtext (h_attrs h) l -> ~ In FSkipDe l ->
  field_named RPascal (h_ident h) l n -> nth_error [txt "UserId"; txt "y"; txt "Z"; txt "Q"] j = Some n.
Proof.
  intros H l n S K F. destruct j as [|[|[|[|j]]]]; [| | | |destruct j; discriminate H]; cbn in H; injection H as <- <-; cbn [h_attrs fh h_ident nth_error] in *.
  - rewrite (AttrProofs.says_field_fun _ _ _ _ _ S says_none) in F. destruct F as [[]|[_ F]]. vm_compute in F. vm_compute. congruence.
  - rewrite (AttrProofs.says_field_fun _ _ _ _ _ S says_x) in F. destruct F as [[F|[F|[F|[]]]]|[F _]]; try discriminate F; [congruence|]. elim (F (txt "y")). now left.
  - assert (SZ : says_field dpath dtext (item_ [flag "skip"]) [FSkipSer; FSkipDe]).
    { apply says_one; [left; constructor|cbn; repeat constructor; cbn; intuition discriminate]. }
    rewrite (AttrProofs.says_field_fun _ _ _ _ _ S SZ) in K. elim K. right. now left.
  - assert (SQ : says_field dpath dtext (item_ [key "default" "seven"]) [FDefault (DPath [txt "seven"])]).
    { apply says_one; [left; now constructor|cbn; repeat constructor; cbn; intuition discriminate]. }
    rewrite (AttrProofs.says_field_fun _ _ _ _ _ S SQ) in F. destruct F as [[F|[]]|[_ F]]; [discriminate F|]. vm_compute in F. vm_compute. congruence.
Qed.
Example C82_read_nonvacuous : forall cs r, says_struct dpath dtext dtext demo_attrs cs -> struct_rule cs r ->
  distinct_names dpath dtext r demo_plain /\
  Forall (fun c => belongs dpath dtext r demo_plain (cname c)) [(txt "y", TUInt I8, VUInt I8 4); (txt "UserId", TUInt I8, VUInt I8 1)].
Proof.
  intros cs r S R. rewrite (demo_rule cs r S R). split.
  - intros i j h h' t t' l l' n A B SA SB KA KB FA FB.
    pose proof (demo_name i h t A l n SA KA FA) as P. pose proof (demo_name j h' t' B l' n SB KB FB) as Q.
    assert (N : NoDup [txt "UserId"; txt "y"; txt "Z"; txt "Q"]) by (repeat constructor; vm_compute; intuition discriminate).
    apply (proj1 (NoDup_nth_error _) N); [apply nth_error_Some|]; congruence.
  - constructor; [|constructor; [|constructor]].
    + exists (fh "x" (item_ [key "rename" "y"; key "serialize_with" "half"; key "deserialize_with" "half"])), du8, x_settings.
      split; [right; left; reflexivity|]. split; [exact says_x|]. split; [cbn; intuition discriminate|]. left. now left.
    + exists (fh "user_id" []), du8, []. split; [left; reflexivity|]. split; [exact says_none|]. split; [intros []|]. right. split; [intros t []|reflexivity].
Qed.

(** With a nested struct, whose own attributes count, and a flattened one. *)
Definition demo_deep : list (fhead * ftype) :=
  [(fh "a_b" [], du8);
   (fh "items" (item_ [flag "nested"]), FVec (item_ [key "rename_all" "UPPERCASE"]) None [(fh "c" [], du8); (fh "d" (item_ [key "rename" "e"]), du8); (fh "s" (item_ [flag "skip"]), du8)]);
   (fh "p" (item_ [flag "flatten"]), FRow [] None [(fh "r#type" [], du8)])].
Definition deep_value : list sval := [dv 1; SVec [[dv 2; dv 3; dv 0]; [dv 4; dv 5; dv 0]]; SSub [dv 6]].
Example C82_deep_nonvacuous : exists fs,
  demo_compile demo_attrs None demo_deep = Some fs /\ column_names fs = [txt "AB"; txt "Items.C"; txt "Items.e"; txt "type"] /\
  sane fs /\ NoDup (column_names fs) /\
  faithful (fun _ => None) (fun n => if text_eqb n (txt "Items.C") || text_eqb n (txt "Items.e") then TArray (TUInt I8) else TUInt I8) fs deep_value.
Proof.
  eexists. split; [vm_compute; reflexivity|]. split; [vm_compute; reflexivity|].
  assert (ND : forall l : list N, forallb (fun c => negb (c =? 46)) l = true -> ~ In 46 l).
  { intros l H I. apply (proj1 (forallb_forall _ _) H) in I. discriminate. }
  split; [|split].
  - unfold sane. cbn [kind_sane]. unfold names_ok.
    repeat match goal with |- _ /\ _ => split | |- True => exact Logic.I end;
      try (vm_compute; repeat constructor; cbn; intuition discriminate); repeat constructor; try (apply ND; reflexivity).
  - vm_compute. repeat constructor; cbn; intuition discriminate.
  - unfold faithful, deep_value. cbn [all2 kind_faithful snd fst i_skip_ser i_skip_de i_default i_name].
    split; [split; [reflexivity|]; do 2 eexists; repeat split; vm_compute; reflexivity|]. split; [|split; [|exact Logic.I]].
    + split; [reflexivity|]. split; [discriminate|]. exists [[dv 2; dv 3; dv 0]; [dv 4; dv 5; dv 0]], (fun _ => TUInt I8). split; [reflexivity|]. split.
      * intros c H. vm_compute in H. destruct H as [<-|[<-|[]]]; vm_compute; reflexivity.
      * constructor; [|constructor; [|constructor]]; (split; [split; [reflexivity|]; do 2 eexists; repeat split; vm_compute; reflexivity|]);
        (split; [split; [reflexivity|]; do 2 eexists; repeat split; vm_compute; reflexivity|]); (split; [reflexivity|exact Logic.I]).
    + split; [reflexivity|]. split; [reflexivity|]. exists [dv 6]. split; [reflexivity|]. split; [|exact Logic.I]. split; [reflexivity|]. do 2 eexists; repeat split; vm_compute; reflexivity.
Qed.
Example C82_good_nonvacuous : good_struct dpath dtext dtext demo_funs demo_attrs None [(fh "user_id" [], du8); (fh "x" (item_ [key "rename" "y"; key "serialize_with" "half"; key "deserialize_with" "half"]), du8)].
Proof.
  apply (gs_struct _ _ _ _ _ _ _ [CRenameAll RPascal] RPascal); [exact says_demo| | | | |].
  - split; [intros [H|[]]; discriminate|]. intros t. repeat split; intros [H|[]]; discriminate.
  - left. now left.
  - intros [H|[]]; discriminate.
  - intros p [H|[]]; discriminate.
  - constructor; [|constructor; [|constructor]].
    + apply (gf_field _ _ _ _ _ _ _ _ [] (txt "UserId")); [exact says_none|right; split; [intros t []|reflexivity]| |].
      * intros [[]|[[] _]].
      * apply gt_plain; intros [].
    + apply (gf_field _ _ _ _ _ _ _ _ x_settings (txt "y")); [exact says_x|left; now left| |].
      * intros _. eexists. reflexivity.
      * apply gt_plain; cbn; intuition discriminate.
Qed.

(** A struct of one field [n], written as and read from a struct of [a] and [b] = 255 - [a]. *)
Definition pair_row : row_impl :=
  let fs := [({| i_name := [97]; i_skip_ser := false; i_skip_de := false; i_default := None |}, KPlain (RLeaf (LUInt I8)));
             ({| i_name := [98]; i_skip_ser := false; i_skip_de := false; i_default := None |}, KPlain (RLeaf (LUInt I8)))] in
  {| ri_count := column_count fs; ri_names := Some (column_names fs); ri_serialize h x := serialize h fs x; ri_deserialize c := deserialize fs c |}.
Definition demo_conv : conversions (type_ := text) := {|
  v_row _ := pair_row; v_from _ x := firstn 1 x;
  v_try_from _ x := match x with [SPlain (XLeaf (VUInt I8 a)); SPlain (XLeaf (VUInt I8 b))] => if a + b =? 255 then Ok [dv a] else Err EDeser | _ => Err EDeser end;
  v_into _ x := match x with [SPlain (XLeaf (VUInt I8 a))] => [dv a; dv (255 - a)] | _ => [] end |}.
Example C82_converted_nonvacuous : exists ri,
  derive_row dpath dtext dtext demo_funs demo_conv (item_ [key "into" "P"; key "try_from" "P"]) None [(fh "n" [], du8)] = Some ri /\
  says_struct dpath dtext dtext (item_ [key "into" "P"; key "try_from" "P"]) [CInto (txt "P"); CTryFrom (txt "P")] /\
  ri_names ri = None /\
  ri_serialize ri (fun _ => None) [dv 5] = Ok [([97], VUInt I8 5); ([98], VUInt I8 250)] /\
  ri_deserialize ri [([98], TUInt I8, VUInt I8 250); ([97], TUInt I8, VUInt I8 5)] = Ok [dv 5] /\
  ri_deserialize ri [([98], TUInt I8, VUInt I8 251); ([97], TUInt I8, VUInt I8 5)] = Err EDeser.
Proof.
  eexists. split; [reflexivity|]. split.
  - split; [intros [H|[]]; discriminate|]. split; [cbn; repeat constructor; cbn; intuition discriminate|]. exists [[CInto (txt "P")]; [CTryFrom (txt "P")]]. split; [|reflexivity]. repeat constructor.
  - repeat split; vm_compute; reflexivity.
Qed.

(** With a flattened field [deny_unknown_fields] compiles and denies nothing. *)
Theorem C82_deny_refuted : exists a ds cs fs cols xs,
  says_struct dpath dtext dtext a cs /\ In CDeny cs /\ demo_compile a None ds = Some fs /\ ~ In (txt "unknown") (column_names fs) /\
  In (txt "unknown") (map cname cols) /\ deserialize fs cols = Ok xs.
Proof.
  exists (item_ [flag "deny_unknown_fields"]), [(fh "p" (item_ [flag "flatten"]), FRow [] None [(fh "c" [], du8)])], [CDeny].
  eexists. exists [(txt "unknown", TUInt I8, VUInt I8 1); (txt "c", TUInt I8, VUInt I8 2)], [SSub [dv 2]].
  split; [|split; [now left|split; [vm_compute; reflexivity|split; [|split; [now left|vm_compute; reflexivity]]]]].
  - split; [intros [H|[]]; discriminate|]. split; [repeat constructor; intros []|]. exists [[CDeny]]. split; [|reflexivity]. repeat constructor.
  - vm_compute. intuition discriminate.
Qed.

Print Assumptions C82_accepted.
Print Assumptions C82_columns.
Print Assumptions C82_roundtrip.
Print Assumptions C82_written.
Print Assumptions C82_read.
Print Assumptions C82_own_rows.
Print Assumptions C82_converted.
Print Assumptions C82_converted_roundtrip.
Print Assumptions C82_deny_unusable_refuted.
Print Assumptions C82_deny_refuted.
