(** Property C81: values kept as JSON in string columns. *)
From Verif Require Import Base Io Types Ser Deser Text Utf8 RawRow Numeric NumericSpec ColumnSpec ColumnProofs
  Convert ConvertSpec Json JsonSpec Props_Convert JsonProofs.
Local Open Scope list_scope. Local Open Scope N_scope.

(** A column of JSON values written and read back is the same column, and what was written is
    the text serde_json produced; the bytes after the column are untouched. *)
Theorem C81_roundtrip : forall T (J : serde_json T) t xs ss,
  validate t = true -> stores RString (strip_low_cardinality t) = true ->
  Forall2 (fun x s => json_faithful J x s /\ json_column (strip_low_cardinality t) s) xs ss ->
  exists vs, mapM (fun x => json_to_sql J x (Some t)) xs = Ok vs /\ vs = map (fun s => VString (utf8 s)) ss /\
    (fits t vs -> exists bs, ser t vs = Ok bs /\
       forall rest, exists vs', deser t (lenN xs) (bs ++ rest) = Ok (vs', rest) /\
         mapM (json_from_sql J (strip_low_cardinality t)) vs' = Ok xs).
Proof. exact @json_roundtrip. Qed.

(** The same for optional values in a Nullable column: NULL is not the JSON text [null]. *)
Theorem C81_optional : forall T (J : serde_json T) t t' xs ss,
  validate t = true -> strip_low_cardinality t = TNullable t' -> stores RString (strip_low_cardinality t') = true ->
  Forall2 (fun x s => json_opt_faithful J x s /\ match s with Some s => json_column (strip_low_cardinality t') s | None => True end) xs ss ->
  exists vs, mapM (fun x => json_opt_to_sql J x (Some t)) xs = Ok vs /\
    (fits t vs -> exists bs, ser t vs = Ok bs /\
       forall rest, exists vs', deser t (lenN xs) (bs ++ rest) = Ok (vs', rest) /\
         mapM (json_opt_from_sql J (strip_low_cardinality t)) vs' = Ok xs).
Proof. exact @json_opt_roundtrip. Qed.

(** Reading from any column: the value serde_json reads from the stored text, or an error that
    says whether the bytes were not UTF-8 or the type or the text was wrong; never a panic. *)
Theorem C81_read : forall T (J : serde_json T) t v, typed t v = true ->
  json_from_sql J (strip_low_cardinality t) v =
    match strip_low_cardinality t, v with
    | TString, VString bs | TFixedString _, VString bs =>
        match utf8_decode bs with
        | None => Err EUtf8
        | Some s => match j_read J s with Some x => Ok x | None => Err EDeser end
        end
    | _, _ => Err EDeser
    end.
Proof. exact @json_reads. Qed.

(** A value serde_json cannot write is reported and nothing is sent in its place. *)
Theorem C81_write_error : forall T (J : serde_json T) x h, j_text J x = None -> json_to_sql J x h = Err ESer.
Proof. intros T J x h E. unfold json_to_sql. now rewrite E. Qed.

(** A JSON reader and writer for numbers. *)
Definition json_numbers : serde_json N := {| j_text := fun n => Some (show_N n); j_read := parse_digits |}.

Lemma json_numbers_faithful n : json_faithful json_numbers n (show_N n).
Proof.
  split; [reflexivity|]. split; [apply parse_digits_show|]. apply forallb_forall. intros c I.
  pose proof (proj1 (Forall_forall _ _) (show_N_digits n) c I) as D. unfold is_digit in D. apply andb_true_iff in D as [_ D].
  apply N.leb_le in D. unfold scalar. apply orb_true_iff. left. apply N.ltb_lt. lia.
Qed.

Example C81_nonvacuous :
  let t := TLowCard (TFixedString 3) in let xs := [7; 120; 7] in
  validate t = true /\ stores RString (strip_low_cardinality t) = true /\
  Forall2 (fun x s => json_faithful json_numbers x s /\ json_column (strip_low_cardinality t) s) xs (map show_N xs) /\
  fits t (map (fun s => VString (utf8 s)) (map show_N xs)).
Proof.
  cbv zeta. split; [reflexivity|]. split; [reflexivity|]. split.
  - assert (P : Forall (fun x => json_column (strip_low_cardinality (TLowCard (TFixedString 3))) (show_N x)) [7; 120; 7]).
    { repeat apply Forall_cons; try apply Forall_nil; (split; [vm_compute; discriminate|]); vm_compute; intuition discriminate. }
    revert P. generalize [7; 120; 7]. intros l P. induction P; cbn [map]; constructor; auto. split; [apply json_numbers_faithful|assumption].
  - cbn [fits]. unfold within. split; [discriminate|]. split; [reflexivity|]. repeat constructor; discriminate.
Qed.
Example C81_optional_nonvacuous :
  let t := TNullable TString in
  validate t = true /\ strip_low_cardinality t = TNullable TString /\
  Forall2 (fun x s => json_opt_faithful json_numbers x s /\ match s with Some s => json_column TString s | None => True end)
    [Some 5; None] [Some (show_N 5); None].
Proof.
  cbv zeta. split; [reflexivity|]. split; [reflexivity|]. constructor.
  - split; [apply json_numbers_faithful|exact I].
  - constructor; [|constructor]. split; exact I.
Qed.

(** A text longer than a FixedString column is cut without a report, and what is left may be
    another value's text: 12345 comes back as 123. *)
Theorem C81_fixed_string_refuted : exists x bs,
  (v <- json_to_sql json_numbers x (Some (TFixedString 3)) ;; ser (TFixedString 3) [v]) = Ok bs /\
  exists v y, deser (TFixedString 3) 1 bs = Ok ([v], []) /\ json_from_sql json_numbers (TFixedString 3) v = Ok y /\ y <> x.
Proof.
  exists 12345, [49; 50; 51]. split; [vm_compute; reflexivity|]. exists (VString [49; 50; 51]), 123.
  split; [vm_compute; reflexivity|]. split; [vm_compute; reflexivity|discriminate].
Qed.

Print Assumptions C81_roundtrip.
Print Assumptions C81_optional.
Print Assumptions C81_read.
Print Assumptions C81_write_error.
Print Assumptions C81_fixed_string_refuted.
