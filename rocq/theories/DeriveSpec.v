(** What it means for a set of columns to represent a value of a derived struct. *)
From Coq Require Import String Permutation.
From Verif Require Import Base Types Text RawRow Numeric Convert ConvertSpec Migrate Derive.
Local Open Scope list_scope.
Local Open Scope N_scope.

(** Row number [k] of the columns of a nested field, each a name inside the nested struct, an element type
    and the elements. *)
Definition row_of (table : list (text * ty * list value)) (k : nat) : list column :=
  map (fun c => (fst (fst c), strip_low_cardinality (snd (fst c)), nth k (snd c) VNull)) table.
Definition nested_column (name : text) (c : text * ty * list value) : column :=
  (dotted name ++ fst (fst c), TArray (snd (fst c)), VArray (snd c)).

(** [cs] are the columns the field's value [x] is read from:
    a skipped field takes no column and has its default; a plain field takes the column of its name, or none if
    it has a default; a nested field takes columns [name.c] of arrays, all of one length, whose k-th elements
    represent its k-th row; a flattened field takes the columns of the inner struct. *)
Fixpoint kind_reads (k : kind) (i : info) (x : sval) (cs : list column) {struct k} : Prop :=
  let fields_read := fun (fs : fields) (xs : list sval) (cs : list column) =>
      exists css, cs = concat css /\ all3 (fun f => kind_reads (snd f) (fst f)) fs xs css in
  match k with
  | KPlain r =>
      if i_skip_de i then cs = [] /\ i_default i = Some x
      else (exists t v y, cs = [(i_name i, t, v)] /\ from_sql r (strip_low_cardinality t) v = Ok y /\ x = SPlain y) \/
           (cs = [] /\ i_default i = Some x)
  | KNested fs =>
      if i_skip_de i then cs = [] /\ i_default i = Some x
      else exists rows table, x = SVec rows /\ table <> [] /\ cs = map (nested_column (i_name i)) table /\
           Forall (fun c => List.length (snd c) = List.length rows) table /\
           (forall k row, nth_error rows k = Some row -> fields_read fs row (row_of table k))
  | KFlatten fs =>
      i_skip_de i = false /\ Permutation (map cname cs) (column_names fs) /\ exists xs, x = SSub xs /\ fields_read fs xs cs
  end.
Definition reads (fs : fields) (xs : list sval) (cs : list column) : Prop :=
  exists css, cs = concat css /\ all3 (fun f => kind_reads (snd f) (fst f)) fs xs css.

(** A sensible declaration: the fields that are read have different names without a dot (a dot separates
    nested names), and nested structs contain no flattened field. *)
Definition active_names (fs : fields) : list text := map (fun f => i_name (fst f)) (filter (fun f => negb (inactive f)) fs).
Definition names_ok (fs : fields) : Prop :=
  NoDup (active_names fs) /\ Forall (fun n => ~ In 46 n) (active_names fs) /\ Forall (fun f => size_known f = true) fs.
Fixpoint kind_sane (k : kind) : Prop :=
  match k with
  | KPlain _ => True
  | KNested fs | KFlatten fs => names_ok fs /\ (fix all (fs : fields) := match fs with [] => True | f :: r => kind_sane (snd f) /\ all r end) fs
  end.
Definition sane (fs : fields) : Prop := kind_sane (KNested fs).

(** [x] can be written and read back, the struct's columns having the types [T] and [hints] being what the
    writer knows about them: every plain field converts back from what it converts to, every nested field is an
    array column; a field that is not written has its default. *)
Fixpoint kind_faithful (hints : text -> option ty) (T : text -> ty) (k : kind) (i : info) (x : sval) {struct k} : Prop :=
  match k with
  | KPlain r =>
      if i_skip_ser i then i_default i = Some x
      else i_skip_de i = false /\ exists y v, x = SPlain y /\ to_sql r y (hints (i_name i)) = Ok v /\ from_sql r (strip_low_cardinality (T (i_name i))) v = Ok y
  | KNested fs =>
      if i_skip_ser i then i_skip_de i = true /\ i_default i = Some x
      else i_skip_de i = false /\ column_names fs <> [] /\ exists rows E, x = SVec rows /\
           (forall c, In c (column_names fs) -> T (dotted (i_name i) ++ c) = TArray (E c)) /\
           Forall (fun row => all2 (fun f => kind_faithful hints (fun c => strip_low_cardinality (E c)) (snd f) (fst f)) fs row) rows
  | KFlatten fs =>
      i_skip_ser i = false /\ i_skip_de i = false /\ exists xs, x = SSub xs /\ all2 (fun f => kind_faithful hints T (snd f) (fst f)) fs xs
  end.
Definition faithful (hints : text -> option ty) (T : text -> ty) (fs : fields) (xs : list sval) : Prop :=
  all2 (fun f => kind_faithful hints T (snd f) (fst f)) fs xs.
(** The columns a row is sent as. *)
Definition sent_as (T : text -> ty) (row : list (text * value)) : list column := map (fun nv => (fst nv, T (fst nv), snd nv)) row.

(** A sufficient condition for the plain fields: the types fit (as in C44) and the writer either knows the type
    of the column or knows nothing about it and the type is a simple one. *)
Definition knows (h : option ty) (t : ty) : Prop :=
  h = Some t \/ (lc_allowed (strip_null t) = true /\ (h = Some (TLowCard t) \/ h = None)).
Definition leaf_fits (h : option ty) (t : ty) (r : rty) (y : rval) : Prop :=
  validate t = true /\ stores r (strip_low_cardinality t) = true /\ member r (strip_low_cardinality t) y /\ knows h (strip_low_cardinality t).

(** Structs of plain fields only: which field a column is for.  The positions of the fields that are read: *)
Definition read_positions (fs : fields) : list nat :=
  filter (fun j => match nth_error fs j with Some f => negb (i_skip_de (fst f)) | None => false end) (seq 0 (List.length fs)).
(** a column goes to the field of its name, else to the field of its position, if there is one. *)
Definition goes_to (fs : fields) (idx : nat) (n : text) : option nat :=
  match find (fun j => match nth_error fs j with Some f => text_eqb n (i_name (fst f)) | None => false end) (read_positions fs) with
  | Some j => Some j
  | None => nth_error (read_positions fs) idx
  end.
Definition columns_of (fs : fields) (j : nat) (cols : list column) : list column :=
  map snd (filter (fun ic => match goes_to fs (fst ic) (cname (snd ic)) with Some j' => (j' =? j)%nat | None => false end) (combine (seq 0 (List.length cols)) cols)).
Definition plain_field (cs : list column) (f : info * kind) (x : sval) : Prop :=
  if i_skip_de (fst f) then i_default (fst f) = Some x
  else match snd f, cs with
       | KPlain r, [(_, t, v)] => exists y, from_sql r (strip_low_cardinality t) v = Ok y /\ x = SPlain y
       | KPlain _, [] => i_default (fst f) = Some x
       | _, _ => False
       end.
Definition all_plain (fs : fields) : Prop := Forall (fun f => exists r, snd f = KPlain r) fs.

(** ** Errors *)
(** A conversion that fails is reported with the name of the field (invalid UTF-8, and what a function given as
    [deserialize_with] returns, are not). *)
Definition blamed (r : rty) (n : text) (e : err) : err :=
  match r, e with
  | RUser true _ _, _ => e
  | _, EDeser => EDeserColumn n
  | _, EUnexpectedType => EUnexpectedTypeWithColumn n
  | _, _ => e
  end.
(** Why a row of a struct of plain fields is rejected. *)
Inductive plain_blame (fs : fields) (cols : list column) : err -> Prop :=
| blame_convert : forall j i r k c e,          (* the column for a field does not convert *)
    nth_error fs j = Some (i, KPlain r) -> i_skip_de i = false -> nth_error cols k = Some c -> goes_to fs k (cname c) = Some j ->
    from_sql r (strip_low_cardinality (snd (fst c))) (snd c) = Err e -> plain_blame fs cols (blamed r (i_name i) e)
| blame_duplicate : forall j i r k1 k2 c1 c2,  (* two columns for the same field *)
    nth_error fs j = Some (i, KPlain r) -> i_skip_de i = false -> (k1 < k2)%nat -> nth_error cols k1 = Some c1 -> nth_error cols k2 = Some c2 ->
    goes_to fs k1 (cname c1) = Some j -> goes_to fs k2 (cname c2) = Some j -> plain_blame fs cols (EDuplicateField (i_name i))
| blame_missing : forall j i r,                (* neither a column nor a default *)
    nth_error fs j = Some (i, KPlain r) -> i_default i = None -> i_skip_de i = true \/ columns_of fs j cols = [] ->
    plain_blame fs cols (EMissingField (i_name i)).
(** Any struct: the names of its fields, also of the nested and flattened ones. *)
Fixpoint kind_declared (k : kind) : list text :=
  match k with KPlain _ => [] | KNested fs | KFlatten fs => flat_map (fun f => i_name (fst f) :: kind_declared (snd f)) fs end.
Definition declared (fs : fields) : list text := flat_map (fun f => i_name (fst f) :: kind_declared (snd f)) fs.
(** Only conversions of the library's own, which are known to fail in two ways. *)
Fixpoint kind_built_in (k : kind) : bool :=
  match k with KPlain r => no_user r | KNested fs | KFlatten fs => forallb (fun f => kind_built_in (snd f)) fs end.
Definition built_in (fs : fields) : bool := forallb (fun f => kind_built_in (snd f)) fs.
(** The errors there are then: they name a declared field, or a received column (its part below the nested field). *)
Definition names_culprit (fs : fields) (cols : list column) (e : err) : Prop :=
  match e with
  | EMissingField n | EDuplicateField n | EDeserColumn n => In n (declared fs)
  | EUnexpectedTypeWithColumn n => exists c above, In c cols /\ cname c = above ++ n
  | EDeser (* nested columns of different lengths *) | EUtf8 | EFlattenedMissing => True
  | _ => False
  end.

(** ** Structs that are read without a panic *)
(** The columns asked for by the flattened fields. *)
Definition flattened_names (fs : fields) : list text :=
  flat_map (fun f => match snd f with KFlatten inner => column_names inner | _ => [] end) fs.
(** A row without columns is not one of this struct: some field that is read is a plain one without a default, a
    nested one, or a flattened one of at least one column. *)
Definition demands (fs : fields) : Prop :=
  exists i k, In (i, k) fs /\ i_skip_de i = false /\
    match k with KPlain _ => i_default i = None | KNested _ => True | KFlatten inner => column_names inner <> [] end.
(** No field of a chrono type; nested structs demand a column and contain no flattened field; no two flattened
    fields ask for the same column; and so for the structs inside. *)
Inductive steady (fs : fields) : Prop :=
  steady_intro :
    (forall i r, In (i, KPlain r) fs -> i_skip_de i = false -> calm r) ->
    (forall i inner, In (i, KNested inner) fs -> i_skip_de i = false -> demands inner /\ column_count inner <> None) ->
    (forall i inner, In (i, KNested inner) fs -> i_skip_de i = false -> steady inner) ->
    (forall i inner, In (i, KFlatten inner) fs -> i_skip_de i = false -> steady inner) ->
    NoDup (flattened_names fs) -> steady fs.
