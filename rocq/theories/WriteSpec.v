(** What a value of a derived struct is written as. *)
From Coq Require Import String.
From Verif Require Import Base Types Text RawRow Numeric Convert ConvertSpec Migrate Derive NestedSpec.
Local Open Scope list_scope.
Local Open Scope N_scope.

(** The columns of a nested field [name] of the columns [names], from its written rows: [name.c] with the array of the rows'
    cells for [c]. *)
Definition transposed (name : text) (names : list text) (table : list (list (text * value))) : list (text * value) :=
  map (fun jc => (name ++ [46] ++ snd jc, VArray (map (fun row => nth (fst jc) (map snd row) VNull) table))) (combine (seq 0 (List.length names)) names).
(** Field by field, in the order of the declaration: nothing for a field that is not written; the converted value under the
    field's name (the conversion being told the type of the column of that name); the columns of the struct of a flattened field;
    the rows of a nested field, transposed. *)
Fixpoint kind_writes (hints : text -> option ty) (k : kind) (i : info) (x : sval) (cs : list (text * value)) {struct k} : Prop :=
  let fields_write := fun (fs : fields) (xs : list sval) (cs : list (text * value)) =>
      exists css, cs = concat css /\ all3 (fun f => kind_writes hints (snd f) (fst f)) fs xs css in
  if i_skip_ser i then cs = [] else
  match k with
  | KPlain r => exists y v, x = SPlain y /\ to_sql r y (hints (i_name i)) = Ok v /\ cs = [(i_name i, v)]
  | KNested fs => exists rows table, x = SVec rows /\ all2 (fields_write fs) rows table /\ cs = transposed (i_name i) (column_names fs) table
  | KFlatten fs => exists xs, x = SSub xs /\ fields_write fs xs cs
  end.
Definition writes (hints : text -> option ty) (fs : fields) (xs : list sval) (cs : list (text * value)) : Prop :=
  exists css, cs = concat css /\ all3 (fun f => kind_writes hints (snd f) (fst f)) fs xs css.

(** Nested structs contain no flattened field. *)
Fixpoint kind_settled (k : kind) : bool :=
  match k with
  | KPlain _ => true
  | KNested _ => flat_free k
  | KFlatten fs => forallb (fun f => kind_settled (snd f)) fs
  end.
Definition settled (fs : fields) : bool := forallb (fun f => kind_settled (snd f)) fs.

(** A value of the struct: one value for every field, of its kind. *)
Fixpoint kind_shape (k : kind) (x : sval) {struct k} : Prop :=
  match k, x with
  | KPlain _, SPlain _ => True
  | KNested fs, SVec rows => Forall (all2 (fun f => kind_shape (snd f)) fs) rows
  | KFlatten fs, SSub xs => all2 (fun f => kind_shape (snd f)) fs xs
  | _, _ => False
  end.
Definition value_of (fs : fields) (xs : list sval) : Prop := all2 (fun f => kind_shape (snd f)) fs xs.

(** The conversions that have to be made, in order: of the plain fields that are written, row after row inside a nested field. *)
Fixpoint kind_conversions (hints : text -> option ty) (k : kind) (i : info) (x : sval) {struct k} : list (res value) :=
  let inside := fix go (fs : fields) (xs : list sval) : list (res value) :=
      match fs, xs with f :: fs', y :: xs' => kind_conversions hints (snd f) (fst f) y ++ go fs' xs' | _, _ => [] end in
  if i_skip_ser i then [] else
  match k, x with
  | KPlain r, SPlain y => [to_sql r y (hints (i_name i))]
  | KNested fs, SVec rows => flat_map (inside fs) rows
  | KFlatten fs, SSub xs => inside fs xs
  | _, _ => []
  end.
Definition conversions (hints : text -> option ty) (fs : fields) (xs : list sval) : list (res value) :=
  flat_map (fun fx => kind_conversions hints (snd (fst fx)) (fst (fst fx)) (snd fx)) (combine fs xs).
(** What becomes of the whole if the first conversion that does not succeed gives [c]. *)
Definition failed_as {A} (c : res value) (r : res A) : Prop :=
  match c, r with Err e, Err e' => e = e' | Panic, Panic => True | _, _ => False end.
