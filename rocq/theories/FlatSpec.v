(** Which rows a struct with flattened fields is read from, exactly. *)
From Coq Require Import String.
From Verif Require Import Base Types Text RawRow Numeric Convert ConvertSpec Migrate Derive DeriveSpec NestedSpec.
Local Open Scope list_scope.
Local Open Scope N_scope.

(** Flattened structs, to any depth, beside plain fields and nested ones without flattened fields of their own; no two ask for the
    same column. *)
Inductive layered : fields -> Prop :=
| layered_leaf fs : flat_free (KNested fs) = true -> layered fs
| layered_flat fs :
    (forall i inner, In (i, KNested inner) fs -> flat_free (KNested inner) = true) ->
    (forall i inner, In (i, KFlatten inner) fs -> i_skip_de i = false) ->
    (forall i inner, In (i, KFlatten inner) fs -> layered inner) ->
    NoDup (flattened_names fs) -> layered fs.

(** Taking out the first column of a name: the last column comes into its place. *)
Fixpoint parted (n : text) (cols : list column) : option (list column * list column) :=
  match cols with
  | [] => None
  | c :: r => if text_eqb (cname c) n then Some ([], r) else option_map (fun ba => (c :: fst ba, snd ba)) (parted n r)
  end.
Definition without (cols : list column) (n : text) : list column :=
  match parted n cols with
  | Some (before, after) => before ++ match rev after with [] => [] | last :: _ => last :: removelast after end
  | None => cols
  end.
(** The columns that the flattened structs leave. *)
Definition left_over (fs : fields) (cols : list column) : list column := fold_left without (flattened_names fs) cols.
(** Those for field [j], which is the first one meant by their name; a position means nothing. *)
Definition by_name (fs : fields) (j : nat) (cols : list column) : list column :=
  filter (fun c => match find (fun j => match nth_error fs j with
                                        | Some (i, KFlatten _) => false
                                        | Some f => meant f (cname c)
                                        | None => false
                                        end) (seq 0 (List.length fs)) with
                   | Some j' => (j' =? j)%nat
                   | None => false
                   end) (left_over fs cols).
(** The rows of a nested field: as in NestedSpec.v, its columns all being matched by name. *)
Definition nested_field (cs : list column) (f : info * kind) (inner : fields) (x : sval) : Prop :=
  if i_skip_de (fst f) then i_default (fst f) = Some x else
  exists rows table, x = SVec rows /\ table <> [] /\ Forall2 (inside (i_name (fst f))) (map (pair true) cs) table /\
    Forall (fun e => List.length (snd e) = List.length rows) table /\
    forall n row, nth_error rows n = Some row -> read_exactly inner (row_of table n) row.
(** Without flattened fields as described in NestedSpec.v.  With them, the columns asked for by the flattened structs must all be there,
    and each such struct is read from its columns, in the order of its declaration; of the columns that are left, a plain field gets the
    one of its name, converted, or its default, and a nested field those that begin with its name and a dot; others are ignored. *)
Inductive reads_flat : fields -> list column -> list sval -> Prop :=
| reads_leaf fs cols xs : flat_free (KNested fs) = true -> read_exactly fs cols xs -> reads_flat fs cols xs
| reads_layer fs cols xs :
    flat_free (KNested fs) = false -> incl (flattened_names fs) (map cname cols) -> List.length xs = List.length fs ->
    (forall j i r x, nth_error fs j = Some (i, KPlain r) -> nth_error xs j = Some x -> plain_field (by_name fs j cols) (i, KPlain r) x) ->
    (forall j i inner x, nth_error fs j = Some (i, KNested inner) -> nth_error xs j = Some x -> nested_field (by_name fs j cols) (i, KNested inner) inner x) ->
    (forall j i inner x, nth_error fs j = Some (i, KFlatten inner) -> nth_error xs j = Some x ->
       exists cs ys, x = SSub ys /\ map cname cs = column_names inner /\ incl cs cols /\ reads_flat inner cs ys) ->
    reads_flat fs cols xs.
