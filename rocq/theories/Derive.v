(** Model of the code generated by [#[derive(Row)]]: klickhouse_derive/src/row.rs.  The macro is
    modelled as an interpreter of a struct declaration; the generated code is the interpreter
    applied to the declaration.
    A field with [serialize_with]/[deserialize_with] is a plain one of a type [RUser].
    Not covered here: [from]/[try_from]/[into] (see Declare.v), [deny_unknown_fields] (the code it generates refers to the variant
    [KlickhouseError::UnknownField], which does not exist: it does not compile). *)
From Coq Require Import String.
From Verif Require Import Base Types Text RawRow Numeric Convert Migrate.
Local Open Scope list_scope.
Local Open Scope N_scope.

Notation column := (text * ty * value)%type (only parsing).

(** The value of a field: of a plain field, of a [nested] one (its rows), of a [flatten] one. *)
Inductive sval := SPlain (x : rval) | SVec (rows : list (list sval)) | SSub (fields : list sval).

(** attr.rs 351-361 [struct Field]; [i_default] is what [expr_is_missing] (row.rs 653-683) gives:
    the field's default, else the container's, else none. *)
Record info := { i_name : text; i_skip_ser : bool; i_skip_de : bool; i_default : option sval }.
(** A plain field with its Rust type, [nested] ([Vec] of a row struct), [flatten] (a row struct). *)
Inductive kind := KPlain (r : rty) | KNested (fs : list (info * kind)) | KFlatten (fs : list (info * kind)).
Notation fields := (list (info * kind)) (only parsing).

Definition is_flatten (k : kind) : bool := match k with KFlatten _ => true | _ => false end.
Definition dotted (n : text) : text := n ++ [46].
Definition cname (c : column) : text := fst (fst c).

(** row.rs 93, 101-105, 180-200: [COLUMN_COUNT] *)
Fixpoint kind_count (k : kind) : option nat :=
  match k with
  | KPlain _ => Some 1%nat
  | KFlatten _ => None
  | KNested fs =>
      if existsb (fun f => is_flatten (snd f)) fs then None else
      (fix go fs := match fs with
        | [] => Some 0%nat
        | (i, k) :: r => match go r with
                         | None => None
                         | Some n => if i_skip_ser i then Some n
                                     else match kind_count k with Some m => Some (m + n)%nat | None => None end
                         end
        end) fs
  end.
Definition column_count (fs : fields) : option nat := kind_count (KNested fs).

(** row.rs 202-225: [column_names] *)
Fixpoint kind_names (name : text) (k : kind) : list text :=
  let names := fix go (fs : fields) := match fs with
    | [] => []
    | (i, k) :: r => if i_skip_ser i then go r else kind_names (i_name i) k ++ go r
    end in
  match k with
  | KPlain _ => [name]
  | KNested fs => map (fun c => dotted name ++ c) (names fs)
  | KFlatten fs => names fs
  end.
Definition column_names (fs : fields) : list text :=
  flat_map (fun f => if i_skip_ser (fst f) then [] else kind_names (i_name (fst f)) (snd f)) fs.

(** row.rs 277-308: the columns of a nested field from the serialized rows. *)
Definition nested_columns (name : text) (n : nat) (names : list text) (rows : list (list (text * value))) : res (list (text * value)) :=
  if forallb (fun row => (List.length row =? n)%nat) rows then
    mapM (fun i =>
      match (match rows with first :: _ => option_map fst (nth_error first i) | [] => nth_error names i end) with
      | Some c => vs <- mapM (fun row => match nth_error row i with Some (_, v) => Ok v | None => Panic end) rows ;;
                  Ok (dotted name ++ c, VArray vs)
      | None => Panic
      end) (seq 0 n)
  else Panic.

(** row.rs 243-325 [serialize_row].  The hints are looked up by the name a struct gives its field, also
    inside a nested struct. *)
Fixpoint kind_serialize (hints : text -> option ty) (i : info) (k : kind) (x : sval) : res (list (text * value)) :=
  let serialize_fields := fix go (fs : fields) (xs : list sval) : res (list (text * value)) := match fs, xs with
    | [], [] => Ok []
    | (i, k) :: fs', x :: xs' =>
        if i_skip_ser i then go fs' xs'
        else a <- kind_serialize hints i k x ;; b <- go fs' xs' ;; Ok (a ++ b)
    | _, _ => Panic      (* not a value of this struct *)
    end in
  match k, x with
  | KPlain r, SPlain y => v <- to_sql r y (hints (i_name i)) ;; Ok [(i_name i, v)]
  | KNested fs, SVec rows =>
      match column_count fs with
      | None => Panic
      | Some n => rs <- mapM (serialize_fields fs) rows ;; nested_columns (i_name i) n (column_names fs) rs
      end
  | KFlatten fs, SSub xs => serialize_fields fs xs
  | _, _ => Panic        (* not a value of this field *)
  end.
Fixpoint serialize (hints : text -> option ty) (fs : fields) (xs : list sval) : res (list (text * value)) :=
  match fs, xs with
  | [], [] => Ok []
  | (i, k) :: fs', x :: xs' =>
      if i_skip_ser i then serialize hints fs' xs'
      else a <- kind_serialize hints i k x ;; b <- serialize hints fs' xs' ;; Ok (a ++ b)
  | _, _ => Panic
  end.

(** Declared variables of the generated function, one for every field. *)
Inductive acc :=
| ASkip                                                             (* skipped or flattened: none *)
| ACell (o : option rval)
| ANest (cols : list (text * ty * list value)) (len : nat).         (* __ext_f, __ext_f_iter, __ext_f_len *)
Definition inactive (f : info * kind) : bool := i_skip_de (fst f) || is_flatten (snd f).
Definition acc0 (f : info * kind) : acc :=
  if inactive f then ASkip else match snd f with KPlain _ => ACell None | _ => ANest [] 0 end.

(** The match on the name (row.rs 440-451, 498-505): the first arm that fits. *)
Definition named (f : info * kind) (n : text) : bool :=
  negb (inactive f) &&
  match snd f with KPlain _ => text_eqb n (i_name (fst f)) | _ => prefix (dotted (i_name (fst f))) n end.
Fixpoint find_name (fs : fields) (j : nat) (n : text) : option nat :=
  match fs with [] => None | f :: r => if named f n then Some j else find_name r (S j) n end.
(** The match on the position (row.rs 452-463, 506-513), [at_] being [current_index]. *)
Fixpoint find_index (fs : fields) (j at_ idx : nat) : option nat :=
  match fs with
  | [] => None
  | f :: r => if inactive f then find_index r (S j) at_ idx
              else let size := match snd f with KPlain _ => 1%nat | k => match kind_count k with Some n => n | None => 0%nat end end in
                   if ((at_ <=? idx) && (idx <? at_ + size))%nat then Some j else find_index r (S j) (at_ + size) idx
  end.
(** Which variable a column goes to, and whether by its name; by position only without flattened fields
    (row.rs 529-539). *)
Definition dest (fs : fields) (idx : nat) (n : text) : option (nat * bool) :=
  match find_name fs 0 n with
  | Some j => Some (j, true)
  | None => if existsb (fun f => is_flatten (snd f)) fs then None
            else match find_index fs 0 0 idx with Some j => Some (j, false) | None => None end
  end.

(** errors.rs 46-58 [with_column_name] *)
Definition with_column {A} (n : text) (r : res A) : res A :=
  match r with
  | Err EDeser => Err (EDeserColumn n)
  | Err EUnexpectedType => Err (EUnexpectedTypeWithColumn n)
  | _ => r
  end.

(** The conversion of a column for a plain field: an error of [from_sql] gets the name of the field
    (row.rs 485-489), one of a [deserialize_with] function is passed on as it is (490-493). *)
Definition by_attribute (r : rty) : bool := match r with RUser true _ _ => true | _ => false end.
Definition field_from (n : text) (r : rty) (t : ty) (v : value) : res rval :=
  if by_attribute r then from_sql r t v else with_column n (from_sql r t v).

(** The body of an arm: row.rs 440-463 for nested fields, 498-513 for plain ones. *)
Definition put_column (f : info * kind) (byname : bool) (a : acc) (c : column) : res acc :=
  let '(n, t, v) := c in
  match snd f, a with
  | KPlain r, ACell o =>
      match o with
      | Some _ => Err (EDuplicateField (i_name (fst f)))
      | None => x <- field_from (i_name (fst f)) r (strip_low_cardinality t) v ;; Ok (ACell (Some x))
      end
  | KNested _, ANest cols len =>
      match v with
      | VArray vs =>
          if match cols with [] => true | _ => (len =? List.length vs)%nat end then
            match t with
            | TArray t' => Ok (ANest (cols ++ [((if byname then skipn (List.length (dotted (i_name (fst f)))) n else n), strip_low_cardinality t', vs)]) (List.length vs))
            | _ => Err (EUnexpectedTypeWithColumn n)
            end
          else Err EDeser
      | _ => Err (EUnexpectedTypeWithColumn n)
      end
  | _, _ => Ok a
  end.
Fixpoint set_nth {A} (l : list A) (j : nat) (x : A) : list A :=
  match l, j with [], _ => [] | _ :: r, O => x :: r | a :: r, S j' => a :: set_nth r j' x end.

(** The loop over the columns (row.rs 568-576). *)
Fixpoint match_keys (fs : fields) (idx : nat) (cols : list column) (accs : list acc) : res (list acc) :=
  match cols with
  | [] => Ok accs
  | c :: rest =>
      match dest fs idx (cname c) with
      | None => match_keys fs (S idx) rest accs
      | Some (j, byname) =>
          match nth_error fs j, nth_error accs j with
          | Some f, Some a => a' <- put_column f byname a c ;; match_keys fs (S idx) rest (set_nth accs j a')
          | _, _ => Panic
          end
      end
  end.

(** row.rs 541-566: the columns of the flattened fields are taken out first. *)
Fixpoint find_col (n : text) (cols : list column) : option nat :=
  match cols with [] => None | c :: r => if text_eqb (cname c) n then Some 0%nat else option_map S (find_col n r) end.
(** [Vec::swap_remove]: the last element takes the place of the removed one. *)
Definition swap_remove {A} (l : list A) (j : nat) : option (A * list A) :=
  match nth_error l j with
  | None => None
  | Some x => if (S j =? List.length l)%nat then Some (x, removelast l)
              else match rev l with last :: _ => Some (x, set_nth (removelast l) j last) | [] => None end
  end.
(** [HashMap::insert], [remove_entry] *)
Fixpoint fmap_insert (n : text) (tv : ty * value) (m : list (text * (ty * value))) : list (text * (ty * value)) :=
  match m with [] => [(n, tv)] | (k, x) :: r => if text_eqb k n then (k, tv) :: r else (k, x) :: fmap_insert n tv r end.
Fixpoint fmap_remove (n : text) (m : list (text * (ty * value))) : option (text * (ty * value) * list (text * (ty * value))) :=
  match m with
  | [] => None
  | (k, x) :: r => if text_eqb k n then Some (k, x, r)
                   else match fmap_remove n r with Some (e, r') => Some (e, (k, x) :: r') | None => None end
  end.
Notation flatmap := (list (text * (ty * value))) (only parsing).
Fixpoint pull_names (ns : list text) (cols : list column) (m : flatmap) : res (list column * flatmap) :=
  match ns with
  | [] => Ok (cols, m)
  | n :: r => match find_col n cols with
              | None => Err EFlattenedMissing
              | Some j => match swap_remove cols j with
                          | Some ((c, t, v), cols') => pull_names r cols' (fmap_insert c (t, v) m)
                          | None => Panic
                          end
              end
  end.
Fixpoint pull_flatten (fs : fields) (cols : list column) (m : flatmap) : res (list column * flatmap) :=
  match fs with
  | [] => Ok (cols, m)
  | (_, k) :: r => match k with
                   | KFlatten fs' => cm <- pull_names (column_names fs') cols m ;; pull_flatten r (fst cm) (snd cm)
                   | _ => pull_flatten r cols m
                   end
  end.
(** row.rs 598-613: handing them over. *)
Fixpoint take_names (ns : list text) (m : flatmap) : res (list column * flatmap) :=
  match ns with
  | [] => Ok ([], m)
  | n :: r => match fmap_remove n m with
              | None => Panic
              | Some ((c, (t, v)), m') => cm <- take_names r m' ;; Ok ((c, t, v) :: fst cm, snd cm)
              end
  end.

(** Row number [i] of a nested field (row.rs 464-481). *)
Definition nested_row (cols : list (text * ty * list value)) (i : nat) : res (list column) :=
  mapM (fun c => match nth_error (snd c) i with Some v => Ok (fst c, v) | None => Panic end) cols.

Definition size_known (f : info * kind) : bool :=
  inactive f || match snd f with KNested fs => match column_count fs with Some _ => true | None => false end | _ => true end.

(** Before the parts that recurse: row.rs 635-641 up to the nested rectification. *)
Definition gather (fs : fields) (cols : list column) : res (list acc * flatmap) :=
  if forallb size_known fs then
    cm <- pull_flatten fs cols [] ;;
    accs <- match_keys fs 0 (fst cm) (map acc0 fs) ;;
    Ok (accs, snd cm)
  else Panic.

(** Missing fields (row.rs 578-591): nested fields have a value by now. *)
Fixpoint extract (fs : fields) (vals : list (option sval)) : res (list sval) :=
  match fs, vals with
  | [], [] => Ok []
  | f :: fs', o :: vals' =>
      x <- (if inactive f then Ok (SSub []) else
            match o with Some x => Ok x | None => match i_default (fst f) with Some d => Ok d | None => Err (EMissingField (i_name (fst f))) end end) ;;
      xs <- extract fs' vals' ;; Ok (x :: xs)
  | _, _ => Panic
  end.

(** row.rs 593-650 [deserialize_row].
    A nested field none of whose columns are there: the loop of row.rs 467-479 has nothing to stop it.
    It ends with the error of the nested struct, if an empty row is one; otherwise it appends rows until memory
    is exhausted ([Panic] here). *)
Fixpoint kind_deserialize (k : kind) (cols : list column) {struct k} : res (list sval) :=
  match k with
  | KPlain _ => Panic
  | KNested fs | KFlatten fs =>
    am <- gather fs cols ;;
    vals <- (fix rectify (fs : fields) (accs : list acc) : res (list (option sval)) :=
        match fs, accs with
        | [], _ => Ok []
        | (_, k') :: fs', a :: accs' =>
            o <- match a with
                 | ASkip => Ok None
                 | ACell o => Ok (option_map SPlain o)
                 | ANest [] _ => match kind_deserialize k' [] with Ok _ => Panic | Err e => Err e | Panic => Panic end
                 | ANest ncols len => rows <- mapM (fun i => r <- nested_row ncols i ;; kind_deserialize k' r) (seq 0 len) ;; Ok (Some (SVec rows))
                 end ;;
            os <- rectify fs' accs' ;; Ok (o :: os)
        | _ :: _, [] => Panic
        end) fs (fst am) ;;
    xs <- extract fs vals ;;
    (fix build (fs : fields) (xs : list sval) (m : flatmap) : res (list sval) :=
        match fs, xs with
        | [], _ => Ok []
        | (i, k') :: fs', x :: xs' =>
            if i_skip_de i then
              match i_default i with
              | Some d => ys <- build fs' xs' m ;; Ok (d :: ys)
              | None => Err (EMissingField (i_name i))
              end
            else match k' with
              | KFlatten fs1 =>
                  cm <- take_names (column_names fs1) m ;;
                  sub <- kind_deserialize k' (fst cm) ;;
                  ys <- build fs' xs' (snd cm) ;; Ok (SSub sub :: ys)
              | _ => ys <- build fs' xs' m ;; Ok (x :: ys)
              end
        | _ :: _, [] => Panic
        end) fs xs (snd am)
  end.
Definition deserialize (fs : fields) (cols : list column) : res (list sval) := kind_deserialize (KNested fs) cols.
