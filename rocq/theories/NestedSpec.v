(** Which rows a struct of plain and nested fields is read from, exactly. *)
From Coq Require Import String.
From Verif Require Import Base Types Text RawRow Numeric Convert ConvertSpec Migrate Derive DeriveSpec.
Local Open Scope list_scope.
Local Open Scope N_scope.

(** No flattened field at any depth. *)
Fixpoint flat_free (k : kind) : bool :=
  match k with KPlain _ => true | KNested fs => forallb (fun f => flat_free (snd f)) fs | KFlatten _ => false end.

(** ** Which field a column is for *)
(** A field is meant by its name, a nested field by its name, a dot and whatever follows. *)
Definition meant (f : info * kind) (n : text) : bool :=
  negb (i_skip_de (fst f)) && match snd f with KPlain _ => text_eqb n (i_name (fst f)) | _ => prefix (i_name (fst f) ++ [46]) n end.
(** The positions: one for every plain field, as many for a nested field as its struct has columns. *)
Definition width (k : kind) : nat := match k with KPlain _ => 1 | KNested fs | KFlatten fs => List.length (column_names fs) end.
Definition slots (fs : fields) : list nat :=
  flat_map (fun j => match nth_error fs j with Some f => if i_skip_de (fst f) then [] else repeat j (width (snd f)) | None => [] end)
           (seq 0 (List.length fs)).
(** The first field meant by the column's name, otherwise the field at the column's position; [true] in the first case. *)
Definition assigned (fs : fields) (idx : nat) (n : text) : option (nat * bool) :=
  match find (fun j => match nth_error fs j with Some f => meant f n | None => false end) (seq 0 (List.length fs)) with
  | Some j => Some (j, true)
  | None => option_map (fun j => (j, false)) (nth_error (slots fs) idx)
  end.
Definition given (fs : fields) (j : nat) (cols : list column) : list (bool * column) :=
  flat_map (fun ic => match assigned fs (fst ic) (cname (snd ic)) with
                      | Some (j', b) => if (j' =? j)%nat then [(b, snd ic)] else []
                      | None => []
                      end) (combine (seq 0 (List.length cols)) cols).

(** ** What is read *)
(** A column given to a nested field: an array; inside, its name is what follows the dot, or the whole name if the column
    was given by its position. *)
Definition inside (name : text) (bc : bool * column) (e : text * ty * list value) : Prop :=
  snd (fst (snd bc)) = TArray (snd (fst e)) /\ snd (snd bc) = VArray (snd e) /\
  cname (snd bc) = if fst bc then name ++ [46] ++ fst (fst e) else fst (fst e).
(** The struct's fields get: their default if they are skipped; the converted column or, without a column, the default if
    they are plain; and if they are nested, the rows read from the elements of their columns, of which there is at
    least one and which are equally long. *)
Fixpoint kind_exact (k : kind) (cols : list column) (xs : list sval) {struct k} : Prop :=
  match k with
  | KNested fs =>
      (fix each (j : nat) (gs : fields) (ys : list sval) : Prop :=
         match gs, ys with
         | [], [] => True
         | (i, k') :: gs', y :: ys' =>
             (if i_skip_de i then i_default i = Some y else
              match k' with
              | KPlain r =>
                  match given fs j cols with
                  | [(_, (_, t, v))] => exists z, from_sql r (strip_low_cardinality t) v = Ok z /\ y = SPlain z
                  | [] => i_default i = Some y
                  | _ => False
                  end
              | _ =>
                  exists rows table, y = SVec rows /\ table <> [] /\ Forall2 (inside (i_name i)) (given fs j cols) table /\
                    Forall (fun e => List.length (snd e) = List.length rows) table /\
                    forall n row, nth_error rows n = Some row -> kind_exact k' (row_of table n) row
              end) /\ each (S j) gs' ys'
         | _, _ => False
         end) 0%nat fs xs
  | _ => False
  end.
Definition read_exactly (fs : fields) (cols : list column) (xs : list sval) : Prop := kind_exact (KNested fs) cols xs.
