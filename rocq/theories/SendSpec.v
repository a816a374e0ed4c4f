(** Specification of what can be sent at all (C13), beside what validation accepts: the
    values for which writing a column does not panic, and the types whose tuples hold no
    dictionary-encoded column directly. *)
From Verif Require Import Base Types ColumnSpec.

(** No tuple longer than its type, no map with unequal numbers of keys and values, no NULL
    for a Nullable geo type.  Unlike [shape_ok], tuples may be too short. *)
Fixpoint writable (t : ty) (v : value) {struct t} : bool :=
  match t, v with
  | TArray t', VArray vs => forallb (writable t') vs
  | TTuple ts, VTuple vs => (lenN vs <=? lenN ts) && zip_all writable ts vs
  | TMap k w, VMap ks vs => (lenN ks =? lenN vs) && forallb (writable k) ks && forallb (writable w) vs
  | TNullable t', _ => if is_null v then negb (is_geo t') else writable t' v
  | TLowCard t', _ => writable t' v
  | _, _ => true
  end.

(** No element of a tuple is a LowCardinality column itself (it may contain one deeper down). *)
Fixpoint plain_tuples (t : ty) : bool :=
  match t with
  | TArray t' | TNullable t' => plain_tuples t'
  | TTuple ts => forallb (fun t => plain_tuples t && match t with TLowCard _ => false | _ => true end) ts
  | TMap k w => plain_tuples k && plain_tuples w
  | _ => true
  end.

(** Every tuple has as many elements as its type, at every depth (LowCardinality holds none). *)
Fixpoint arity (t : ty) (v : value) {struct t} : bool :=
  match t, v with
  | TArray t', VArray vs => forallb (arity t') vs
  | TTuple ts, VTuple vs => (lenN ts =? lenN vs) && zip_all arity ts vs
  | TMap k w, VMap ks vs => forallb (arity k) ks && forallb (arity w) vs
  | TNullable t', _ => is_null v || arity t' v
  | _, _ => true
  end.
