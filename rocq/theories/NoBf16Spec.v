(** Types in which BFloat16 does not occur. *)
From Verif Require Import Base Types.

Fixpoint bf_free (t : ty) : bool :=
  match t with
  | TBFloat16 => false
  | TLowCard t' | TArray t' | TNullable t' => bf_free t'
  | TTuple ts => forallb bf_free ts
  | TMap k v => bf_free k && bf_free v
  | _ => true
  end.
