(** What it means to keep values as JSON text in a column. *)
From Verif Require Import Base Types Text Utf8 Json.
Local Open Scope list_scope. Local Open Scope N_scope.

(** serde_json writes [x] as the text [s] (Unicode scalar values) and reads that text back. *)
Definition json_faithful {T} (J : serde_json T) (x : T) (s : text) : Prop :=
  j_text J x = Some s /\ j_read J s = Some x /\ forallb scalar s = true.
(** The columns JSON text can be kept in, and what of it they can hold. *)
Definition json_column (t : ty) (s : text) : Prop :=
  match t with
  | TString => True
  | TFixedString n => lenN (utf8 s) <= n /\ ~ In 0 (utf8 s)
  | _ => False
  end.

(** The same for an optional value. *)
Definition json_opt_faithful {T} (J : serde_json T) (x : option T) (s : option text) : Prop :=
  match x, s with None, None => True | Some x, Some s => json_faithful J x s | _, _ => False end.
