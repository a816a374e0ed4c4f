(** What query text should look like, independent of the loops that build it. *)
From Coq Require Import String.
From Verif Require Import Base Types Text.
From Verif Require Query.
Local Open Scope list_scope.
Local Open Scope N_scope.

(* ---------------- arguments ---------------- *)

(** What each token looks like in the text of a query. *)
Definition spelling (t : Query.token) : text :=
  match t with
  | Query.TkArgument digits => txt "$" ++ digits
  | Query.TkEscapedDollar => txt "$$"
  | Query.TkSemicolon => txt ";"
  | Query.TkOther s => s
  end.

(** A query with numbered holes. *)
Inductive piece := Lit (s : text) | Hole (i : nat).
Definition fill (rendered : list text) (p : list piece) : text :=
  concat (map (fun x => match x with Lit s => s | Hole i => nth i rendered [] end) p).

(** How each token of the query appears in the template when [n] arguments are given: $k with
    1 <= k <= n is the hole of argument k, $$ is a dollar sign, everything else stays. *)
Inductive piece_of (n : nat) : Query.token -> piece -> Prop :=
| po_hole ds k : digits_val 0 ds = Some (N.of_nat (S k)) -> ds <> [] -> (k < n)%nat -> N.of_nat (S k) < 2 ^ 64 ->
    piece_of n (Query.TkArgument ds) (Hole k)
| po_unknown ds : (forall k, digits_val 0 ds = Some (N.of_nat (S k)) -> ds = [] \/ (n <= k)%nat \/ 2 ^ 64 <= N.of_nat (S k)) ->
    Forall (fun c => is_digit c = true) ds ->
    piece_of n (Query.TkArgument ds) (Lit (36 :: ds))
| po_dollar : piece_of n Query.TkEscapedDollar (Lit [36])
| po_semicolon : piece_of n Query.TkSemicolon (Lit [59])
| po_other s : piece_of n (Query.TkOther s) (Lit s).

(* ---------------- SELECT ---------------- *)

Section Select.
Import Query.
Variable calls : list call.

Definition all_of (f : call -> list item) : list item := flat_map f calls.
Definition last_of (f : call -> option item) : option item :=
  fold_left (fun acc c => match f c with Some q => Some q | None => acc end) calls None.

Definition the_withs := all_of (fun c => match c with CWith q => [q] | _ => [] end).
Definition the_exprs := all_of (fun c => match c with CSelect q => [q] | CSelectAll l => l | _ => [] end).
Definition the_array_joins := all_of (fun c => match c with CArrayJoin q => [q] | _ => [] end).
Definition the_joins := all_of (fun c => match c with CJoin q => [q] | _ => [] end).
Definition the_prewhere := all_of (fun c => match c with CPrewhere q => [q] | CPrewhereAll l => l | _ => [] end).
Definition the_where := all_of (fun c => match c with CWhere q => [q] | CWhereAll l => l | _ => [] end).
Definition the_group_by := all_of (fun c => match c with CGroupBy q => [q] | CGroupByAll l => l | _ => [] end).
Definition the_having := all_of (fun c => match c with CHaving q => [q] | CHavingAll l => l | _ => [] end).
Definition the_sample := last_of (fun c => match c with CSample q => Some q | _ => None end).
Definition the_order_by := last_of (fun c => match c with COrderBy q => Some q | _ => None end).
Definition the_limit := last_of (fun c => match c with CLimit q => Some q | _ => None end).
Definition the_offset := last_of (fun c => match c with COffset q => Some q | _ => None end).
Definition the_settings := last_of (fun c => match c with CSettings q => Some q | _ => None end).
Definition the_union := last_of (fun c => match c with CUnion q => Some q | _ => None end).

End Select.

(** DISTINCT / DISTINCT ON: the last call of either kind decides; the columns of DISTINCT ON are
    those given since the last call of [distinct].  [rev_calls] is latest first. *)
Inductive distinction := Plain | Distinct | DistinctOn (cols : list Query.item).
Fixpoint cols_since (rev_calls : list Query.call) : list Query.item :=
  match rev_calls with
  | [] | Query.CDistinct _ :: _ => []
  | Query.CDistinctOn q :: r => cols_since r ++ [q]
  | _ :: r => cols_since r
  end.
Fixpoint distinction_of (rev_calls : list Query.call) : distinction :=
  match rev_calls with
  | [] => Plain
  | Query.CDistinct b :: _ => if b then Distinct else Plain
  | Query.CDistinctOn q :: r => DistinctOn (cols_since rev_calls)
  | _ :: r => distinction_of r
  end.

(** One clause of the statement: its sub-expressions, and its text given theirs. *)
Definition clause := (list Query.item * (list text -> text))%type.
Definition NL : text := [10].
Definition sel_list (l : list Query.item) (open sep close : text) : list clause :=
  match l with [] => [] | _ => [(l, fun ts => open ++ join sep ts ++ close)] end.
Definition sel_opt (q : option Query.item) (open : text) : list clause :=
  match q with None => [] | Some q => [([q], fun ts => open ++ concat ts ++ NL)] end.

Definition distinct_clauses (d : distinction) : list clause :=
  match d with
  | Plain => []
  | Distinct => [([], fun _ => txt "DISTINCT" ++ NL)]
  | DistinctOn l => sel_list l (txt "DISTINCT ON (") (txt ",") (txt ")" ++ NL)
  end.

Definition select_clauses (from : Query.item) (calls : list Query.call) : list clause :=
  sel_list (the_withs calls) (txt "WITH ") (txt ",") NL ++
  [([], fun _ => txt "SELECT" ++ NL)] ++
  distinct_clauses (distinction_of (rev calls)) ++
  sel_list (the_exprs calls) [] (txt "," ++ NL) NL ++
  [([from], fun ts => txt "FROM " ++ concat ts ++ NL)] ++
  sel_opt (the_sample calls) (txt "SAMPLE ") ++
  sel_list (the_array_joins calls) [] NL NL ++
  sel_list (the_joins calls) [] NL NL ++
  sel_list (the_prewhere calls) (txt "PREWHERE (") (txt ") AND" ++ NL ++ txt "(") (txt ")" ++ NL) ++
  sel_list (the_where calls) (txt "WHERE (") (txt ") AND" ++ NL ++ txt "(") (txt ")" ++ NL) ++
  sel_list (the_group_by calls) (txt "GROUP BY ") (txt "," ++ NL) NL ++
  sel_list (the_having calls) (txt "HAVING (") (txt ") AND" ++ NL ++ txt "(") (txt ")" ++ NL) ++
  sel_opt (the_order_by calls) (txt "ORDER BY ") ++
  sel_opt (the_limit calls) (txt "LIMIT ") ++
  sel_opt (the_offset calls) (txt "OFFSET ") ++
  sel_opt (the_settings calls) (txt "SETTINGS ") ++
  sel_opt (the_union calls) (txt "UNION ").

(** The sub-expressions in the order of the statement, their texts, their first error. *)
Definition clause_items (cs : list clause) : list Query.item := flat_map fst cs.
Definition item_text (q : Query.item) : text := match q with inl s => s | inr _ => [] end.
Definition clause_text (cs : list clause) : text := concat (map (fun c => snd c (map item_text (fst c))) cs).
Fixpoint first_error (l : list Query.item) : option err :=
  match l with [] => None | inl _ :: r => first_error r | inr e :: _ => Some e end.
