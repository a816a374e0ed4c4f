(** Model of query text: query_parser.rs, query/mod.rs and query/select.rs. *)
From Coq Require Import String.
From Verif Require Import Base Types Text Literal.
Local Open Scope list_scope.
Local Open Scope N_scope.

(* ---------------- tokens ---------------- *)

(** query_parser.rs 18-83 [enum Token].  The tokenizer itself is generated by the external
    crate compiler_tools; functions below take its output, the list of tokens of the query.
    Tokens that are treated alike are one constructor, carrying the text they were read from. *)
Inductive token : Type :=
| TkArgument (digits : text)     (* regex $[0-9]+ *)
| TkEscapedDollar                (* $$ *)
| TkSemicolon
| TkOther (s : text).
(** Display of a token: the text it was read from. *)
Definition token_text (t : token) : text :=
  match t with
  | TkArgument ds => 36 :: ds
  | TkEscapedDollar => [36; 36]
  | TkSemicolon => [59]
  | TkOther s => s
  end.

(** query_parser.rs 86-103 [parse_query_arguments]. *)
Fixpoint parse_query_arguments (E : ext_fmt) (args : list value) (toks : list token) (out : text) : res text :=
  match toks with
  | [] => Ok out
  | tok :: rest =>
    match tok with
    | TkEscapedDollar => parse_query_arguments E args rest (out ++ [36])
    | TkArgument ds =>
      match parse_usize ds with
      | Some index =>
        if (index <=? lenN args) && (0 <? index) then
          match nth_error args (N.to_nat (index - 1)) with
          | Some v => s <- display E v ;; parse_query_arguments E args rest (out ++ s)
          | None => Panic
          end
        else parse_query_arguments E args rest (out ++ token_text tok)
      | None => parse_query_arguments E args rest (out ++ token_text tok)
      end
    | _ => parse_query_arguments E args rest (out ++ token_text tok)
    end
  end.

(** query/mod.rs 70-80: [QueryBuilder] to [ParsedQuery]: the first failed argument is returned. *)
Fixpoint collect_args (l : list (res value)) : res (list value) :=
  match l with [] => Ok [] | r :: t => v <- r ;; vs <- collect_args t ;; Ok (v :: vs) end.
Definition finalize (E : ext_fmt) (base : list token) (args : list (res value)) : res text :=
  vs <- collect_args args ;; parse_query_arguments E vs base [].

(** query_parser.rs 106-126 [split_query_statements]: [out] is the vector of statements,
    [cur] its last element. *)
Fixpoint split_loop (toks : list token) (out : list text) (cur : text) : list text :=
  match toks with
  | [] => out ++ [cur]
  | TkSemicolon :: rest => split_loop rest (out ++ [cur ++ token_text TkSemicolon]) []
  | tok :: rest => split_loop rest out (cur ++ token_text tok)
  end.
Definition split_query_statements (U : unicode) (toks : list token) : list text :=
  filter (fun s => match s with [] => false | _ => true end) (map (trim U) (split_loop toks [] [])).

(* ---------------- SelectBuilder ---------------- *)

(** A sub-expression converted to [Result<ParsedQuery>]. *)
Definition item := (text + err)%type.

(** query/select.rs 4-23 [struct SelectBuilder] *)
Record builder := {
  sb_withs : list item; sb_distinct : bool; sb_distinct_on : list item; sb_exprs : list item; sb_from : item;
  sb_sample : option item; sb_array_joins : list item; sb_joins : list item; sb_prewhere : list item;
  sb_where : list item; sb_group_by : list item; sb_having : list item; sb_order_by : option item;
  sb_limit : option item; sb_offset : option item; sb_settings : option item; sb_union : option item
}.

(** query/select.rs 27-46 [new] *)
Definition sb_new (from : item) : builder :=
  {| sb_withs := []; sb_distinct := false; sb_distinct_on := []; sb_exprs := []; sb_from := from; sb_sample := None;
     sb_array_joins := []; sb_joins := []; sb_prewhere := []; sb_where := []; sb_group_by := []; sb_having := [];
     sb_order_by := None; sb_limit := None; sb_offset := None; sb_settings := None; sb_union := None |}.

(** The builder's methods. The [_all] variants (74-82, 114-122, 131-139, 148-156, 165-173) call
    the single one for every item. *)
Inductive call : Type :=
| CWith (q : item) | CDistinct (b : bool) | CDistinctOn (q : item) | CSelect (q : item) | CSelectAll (l : list item)
| CSample (q : item) | CArrayJoin (q : item) | CJoin (q : item)
| CPrewhere (q : item) | CPrewhereAll (l : list item) | CWhere (q : item) | CWhereAll (l : list item)
| CGroupBy (q : item) | CGroupByAll (l : list item) | CHaving (q : item) | CHavingAll (l : list item)
| COrderBy (q : item) | CLimit (q : item) | COffset (q : item) | CSettings (q : item) | CUnion (q : item).

(** query/select.rs 49-197 *)
Definition sb_call (b : builder) (c : call) : builder :=
  match b with Build_builder w d don ex fr sa aj jo pw wh gb ha ob li of se un =>
  match c with
  | CWith q => Build_builder (w ++ [q]) d don ex fr sa aj jo pw wh gb ha ob li of se un
  | CDistinct x => Build_builder w x [] ex fr sa aj jo pw wh gb ha ob li of se un
  | CDistinctOn q => Build_builder w false (don ++ [q]) ex fr sa aj jo pw wh gb ha ob li of se un
  | CSelect q => Build_builder w d don (ex ++ [q]) fr sa aj jo pw wh gb ha ob li of se un
  | CSelectAll l => Build_builder w d don (ex ++ l) fr sa aj jo pw wh gb ha ob li of se un
  | CSample q => Build_builder w d don ex fr (Some q) aj jo pw wh gb ha ob li of se un
  | CArrayJoin q => Build_builder w d don ex fr sa (aj ++ [q]) jo pw wh gb ha ob li of se un
  | CJoin q => Build_builder w d don ex fr sa aj (jo ++ [q]) pw wh gb ha ob li of se un
  | CPrewhere q => Build_builder w d don ex fr sa aj jo (pw ++ [q]) wh gb ha ob li of se un
  | CPrewhereAll l => Build_builder w d don ex fr sa aj jo (pw ++ l) wh gb ha ob li of se un
  | CWhere q => Build_builder w d don ex fr sa aj jo pw (wh ++ [q]) gb ha ob li of se un
  | CWhereAll l => Build_builder w d don ex fr sa aj jo pw (wh ++ l) gb ha ob li of se un
  | CGroupBy q => Build_builder w d don ex fr sa aj jo pw wh (gb ++ [q]) ha ob li of se un
  | CGroupByAll l => Build_builder w d don ex fr sa aj jo pw wh (gb ++ l) ha ob li of se un
  | CHaving q => Build_builder w d don ex fr sa aj jo pw wh gb (ha ++ [q]) ob li of se un
  | CHavingAll l => Build_builder w d don ex fr sa aj jo pw wh gb (ha ++ l) ob li of se un
  | COrderBy q => Build_builder w d don ex fr sa aj jo pw wh gb ha (Some q) li of se un
  | CLimit q => Build_builder w d don ex fr sa aj jo pw wh gb ha ob (Some q) of se un
  | COffset q => Build_builder w d don ex fr sa aj jo pw wh gb ha ob li (Some q) se un
  | CSettings q => Build_builder w d don ex fr sa aj jo pw wh gb ha ob li of (Some q) un
  | CUnion q => Build_builder w d don ex fr sa aj jo pw wh gb ha ob li of se (Some q)
  end end.

Definition NL : text := [10].
Definition get (q : item) : res text := match q with inl s => Ok s | inr e => Err e end.

(** The loop [v.reverse(); while let Some(last) = v.pop() { out.push_str(last?); if !v.is_empty()
    { out.push_str(between) } else { out.push_str(after) } }].  Popping the end of the reversed
    vector is taking the front of the original one. *)
Fixpoint drain (between after : text) (l : list item) (out : text) : res text :=
  match l with
  | [] => Ok out
  | q :: r =>
      s <- get q ;;
      drain between after r (out ++ s ++ match r with [] => after | _ => between end)
  end.
(** [if let Some(q) = self.x { out.push_str(keyword); out.push_str(&q?.0); out.push('\n') }] *)
Definition push_opt (keyword : text) (q : option item) (out : text) : res text :=
  match q with None => Ok out | Some q => s <- get q ;; Ok (out ++ keyword ++ s ++ NL) end.
Definition nonempty {A} (l : list A) : bool := match l with [] => false | _ => true end.

(** query/select.rs 205-366 [TryInto<ParsedQuery> for SelectBuilder]. *)
Definition sb_build (b : builder) : res text :=
  out <- (if nonempty (sb_withs b) then o <- drain [44] [] (sb_withs b) (txt "WITH ") ;; Ok (o ++ NL) else Ok []) ;;
  let out := out ++ txt "SELECT" ++ NL in
  out <- (if sb_distinct b then Ok (out ++ txt "DISTINCT" ++ NL)
          else if nonempty (sb_distinct_on b) then
            o <- drain [44] [] (sb_distinct_on b) (out ++ txt "DISTINCT ON (") ;; Ok (o ++ txt ")" ++ NL)
          else Ok out) ;;
  out <- drain ([44] ++ NL) NL (sb_exprs b) out ;;
  f <- get (sb_from b) ;;
  let out := out ++ txt "FROM " ++ f ++ NL in
  out <- push_opt (txt "SAMPLE ") (sb_sample b) out ;;
  out <- drain NL NL (sb_array_joins b) out ;;
  out <- drain NL NL (sb_joins b) out ;;
  out <- (if nonempty (sb_prewhere b) then drain (txt ") AND" ++ NL ++ txt "(") (txt ")" ++ NL) (sb_prewhere b) (out ++ txt "PREWHERE (") else Ok out) ;;
  out <- (if nonempty (sb_where b) then drain (txt ") AND" ++ NL ++ txt "(") (txt ")" ++ NL) (sb_where b) (out ++ txt "WHERE (") else Ok out) ;;
  out <- (if nonempty (sb_group_by b) then drain ([44] ++ NL) NL (sb_group_by b) (out ++ txt "GROUP BY ") else Ok out) ;;
  out <- (if nonempty (sb_having b) then drain (txt ") AND" ++ NL ++ txt "(") (txt ")" ++ NL) (sb_having b) (out ++ txt "HAVING (") else Ok out) ;;
  out <- push_opt (txt "ORDER BY ") (sb_order_by b) out ;;
  out <- push_opt (txt "LIMIT ") (sb_limit b) out ;;
  out <- push_opt (txt "OFFSET ") (sb_offset b) out ;;
  out <- push_opt (txt "SETTINGS ") (sb_settings b) out ;;
  push_opt (txt "UNION ") (sb_union b) out.

(** [SelectBuilder::new(from).a(..).b(..)...build()] *)
Definition select_query (from : item) (calls : list call) : res text := sb_build (fold_left sb_call calls (sb_new from)).
