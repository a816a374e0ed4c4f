(** The lexical structure of a query as the server sees it: quoted texts, comments, words and
    single characters (ClickHouse's SQL syntax).  A specification: nothing here is klickhouse. *)
From Coq Require Import String.
From Verif Require Import Base Types Text Literal QuerySpec.
Local Open Scope list_scope.
Local Open Scope N_scope.

Inductive sqltok :=
| TQuoted (q : N) (raw : text)      (* '...', "..." or `...`: the text between the quotes, as written *)
| TWord (s : text)                  (* letters, digits, underscores and dots: names, keywords, numbers *)
| TComment (s : text)
| TChar (c : N)                     (* white space, operators, brackets, ... *)
| TUnterminated                     (* a quote or comment that is never closed *)
| TDollar.                          (* a dollar sign outside quotes: what follows may be a here-document *)

Definition word_char (c : N) : bool :=
  ((48 <=? c) && (c <=? 57)) || ((65 <=? c) && (c <=? 90)) || ((97 <=? c) && (c <=? 122)) || (c =? 95) || (c =? 46).

(** Where the reader is. *)
Inductive mode :=
| Code | Word (w : text)
| Minus | Slash | Hash                                     (* after a - / # that may begin a comment *)
| Line (s : text) | Block (s : text) | BlockStar (s : text) (* in a comment *)
| Quoted (q : N) (raw : text) | Escaped (q : N) (raw : text) (* in quotes; after a backslash there *)
| Closed (q : N) (raw : text)                              (* after what may be the closing quote: a second one would double it *)
| Lost.

Definition code_step (c : N) : list sqltok * mode :=
  if (c =? 39) || (c =? 34) || (c =? 96) then ([], Quoted c [])
  else if c =? 45 then ([], Minus)
  else if c =? 47 then ([], Slash)
  else if c =? 35 then ([], Hash)
  else if c =? 36 then ([TDollar], Lost)
  else if word_char c then ([], Word [c])
  else ([TChar c], Code).
Definition after (ts : list sqltok) (r : list sqltok * mode) : list sqltok * mode := (ts ++ fst r, snd r).

Definition step (m : mode) (c : N) : list sqltok * mode :=
  match m with
  | Code => code_step c
  | Word w => if word_char c then ([], Word (w ++ [c])) else after [TWord w] (code_step c)
  | Minus => if c =? 45 then ([], Line []) else after [TChar 45] (code_step c)
  | Slash => if c =? 42 then ([], Block []) else after [TChar 47] (code_step c)
  | Hash => if (c =? 32) || (c =? 33) then ([], Line []) else after [TChar 35] (code_step c)
  | Line s => if c =? 10 then ([TComment s], Code) else ([], Line (s ++ [c]))
  | Block s => if c =? 42 then ([], BlockStar s) else ([], Block (s ++ [c]))
  | BlockStar s => if c =? 47 then ([TComment s], Code) else if c =? 42 then ([], BlockStar (s ++ [42])) else ([], Block (s ++ [42; c]))
  | Quoted q raw => if c =? 92 then ([], Escaped q raw) else if c =? q then ([], Closed q raw) else ([], Quoted q (raw ++ [c]))
  | Escaped q raw => ([], Quoted q (raw ++ [92; c]))
  | Closed q raw => if c =? q then ([], Quoted q (raw ++ [q; q])) else after [TQuoted q raw] (code_step c)
  | Lost => ([], Lost)
  end.

(** At the end of the text. *)
Definition flush (m : mode) : list sqltok :=
  match m with
  | Code | Lost => [] | Word w => [TWord w] | Minus => [TChar 45] | Slash => [TChar 47] | Hash => [TChar 35]
  | Line s => [TComment s] | Closed q raw => [TQuoted q raw]
  | Block _ | BlockStar _ | Quoted _ _ | Escaped _ _ => [TUnterminated]
  end.

Fixpoint run (m : mode) (t : text) : list sqltok * mode :=
  match t with [] => ([], m) | c :: r => let (a, m1) := step m c in let (b, m2) := run m1 r in (a ++ b, m2) end.
(** The tokens of a query. *)
Definition server_tokens (t : text) : list sqltok := let (a, m) := run Code t in a ++ flush m.

(* ---------------- queries with holes ---------------- *)

(** The tokens of a template: those of its text, with the holes in their places.  There is none
    if a hole stands inside quotes or a comment, after a word, a quoted text or a character that
    could begin a comment, or before a quote, a word or another hole. *)
Definition separates (c : N) : bool := negb (word_char c) && negb (c =? 39).
Fixpoint shape_from (m : mode) (after_hole : bool) (tpl : list piece) : option (list (sqltok + nat)) :=
  match tpl with
  | [] => Some (map inl (flush m))
  | Hole i :: r =>
      match m, after_hole with
      | Code, false => option_map (cons (inr i)) (shape_from Code true r)
      | _, _ => None
      end
  | Lit [] :: r => shape_from m after_hole r
  | Lit (c :: s) :: r =>
      if after_hole && negb (separates c) then None
      else let (a, m') := run m (c :: s) in option_map (app (map inl a)) (shape_from m' false r)
  end.
Definition shape (tpl : list piece) : option (list (sqltok + nat)) := shape_from Code false tpl.

(** The tokens of the query with the holes replaced by the tokens of the arguments' texts. *)
Definition with_arguments (rendered : list text) (sh : list (sqltok + nat)) : list sqltok :=
  flat_map (fun x => match x with inl t => [t] | inr i => server_tokens (nth i rendered []) end) sh.

(** A text that stays within its place: it is not empty, ends outside quotes and
    comments, consists of words, single-quoted texts and the characters of expressions - no
    comment, semicolon or other statement structure -, and closes all the brackets it opens and no
    others. *)
Definition expression_chars : text := txt "()[]{},:-+ ".
Definition harmless (t : sqltok) : bool :=
  match t with TQuoted q _ => q =? 39 | TWord _ => true | TChar c => existsb (N.eqb c) expression_chars | _ => false end.
Definition closing (c : N) : option N := if c =? 40 then Some 41 else if c =? 91 then Some 93 else if c =? 123 then Some 125 else None.
Fixpoint balanced (open : list N) (ts : list sqltok) : bool :=
  match ts with
  | [] => match open with [] => true | _ => false end
  | TChar c :: r =>
      match closing c with
      | Some d => balanced (d :: open) r
      | None =>
          if (c =? 41) || (c =? 93) || (c =? 125)
          then match open with d :: o => (d =? c) && balanced o r | [] => false end
          else balanced open r
      end
  | _ :: r => balanced open r
  end.
Definition ended (m : mode) : bool := match m with Code | Word _ => true | Closed q _ => q =? 39 | _ => false end.
Definition contained (t : text) : Prop :=
  t <> [] /\ ended (snd (run Code t)) = true /\ forallb harmless (server_tokens t) = true /\ balanced [] (server_tokens t) = true.

(** What is asked of the texts made by std: floats stay within their place. *)
Definition fmt_ok (E : ext_fmt) : Prop :=
  (forall b, contained (x_f32 E b)) /\ (forall b, contained (x_f64 E b)) /\ (forall b, contained (x_bf16 E b)) /\
  (forall b, contained (x_debug E b)).
