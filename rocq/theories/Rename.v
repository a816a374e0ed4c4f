(** Model of klickhouse_derive/src/case.rs: the [rename_all] rules. *)
From Coq Require Import String.
From Verif Require Import Base Types Text.
Local Open Scope list_scope.
Local Open Scope N_scope.

(** case.rs 13-36 [enum RenameRule] *)
Inductive rule := RNone | RLower | RUpper | RPascal | RCamel | RSnake | RScreamingSnake | RKebab | RScreamingKebab.

(** case.rs 38-60 [RENAME_RULES], [from_str] *)
Definition rename_rules : list (text * rule) :=
  [(txt "lowercase", RLower); (txt "UPPERCASE", RUpper); (txt "PascalCase", RPascal); (txt "camelCase", RCamel);
   (txt "snake_case", RSnake); (txt "SCREAMING_SNAKE_CASE", RScreamingSnake); (txt "kebab-case", RKebab);
   (txt "SCREAMING-KEBAB-CASE", RScreamingKebab)].
Fixpoint lookup_rule (s : text) (l : list (text * rule)) : option rule :=
  match l with [] => None | (n, r) :: l' => if text_eqb s n then Some r else lookup_rule s l' end.
Definition rule_from_str (s : text) : option rule := lookup_rule s rename_rules.

(** [char::to_ascii_uppercase] / [to_ascii_lowercase] *)
Definition upper (c : N) : N := if (97 <=? c) && (c <=? 122) then c - 32 else c.
Definition lower (c : N) : N := if (65 <=? c) && (c <=? 90) then c + 32 else c.

(** case.rs 67-81: the loop with its flag [capitalize]. *)
Fixpoint pascal_loop (capitalize : bool) (s : text) : text :=
  match s with
  | [] => []
  | c :: r => if c =? 95 then pascal_loop true r
              else if capitalize then upper c :: pascal_loop false r
              else c :: pascal_loop false r
  end.
(** [str::replace('_', "-")] *)
Definition dashes (s : text) : text := map (fun c => if c =? 95 then 45 else c) s.

(** case.rs 63-91 [apply_to_field].  [pascal[..1]] is a byte range: it panics if the text is empty or
    starts with a character of more than one byte. *)
Definition apply_to_field (r : rule) (s : text) : res text :=
  match r with
  | RNone | RLower | RSnake => Ok s
  | RUpper | RScreamingSnake => Ok (map upper s)
  | RPascal => Ok (pascal_loop true s)
  | RCamel => match pascal_loop true s with
              | [] => Panic
              | c :: r => if c <? 128 then Ok (lower c :: r) else Panic
              end
  | RKebab => Ok (dashes s)
  | RScreamingKebab => Ok (dashes (map upper s))
  end.
