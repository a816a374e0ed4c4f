(** Model of [Display for Type] and [FromStr for Type], types/mod.rs 199-595. *)
From Coq Require Import String Ascii.
From Verif Require Import Base Types Text.
Local Open Scope list_scope.

(** chrono-tz: printing and parsing of time-zone names (external). *)
Record tzdb := { tz_name : tz -> text; tz_parse : text -> option tz }.
(** What is assumed of it: a printed name parses back, and a name has no parenthesis and no comma. *)
Definition tzdb_ok (Z : tzdb) : Prop :=
  (forall z, tz_parse Z (tz_name Z z) = Some z) /\
  (forall z c, In c (tz_name Z z) -> c <> 40 /\ c <> 41 /\ c <> 44).

(* ---------------- printing ---------------- *)

Definition paren (name : string) (body : text) : text := txt name ++ 40 :: body ++ [41].
Definition quoted (s : text) : text := 39 :: s ++ [39].

(** mod.rs 564-570: [format!("'{name}' = {value}")] *)
Definition show_variant (e : text * Z) : text := quoted (fst e) ++ txt " = " ++ show_Z (snd e).

(** mod.rs 527-594 [Display for Type] *)
Fixpoint show_ty (D : tzdb) (t : ty) : text :=
  match t with
  | TInt I8 => txt "Int8" | TInt I16 => txt "Int16" | TInt I32 => txt "Int32"
  | TInt I64 => txt "Int64" | TInt I128 => txt "Int128" | TInt256 => txt "Int256"
  | TUInt I8 => txt "UInt8" | TUInt I16 => txt "UInt16" | TUInt I32 => txt "UInt32"
  | TUInt I64 => txt "UInt64" | TUInt I128 => txt "UInt128" | TUInt256 => txt "UInt256"
  | TFloat32 => txt "Float32" | TFloat64 => txt "Float64" | TBFloat16 => txt "BFloat16"
  | TDecimal32 s => paren "Decimal32" (show_N s)
  | TDecimal64 s => paren "Decimal64" (show_N s)
  | TDecimal128 s => paren "Decimal128" (show_N s)
  | TDecimal256 s => paren "Decimal256" (show_N s)
  | TString => txt "String"
  | TFixedString s => paren "FixedString" (show_N s)
  | TUuid => txt "UUID" | TDate => txt "Date"
  | TDateTime z => paren "DateTime" (quoted (tz_name D z))
  | TDateTime64 p z => paren "DateTime64" (show_N p ++ 44 :: quoted (tz_name D z))
  | TIpv4 => txt "IPv4" | TIpv6 => txt "IPv6"
  | TPoint => txt "Point" | TRing => txt "Ring" | TPolygon => txt "Polygon" | TMultiPolygon => txt "MultiPolygon"
  | TEnum8 items => paren "Enum8" (join [44] (map show_variant items))
  | TEnum16 items => paren "Enum16" (join [44] (map show_variant items))
  | TLowCard x => paren "LowCardinality" (show_ty D x)
  | TArray x => paren "Array" (show_ty D x)
  | TTuple ts => paren "Tuple" (join [44] (map (show_ty D) ts))
  | TNullable x => paren "Nullable" (show_ty D x)
  | TMap k v => paren "Map" (show_ty D k ++ 44 :: show_ty D v)
  end.

(* ---------------- parsing ---------------- *)

(** mod.rs 199-208 [eat_identifier]; [first] is [i == 0]. *)
Fixpoint eat_identifier (U : unicode) (first : bool) (s : text) : text * text :=
  match s with
  | [] => ([], [])
  | c :: r =>
      if is_alpha U c || (c =? 95) || (c =? 36) || (negb first && is_num U c)
      then let '(a, b) := eat_identifier U false r in (c :: a, b)
      else ([], s)
  end.

(** mod.rs 217-238: the loop over the characters of [input]; [seg] is the current
    argument reversed ([input[last_start..i]]).  [in_parens -= 1] at 0 panics. *)
Fixpoint scan_args (U : unicode) (depth : nat) (seg : text) (s : text) : res (list text) :=
  match s with
  | [] => match depth with
          | O => Ok (match seg with [] => [] | _ => [trim U (rev seg)] end)
          | S _ => Err ETypeParse
          end
  | c :: r =>
      if c =? 44 then
        match depth with
        | O => rest <- scan_args U O [] r ;; Ok (trim U (rev seg) :: rest)
        | S _ => scan_args U depth (c :: seg) r
        end
      else if c =? 40 then scan_args U (S depth) (c :: seg) r
      else if c =? 41 then match depth with O => Panic | S d => scan_args U d (c :: seg) r end
      else scan_args U depth (c :: seg) r
  end.

(** mod.rs 210-248 [parse_args] *)
Definition parse_args (U : unicode) (s : text) : res (list text) :=
  if negb (starts_with 40 s) || negb (ends_with 41 s) then Err ETypeParse
  else body <- strip_ends s ;; scan_args U O [] (trim U body).

Definition or_err {A} (o : option A) : res A := match o with Some a => Ok a | None => Err ETypeParse end.

(** mod.rs 260-284 [parse_enum_variant]; [b] is the width of the value type. *)
Definition parse_enum_variant (U : unicode) (b : Z) (from : text) : res (text * Z) :=
  '(v, x) <- or_err (split_once 61 from) ;;
  let variant := trim U v in let value := trim U x in
  if negb (starts_with 39 variant) || negb (ends_with 39 variant) then Err ETypeParse
  else n <- strip_ends variant ;;
       z <- or_err (parse_int b value) ;;
       Ok (trim U n, z).

(** mod.rs 357-371, 375-387: a quoted time-zone name. *)
Definition parse_tz (D : tzdb) (s : text) : res tz :=
  if negb (starts_with 39 s) || negb (ends_with 39 s) then Err ETypeParse
  else n <- strip_ends s ;; or_err (tz_parse D n).

Inductive head :=
| HDecimal | HDecimal32 | HDecimal64 | HDecimal128 | HDecimal256 | HFixedString | HDateTime | HDateTime64
| HEnum8 | HEnum16 | HLowCard | HArray | HTuple | HNullable | HMap.

(** The string patterns of mod.rs 298-478 (["Nested"] and every other name are an error). *)
Definition head_table : list (text * head) :=
  [(txt "Decimal", HDecimal); (txt "Decimal32", HDecimal32); (txt "Decimal64", HDecimal64);
   (txt "Decimal128", HDecimal128); (txt "Decimal256", HDecimal256); (txt "FixedString", HFixedString);
   (txt "DateTime", HDateTime); (txt "DateTime64", HDateTime64); (txt "Enum8", HEnum8); (txt "Enum16", HEnum16);
   (txt "LowCardinality", HLowCard); (txt "Array", HArray); (txt "Tuple", HTuple);
   (txt "Nullable", HNullable); (txt "Map", HMap)].
(** The string patterns of mod.rs 480-523, feature [bfloat16] enabled (the default). *)
Definition plain_table : list (text * ty) :=
  [(txt "Int8", TInt I8); (txt "Int16", TInt I16); (txt "Int32", TInt I32); (txt "Int64", TInt I64);
   (txt "Int128", TInt I128); (txt "Int256", TInt256);
   (txt "Bool", TUInt I8); (txt "UInt8", TUInt I8); (txt "UInt16", TUInt I16); (txt "UInt32", TUInt I32);
   (txt "UInt64", TUInt I64); (txt "UInt128", TUInt I128); (txt "UInt256", TUInt256);
   (txt "Float32", TFloat32); (txt "Float64", TFloat64); (txt "BFloat16", TBFloat16);
   (txt "String", TString); (txt "UUID", TUuid); (txt "Date", TDate); (txt "DateTime", TDateTime UTC);
   (txt "IPv4", TIpv4); (txt "IPv6", TIpv6); (txt "Point", TPoint); (txt "Ring", TRing);
   (txt "Polygon", TPolygon); (txt "MultiPolygon", TMultiPolygon)].

(** A Rust [match] on a string: the first arm whose pattern is equal. *)
Fixpoint lookup {A} (k : text) (l : list (text * A)) : option A :=
  match l with [] => None | (k', a) :: r => if text_eqb k k' then Some a else lookup k r end.

(** One argument exactly, else the "bad arg count" error. *)
Definition one_arg (args : list text) : res text := match args with [a] => Ok a | _ => Err ETypeParse end.
Definition scale (args : list text) : res N := a <- one_arg args ;; or_err (parse_usize a).

(** mod.rs 297-479: the arms of the match, given the arguments; [rec] is [Type::from_str]
    on an argument. *)
Definition apply_head (U : unicode) (D : tzdb) (rec : text -> res ty) (h : head) (args : list text) : res ty :=
  match h with
  | HDecimal =>
      match args with
      | [a; b] => p <- or_err (parse_usize a) ;; sc <- or_err (parse_usize b) ;;
          if p <=? 9 then Ok (TDecimal32 sc) else if p <=? 18 then Ok (TDecimal64 sc)
          else if p <=? 38 then Ok (TDecimal128 sc) else if p <=? 76 then Ok (TDecimal256 sc)
          else Err ETypeParse
      | _ => Err ETypeParse
      end
  | HDecimal32 => rmap TDecimal32 (scale args)
  | HDecimal64 => rmap TDecimal64 (scale args)
  | HDecimal128 => rmap TDecimal128 (scale args)
  | HDecimal256 => rmap TDecimal256 (scale args)
  | HFixedString => rmap TFixedString (scale args)
  | HDateTime => a <- one_arg args ;; rmap TDateTime (parse_tz D a)
  | HDateTime64 =>
      match args with
      | [a; b] =>
          if negb (starts_with 39 b) || negb (ends_with 39 b) then Err ETypeParse
          else p <- or_err (parse_usize a) ;; z <- parse_tz D b ;; Ok (TDateTime64 p z)
      | [a] => p <- or_err (parse_usize a) ;; Ok (TDateTime64 p UTC)
      | _ => Err ETypeParse
      end
  | HEnum8 => rmap TEnum8 (mapM (fun a => parse_enum_variant U 8 (trim U a)) args)
  | HEnum16 => rmap TEnum16 (mapM (fun a => parse_enum_variant U 16 (trim U a)) args)
  | HLowCard => a <- one_arg args ;; rmap TLowCard (rec a)
  | HArray => a <- one_arg args ;; rmap TArray (rec a)
  | HTuple => rmap TTuple (mapM (fun a => rec (trim U a)) args)
  | HNullable => a <- one_arg args ;; rmap TNullable (rec a)
  | HMap =>
      match args with
      | [a; b] => k <- rec a ;; v <- rec b ;; Ok (TMap k v)
      | _ => Err ETypeParse
      end
  end.

(** mod.rs 286-525 [Type::from_str].  The recursive calls are on strictly shorter texts;
    [fuel] bounds their nesting and is never exhausted ([parse_terminates]). *)
Fixpoint parse_go (U : unicode) (D : tzdb) (fuel : nat) (s : text) {struct fuel} : res ty :=
  match fuel with
  | O => Err EFuel
  | S f =>
      let '(ident, following) := eat_identifier U true s in
      match ident with
      | [] => Err ETypeParse
      | _ =>
        match trim U following with
        | [] => or_err (lookup ident plain_table)
        | fol =>
          args <- parse_args U fol ;;
          match lookup ident head_table with
          | None => Err ETypeParse
          | Some h => apply_head U D (parse_go U D f) h args
          end
        end
      end
  end.
Definition parse_ty (U : unicode) (D : tzdb) (s : text) : res ty := parse_go U D (S (List.length s)) s.
