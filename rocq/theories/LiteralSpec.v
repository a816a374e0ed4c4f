(** How a ClickHouse server reads literals, written without reference to the renderer. *)
From Coq Require Import String.
From Verif Require Import Base Types Text.
Local Open Scope list_scope.
Local Open Scope N_scope.

(* ---------------- string literals ---------------- *)

Definition hex_val (c : N) : option N :=
  if is_digit c then Some (c - 48)
  else if (65 <=? c) && (c <=? 70) then Some (c - 55)
  else if (97 <=? c) && (c <=? 102) then Some (c - 87)
  else None.

(** What a backslash followed by [c] stands for ("parseEscapeSequence" of the server):
    the C escapes, [\0] and [\e]; the escaped punctuation; before any other character the
    backslash is kept. *)
Definition unescape (c : N) : list N :=
  if c =? 97 then [7] else if c =? 98 then [8] else if c =? 101 then [27] else if c =? 102 then [12]
  else if c =? 110 then [10] else if c =? 114 then [13] else if c =? 116 then [9] else if c =? 118 then [11]
  else if c =? 48 then [0]
  else if existsb (N.eqb c) [92; 34; 96; 47; 39] || (c <? 32) || (c =? 127) then [c]
  else [92; c].

(** Reads the inside of a single-quoted literal: the bytes it stands for and the text after
    the closing quote.  A doubled quote stands for one quote; [\xHH] is one byte; [\N] is
    nothing. *)
Fixpoint string_body (s : text) : option (list N * text) :=
  match s with
  | [] => None
  | c :: r =>
    if c =? 39 then
      match r with
      | d :: r' => if d =? 39 then option_map (fun p => (39 :: fst p, snd p)) (string_body r') else Some ([], r)
      | [] => Some ([], [])
      end
    else if c =? 92 then
      match r with
      | [] => None
      | d :: r' =>
        if d =? 120 then
          match r' with
          | h :: l :: r'' =>
            match hex_val h, hex_val l with
            | Some a, Some b => option_map (fun p => (a * 16 + b :: fst p, snd p)) (string_body r'')
            | _, _ => None
            end
          | _ => None
          end
        else if d =? 78 then string_body r'
        else option_map (fun p => (unescape d ++ fst p, snd p)) (string_body r')
      end
    else option_map (fun p => (c :: fst p, snd p)) (string_body r)
  end.
Definition read_string (s : text) : option (list N * text) :=
  match s with c :: r => if c =? 39 then string_body r else None | [] => None end.

(* ---------------- numbers ---------------- *)

(** The value of a decimal literal [-ddd.ddd] as a pair (n, k) for n / 10^k.  Either group
    of digits may be empty, not both. *)
Definition dec_unsigned (s : text) : option (N * N) :=
  match split_once 46 s with
  | None => match parse_digits s with Some n => Some (n, 0) | None => None end
  | Some (a, b) => match parse_digits (a ++ b) with Some n => Some (n, lenN b) | None => None end
  end.
Definition dec_value (s : text) : option (Z * N) :=
  if starts_with 45 s then match dec_unsigned (tl s) with Some (n, k) => Some (- Z.of_N n, k)%Z | None => None end
  else match dec_unsigned s with Some (n, k) => Some (Z.of_N n, k) | None => None end.
(** The text denotes the number x / 10^p. *)
Definition denotes_decimal (s : text) (x : Z) (p : N) : Prop :=
  exists n k, dec_value s = Some (n, k) /\ (n * 10 ^ Z.of_N p = x * 10 ^ Z.of_N k)%Z.

(* ---------------- literals ---------------- *)

Inductive lit : Type :=
| LNum (z : Z)
| LStr (bs : list N)
| LNull
| LCast (l : lit) (ty : text)
| LArr (l : list lit)
| LTup (l : list lit)
| LMap (l : list (lit * lit)).

(** Longest prefix of characters satisfying [f]. *)
Fixpoint span (f : N -> bool) (s : text) : text * text :=
  match s with
  | c :: r => if f c then let p := span f r in (c :: fst p, snd p) else ([], s)
  | [] => ([], [])
  end.
Definition is_word (c : N) : bool :=
  is_digit c || ((65 <=? c) && (c <=? 90)) || ((97 <=? c) && (c <=? 122)) || (c =? 95).
Definition is_hex (c : N) : bool := match hex_val c with Some _ => true | None => false end.
Fixpoint hex_num (acc : N) (s : text) : N :=
  match s with c :: r => hex_num (acc * 16 + match hex_val c with Some d => d | None => 0 end) r | [] => acc end.

Fixpoint strip_prefix (p s : text) : option text :=
  match p, s with
  | [], _ => Some s
  | a :: p', b :: s' => if a =? b then strip_prefix p' s' else None
  | _, [] => None
  end.

(** A whole number: decimal, or hexadecimal after [0x]. *)
Definition read_nat (s : text) : option (N * text) :=
  match strip_prefix (txt "0x") s with
  | Some r => let (ds, rest) := span is_hex r in match ds with [] => None | _ => Some (hex_num 0 ds, rest) end
  | None => let (ds, rest) := span is_digit s in
            match parse_digits ds with Some n => Some (n, rest) | None => None end
  end.
(** [literal::Type] *)
Definition read_cast (l : lit) (s : text) : lit * text :=
  match strip_prefix (txt "::") s with
  | Some r => let (w, rest) := span is_word r in (LCast l w, rest)
  | None => (l, s)
  end.

(** A literal and the rest of the text.  Parentheses around one literal are only grouping; a
    tuple has a comma.  White space between tokens is not handled (the renderer writes none). *)
Fixpoint read_lit (fuel : nat) (s : text) : option (lit * text) :=
  match fuel with O => None | S f =>
  match s with
  | [] => None
  | c :: r =>
    if c =? 39 then match string_body r with Some (bs, rest) => Some (LStr bs, rest) | None => None end
    else if c =? 91 then
      match strip_prefix [93] r with
      | Some rest => Some (LArr [], rest)
      | None => match read_items f 93 r with Some (l, rest) => Some (LArr l, rest) | None => None end
      end
    else if c =? 40 then
      match strip_prefix [41] r with
      | Some rest => Some (LTup [], rest)
      | None => match read_items f 41 r with
             | Some ([x], rest) => Some (x, rest)
             | Some (l, rest) => Some (LTup l, rest)
             | None => None
             end
      end
    else if c =? 123 then
      match strip_prefix [125] r with
      | Some rest => Some (LMap [], rest)
      | None => match read_pairs f r with Some (l, rest) => Some (LMap l, rest) | None => None end
      end
    else match strip_prefix (txt "NULL") s with
    | Some rest => Some (LNull, rest)
    | None =>
      if c =? 45 then match read_nat r with Some (n, rest) => Some (read_cast (LNum (- Z.of_N n)) rest) | None => None end
      else match read_nat s with Some (n, rest) => Some (read_cast (LNum (Z.of_N n)) rest) | None => None end
    end
  end end
(** literals separated by commas up to the closing character *)
with read_items (fuel : nat) (close : N) (s : text) : option (list lit * text) :=
  match fuel with O => None | S f =>
  match read_lit f s with
  | Some (x, c :: r) =>
      if c =? close then Some ([x], r)
      else if c =? 44 then match read_items f close r with Some (l, rest) => Some (x :: l, rest) | None => None end
      else None
  | _ => None
  end end
(** [key:value] pairs separated by commas up to [}] *)
with read_pairs (fuel : nat) (s : text) : option (list (lit * lit) * text) :=
  match fuel with O => None | S f =>
  match read_lit f s with
  | Some (k, s') =>
      match strip_prefix [58] s' with
      | Some r =>
        match read_lit f r with
        | Some (x, c :: r') =>
            if c =? 125 then Some ([(k, x)], r')
            else if c =? 44 then match read_pairs f r' with Some (l, rest) => Some ((k, x) :: l, rest) | None => None end
            else None
        | _ => None
        end
      | None => None
      end
  | None => None
  end end.
(** Every nested call consumes a character or is one level of these three functions deeper,
    so twice the length is more than enough. *)
Definition read_literal (s : text) : option (lit * text) := read_lit (2 + 2 * length s) s.

(* ---------------- what a value means ---------------- *)

Definition be_number (be : list N) : N := fold_left (fun a b => a * 256 + b) be 0.

Definition opt_list {A B} (f : A -> option B) : list A -> option (list B) :=
  fix go (l : list A) : option (list B) :=
  match l with
  | [] => Some []
  | a :: r => match f a, go r with Some b, Some t => Some (b :: t) | _, _ => None end
  end.

(** The literal that stands for a value: integers up to 128 bits (128-bit ones carry their
    type), 256-bit unsigned ones, strings, enums by number, NULL, and arrays, tuples and maps
    of these. *)
Fixpoint meaning (v : value) : option lit :=
  match v with
  | VInt I128 x => Some (LCast (LNum x) (txt "Int128"))
  | VInt _ x | VEnum8 x | VEnum16 x => Some (LNum x)
  | VUInt I128 x => Some (LCast (LNum (Z.of_N x)) (txt "UInt128"))
  | VUInt _ x => Some (LNum (Z.of_N x))
  | VUInt256 be => if (lenN be =? 32) && forallb (fun b => b <? 256) be
                   then Some (LCast (LNum (Z.of_N (be_number be))) (txt "UInt256")) else None
  | VString bs => if forallb (fun b => b <? 256) bs then Some (LStr bs) else None
  | VNull => Some LNull
  | VArray l => option_map LArr (opt_list meaning l)
  | VTuple l => option_map LTup (opt_list meaning l)
  | VMap ks vs =>
      if lenN ks =? lenN vs then
        match opt_list meaning ks, opt_list meaning vs with
        | Some a, Some b => Some (LMap (combine a b))
        | _, _ => None
        end
      else None
  | _ => None
  end.

(** A tuple of one element loses its parentheses. *)
Fixpoint ungroup (l : lit) : lit :=
  match l with
  | LCast x t => LCast (ungroup x) t
  | LArr l => LArr (map ungroup l)
  | LTup [x] => ungroup x
  | LTup l => LTup (map ungroup l)
  | LMap l => LMap (map (fun kv => (ungroup (fst kv), ungroup (snd kv))) l)
  | _ => l
  end.
(** No tuple of one element anywhere inside. *)
Fixpoint no_single (v : value) : bool :=
  match v with
  | VArray l => forallb no_single l
  | VTuple l => negb (lenN l =? 1) && forallb no_single l
  | VMap ks vs => forallb no_single ks && forallb no_single vs
  | _ => true
  end.

(** Text that may follow a literal: nothing, or a separator. *)
Definition follows (rest : text) : Prop :=
  match rest with
  | [] => True
  | c :: r => In c [32; 41; 44; 59; 93; 125] \/ (c = 58 /\ starts_with 58 r = false)
  end.
