(** Model of klickhouse/src/io.rs: varints and length-prefixed strings. *)
From Verif Require Import Base.

(** protocol.rs 29: [pub const MAX_STRING_SIZE: usize = 1 << 30] *)
Definition MAX_STRING_SIZE : N := 2 ^ 30.

(** io.rs 67-78 [write_var_uint]: the loop [for _ in 0..9]. *)
Fixpoint write_var_uint_go (k : nat) (value : N) : list N :=
  match k with
  | O => []
  | S k' =>
      let byte := N.land value 127 in
      let byte := if 127 <? value then N.lor byte 128 else byte in
      let value' := N.shiftr value 7 in
      byte :: (if value' =? 0 then [] else write_var_uint_go k' value')
  end.
Definition write_var_uint (value : N) : list N := write_var_uint_go 9 value.

(** io.rs 20-31 [read_var_uint]: the loop [for i in 0..9u64].  The [u64] shift
    cannot overflow (at most 7 bits shifted by 56), so no wrap is modelled. *)
Fixpoint read_var_uint_go (k : nat) (i : N) (out : N) (inp : list N) {struct k} : res (N * list N) :=
  match k with
  | O => Ok (out, inp)
  | S k' =>
      match inp with
      | [] => Err EIo
      | octet :: t =>
          let out := N.lor out (N.shiftl (N.land octet 127) (7 * i)) in
          if N.land octet 128 =? 0 then Ok (out, t)
          else read_var_uint_go k' (i + 1) out t
      end
  end.
Definition read_var_uint : rd N := read_var_uint_go 9 0 0.

(** io.rs 33-50 [read_string].  The [unsafe] buffer is modelled as [read_exact]. *)
Definition read_string : rd (list N) :=
  len <~ read_var_uint ;;;
  if MAX_STRING_SIZE <? len then rerr EProtocol
  else if len =? 0 then rret []
  else read_exact len.

(** io.rs 80-84 [write_string]. *)
Definition write_string (value : list N) : list N := write_var_uint (lenN value) ++ value.
