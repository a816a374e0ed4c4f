(** How bytes become packets: the [select!] loop of klickhouse/src/client.rs 191-203 seen from
    the socket.  The future [self.input.receive_packet()] reads what has arrived and, if the
    packet is not complete, waits, keeping what it has read in itself.  When the other branch
    of [select!] wins, that future is dropped, and with it the bytes it had already read.
    A future that is waiting has read everything that had arrived ([read_exact] and [BufReader]
    only wait on an empty buffer), and going on with more bytes is the same as decoding the
    concatenation ([packet_incremental]). *)
From Verif Require Import Base Types Block Progress Protocol.

Record reader := {
  r_partial : list N;     (* read by the waiting future *)
  r_avail : list N;       (* arrived and not read *)
  r_packets : list packet;(* history: the packets handed to the connection *)
  r_failed : bool }.

Definition reader_init : reader := {| r_partial := []; r_avail := []; r_packets := []; r_failed := false |}.

Inductive revent :=
| Arrive (bs : list N)  (* the socket has more bytes *)
| Poll                  (* the packet branch is polled: client.rs 199 *)
| Request.              (* the request branch wins: client.rs 193 *)

Definition rstep (C : conn) (r : reader) (e : revent) : reader :=
  if r_failed r then r else
  match e with
  | Arrive bs => {| r_partial := r_partial r; r_avail := r_avail r ++ bs; r_packets := r_packets r; r_failed := false |}
  | Poll =>
    match read_packet C (r_partial r ++ r_avail r) with
    | Ok (p, rest) => {| r_partial := []; r_avail := rest; r_packets := r_packets r ++ [p]; r_failed := false |}
    | Err EIo => {| r_partial := r_partial r ++ r_avail r; r_avail := []; r_packets := r_packets r; r_failed := false |}
    | _ => {| r_partial := []; r_avail := []; r_packets := r_packets r; r_failed := true |}
    end
  | Request => {| r_partial := []; r_avail := r_avail r; r_packets := r_packets r; r_failed := false |}
  end.
Definition rrun (C : conn) (r : reader) (es : list revent) : reader := fold_left (rstep C) es r.

(* ---------------- specification ---------------- *)
(** All the bytes the server sent. *)
Fixpoint arrived (es : list revent) : list N :=
  match es with [] => [] | Arrive bs :: es => bs ++ arrived es | _ :: es => arrived es end.
(** Decoding a byte stream packet by packet. *)
Inductive decodes (C : conn) : list N -> list packet -> list N -> Prop :=
| dec_nil bs : decodes C bs [] bs
| dec_cons bs p rest ps left : read_packet C bs = Ok (p, rest) -> decodes C rest ps left -> decodes C bs (p :: ps) left.
(** No request is taken while a packet is half read. *)
Fixpoint undisturbed (C : conn) (r : reader) (es : list revent) : Prop :=
  match es with
  | [] => True
  | e :: es => match e with Request => r_partial r = [] | _ => True end /\ undisturbed C (rstep C r e) es
  end.
