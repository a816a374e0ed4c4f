(** Model of klickhouse/src/progress.rs. *)
From Coq Require Import Permutation.
From Verif Require Import Base.

(** progress.rs 6-12 *)
Record progress := {
  read_rows : N; read_bytes : N; new_total_rows_to_read : N;
  new_written_rows : option N; new_written_bytes : option N }.

(** progress.rs 5: derived Default *)
Definition progress_default : progress :=
  {| read_rows := 0; read_bytes := 0; new_total_rows_to_read := 0; new_written_rows := None; new_written_bytes := None |}.

(** [u64 + u64] with overflow checks *)
Definition add64 (a b : N) : res N := if a + b <? 2 ^ 64 then Ok (a + b) else Panic.

(** progress.rs 17-22 [sum_opt] *)
Definition sum_opt (a b : option N) : res (option N) :=
  match a, b with
  | Some a, Some b => rmap Some (add64 a b)
  | Some a, None => Ok (Some a)
  | None, Some b => Ok (Some b)
  | None, None => Ok None
  end.

(** progress.rs 13-32 [Add for Progress] *)
Definition progress_add (a b : progress) : res progress :=
  rr <- add64 (read_rows a) (read_rows b) ;;
  rb <- add64 (read_bytes a) (read_bytes b) ;;
  nt <- add64 (new_total_rows_to_read a) (new_total_rows_to_read b) ;;
  wr <- sum_opt (new_written_rows a) (new_written_rows b) ;;
  wb <- sum_opt (new_written_bytes a) (new_written_bytes b) ;;
  Ok {| read_rows := rr; read_bytes := rb; new_total_rows_to_read := nt; new_written_rows := wr; new_written_bytes := wb |}.

(** progress.rs 34-38 [AddAssign], over a sequence of reports *)
Fixpoint progress_sum (acc : progress) (l : list progress) : res progress :=
  match l with [] => Ok acc | p :: r => acc' <- progress_add acc p ;; progress_sum acc' r end.
