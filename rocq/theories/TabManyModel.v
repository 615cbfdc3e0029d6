(** Many calls of Table.Compute (/repo/precompute/precompute.go:37-77,85-101) at the same time, by different goroutines, in
    one memory. Each call is that of TabRaceModel.v; the numbers of one are the rest of the program for the others.
    A call begins at any moment; what it does before its first send (making res and the opts) is one step. *)
From Coq Require Import ZArith Bool String List.
From Verif Require Import GoBig ListUpd TableModel TabRaceModel.
Import ListNotations.
Local Open Scope nat_scope.

(** the arguments: the addresses of the table's rows and of n, the table, x, numRoutine *)
Record targs := TArgs { b_rows : list addr; b_np : addr; b_t : Table; b_x : Z; b_R : nat }.
(** a running call with the memory it began in *)
Inductive tcall := TWaiting | TRunning (h : memory) (s : astate).
Record tmany := TMany { tm_mem : memory; tm_calls : list tcall }.
Inductive tchoice := TBegin (i : nat) | TDo (i : nat) (c : achoice).

Definition within (s : astate) (h : memory) (o : list addr) : astate :=
  ASt h (a_main s) (a_in s) (a_workers s) (a_out s) (a_coll s) o.
(** a step of the rest of the program *)
Definition outer (c : achoice) : bool := match c with AOther _ | AOtherSet _ _ => true | _ => false end.
Definition call_step (j : targs) (h1 : memory) :=
  a_step (b_rows j) (b_np j) (t_chunk (b_t j)) (list_ascii_of_string (big_bytes (b_x j))) (b_R j) (res_at h1) (opt_at h1) [].

Section Many.
Variable jobs : list targs.
Definition tm_step (st : tmany) (c : tchoice) : option (outcome tmany) :=
  match c with
  | TBegin i =>
      match nth_error jobs i, nth_error (tm_calls st) i with
      | Some j, Some TWaiting =>
          let s := a_start (tm_mem st) (t_chunk (b_t j)) (list_ascii_of_string (big_bytes (b_x j))) (b_R j) in
          Some (Ret (TMany (a_mem s) (upd (tm_calls st) i (TRunning (tm_mem st) s))))
      | _, _ => None
      end
  | TDo i c =>
      match nth_error jobs i, nth_error (tm_calls st) i with
      | Some j, Some (TRunning h1 s) =>
          if outer c then None
          else match call_step j h1 (within s (tm_mem st) []) c with
               | Some o => Some (do s' <- o; Ret (TMany (a_mem s') (upd (tm_calls st) i (TRunning h1 s'))))
               | None => None
               end
      | _, _ => None
      end
  end.
Definition tm_start (h0 : memory) : tmany := TMany h0 (map (fun _ => TWaiting) jobs).
End Many.
Definition tm_idle (c : tchoice) : bool := match c with TBegin _ => false | TDo _ c => a_idle c end.

(** when all calls have returned: the number each returned, and what it holds now *)
Fixpoint tresults (h : memory) (l : list tcall) : option (list (addr * Z)) :=
  match l with
  | [] => Some []
  | TRunning _ s :: r =>
      match a_ret (within s h []), tresults h r with Some v, Some vs => Some (v :: vs) | _, _ => None end
  | TWaiting :: _ => None
  end.
Definition tm_ret (st : tmany) : option (list (addr * Z)) := tresults (tm_mem st) (tm_calls st).

(** the next access of goroutine k of call i *)
Definition tm_next (jobs : list targs) (st : tmany) (i k : nat) : option access :=
  match nth_error jobs i, nth_error (tm_calls st) i with
  | Some j, Some (TRunning h1 s) => next_of (b_rows j) (b_np j) (res_at h1) (opt_at h1) (within s (tm_mem st) []) k
  | _, _ => None
  end.
