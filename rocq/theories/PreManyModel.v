(** Many calls of ComputeFromTableParallel (/repo/precompute/comfromtable.go:135-207) at the same time, by different
    goroutines, in one memory. Each call is that of PreRaceModel.v; the numbers of one are the rest of the program
    for the others. A call begins at any moment; what it does before its go statements (136-174) is one step. *)
From Coq Require Import ZArith Bool List.
From Verif Require Import GoBig ListUpd TableModel TabRaceModel PreRaceModel.
Import ListNotations.
Local Open Scope nat_scope.

(** the arguments: table.base, N, table.n, x *)
Record args := Args { j_rows : list addr; j_np : addr; j_ns : list Z; j_x : Z }.
Inductive cstate := Waiting | Running (cap : nat) (prodp : addr) (s : pstate).
Record mstate := MSt { m_mem : memory; m_calls : list cstate }.
Inductive mchoice := Begin (i : nat) | Do (i : nat) (c : pchoice).

(** the call [s] in the memory [h]; the field for the rest of the program is not used *)
Definition inside (s : pstate) (h : memory) (o : list addr) : pstate :=
  PSt h (p_gor s) (p_chan s) (p_closed s) (p_pc s) (p_i s) o.

Section Many.
Variable jobs : list args.
Definition m_step (st : mstate) (c : mchoice) : option (outcome mstate) :=
  match c with
  | Begin i =>
      match nth_error jobs i, nth_error (m_calls st) i with
      | Some j, Some Waiting =>
          Some (do (w, s) <- p_start (m_mem st) [] (j_rows j) (j_ns j) (j_x j);
                let (cap, prodp) := w : nat * addr in
                Ret (MSt (p_mem s) (upd (m_calls st) i (Running cap prodp s))))
      | _, _ => None
      end
  | Do i c =>
      match nth_error jobs i, nth_error (m_calls st) i with
      | Some j, Some (Running cap prodp s) =>
          if p_idle c then None
          else match p_step (j_np j) prodp cap (inside s (m_mem st) []) c with
               | Some o => Some (do s' <- o; Ret (MSt (p_mem s') (upd (m_calls st) i (Running cap prodp s'))))
               | None => None
               end
      | _, _ => None
      end
  end.
Definition m_start (h0 : memory) : mstate := MSt h0 (map (fun _ => Waiting) jobs).
End Many.

(** when all calls have returned: the number each returned, and what it holds now *)
Fixpoint results (h : memory) (l : list cstate) : option (list (addr * Z)) :=
  match l with
  | [] => Some []
  | Running _ prodp s :: r =>
      match p_ret prodp (inside s h []), results h r with Some v, Some vs => Some (v :: vs) | _, _ => None end
  | Waiting :: _ => None
  end.
Definition m_ret (st : mstate) : option (list (addr * Z)) := results (m_mem st) (m_calls st).

(** the next access of goroutine k of call i *)
Definition m_next (jobs : list args) (st : mstate) (i k : nat) : option access :=
  match nth_error jobs i, nth_error (m_calls st) i with
  | Some j, Some (Running _ prodp s) => p_next_of (j_np j) prodp (inside s (m_mem st) []) k
  | _, _ => None
  end.
