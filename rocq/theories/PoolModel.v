(** The shared pool of big integers (proof/cache.go:11-14) and the prover's use of it when it builds
    the last part of its commitment.

    sync.Pool is modelled by the set of pointers that were Put and not handed out since; Get takes
    any of them or allocates. Other goroutines (other provers and verifiers, and the search
    goroutines that ThreeSquares leaves behind when it returns) are disciplined clients: they write
    to a pointer only between their Get and their Put. *)
From Coq Require Import ZArith Bool List.
From Verif Require Import GoBig ListUpd.
Import ListNotations.

Definition ptr := nat.
Inductive client := Idle | Holds (p : ptr).
(** range_proof.go:286-287 with 305-327 and 115: secondPartH gets [result] from the pool (307),
    computes in it, puts it back when it returns (308), and newRPCommitment reads it (115).
    zkaop.go:240-241 with 259-276 and 120: the same with a value that is not pooled (260). *)
Inductive pstate :=
| PGet              (* before line 307 *)
| PCompute (p : ptr)(* result borrowed *)
| PReturn (p : ptr) (* value computed, at the return *)
| PRead (p : ptr)   (* about to read the bytes *)
| PDone (v : Z).    (* the value that was hashed *)

Record pool_state := { heap : ptr -> Z; free : list ptr; next : ptr; prover : pstate; clients : list client }.

Inductive pool_choice :=
| Prover (which : nat)                  (* which free pointer a Get takes, if there is one *)
| ClientGet (k which : nat) | ClientWrite (k : nat) (v : Z) | ClientPut (k : nat).

Fixpoint remove_nth {A} (i : nat) (l : list A) : list A :=
  match i, l with
  | _, [] => []
  | O, _ :: r => r
  | S i, x :: r => x :: remove_nth i r
  end.
(** pool.Get: a free pointer, or a new one *)
Definition pool_get (s : pool_state) (which : nat) : ptr * list ptr * ptr :=
  match nth_error (free s) which with
  | Some p => (p, remove_nth which (free s), next s)
  | None => (next s, free s, S (next s))
  end.
Definition write (h : ptr -> Z) (p : ptr) (v : Z) : ptr -> Z := fun q => if Nat.eqb q p then v else h q.

Definition pool_step (pooled : bool) (V : Z) (s : pool_state) (c : pool_choice) : option pool_state :=
  match c with
  | Prover which =>
      match prover s with
      | PGet =>
          if pooled then
            let '(p, f, n) := pool_get s which in
            Some {| heap := heap s; free := f; next := n; prover := PCompute p; clients := clients s |}
          else Some {| heap := heap s; free := free s; next := S (next s); prover := PCompute (next s); clients := clients s |}
      | PCompute p => Some {| heap := write (heap s) p V; free := free s; next := next s; prover := PReturn p; clients := clients s |}
      | PReturn p =>
          Some {| heap := heap s; free := if pooled then p :: free s else free s; next := next s; prover := PRead p; clients := clients s |}
      | PRead p => Some {| heap := heap s; free := free s; next := next s; prover := PDone (heap s p); clients := clients s |}
      | PDone _ => None
      end
  | ClientGet k which =>
      match nth_error (clients s) k with
      | Some Idle =>
          let '(p, f, n) := pool_get s which in
          Some {| heap := heap s; free := f; next := n; prover := prover s; clients := upd (clients s) k (Holds p) |}
      | _ => None
      end
  | ClientWrite k v =>
      match nth_error (clients s) k with
      | Some (Holds p) => Some {| heap := write (heap s) p v; free := free s; next := next s; prover := prover s; clients := clients s |}
      | _ => None
      end
  | ClientPut k =>
      match nth_error (clients s) k with
      | Some (Holds p) =>
          Some {| heap := heap s; free := p :: free s; next := next s; prover := prover s; clients := upd (clients s) k Idle |}
      | _ => None
      end
  end.
Fixpoint pool_run (pooled : bool) (V : Z) (s : pool_state) (sched : list pool_choice) : option pool_state :=
  match sched with
  | [] => Some s
  | c :: r => match pool_step pooled V s c with Some s' => pool_run pooled V s' r | None => None end
  end.
(** any pool content, any number of other goroutines *)
Definition pool_init (h : ptr -> Z) (pool_size n_clients : nat) : pool_state :=
  {| heap := h; free := seq 0 pool_size; next := pool_size; prover := PGet; clients := repeat Idle n_clients |}.
