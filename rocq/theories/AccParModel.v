(** Model of AccAndProveParallel and AccAndProveIterParallel (/repo/accumulator/concurrent.go:15-44).

    Both call a membership prover that runs goroutines and then compute the accumulator on the calling
    goroutine. The model of each is the prover call together with what the caller does with the slice it
    returns. Timing and printing are not modelled. *)
From Coq Require Import ZArith Bool String List.
From Verif Require Import GoBig AccModel IterModel HashModel ForkJoin ParModel Sched ParIterModel.
Import ListNotations.
Open Scope Z_scope.

(** what a call of ProveMembershipIterParallel can do: [call_ends c P]: it always finishes, without a
    crash, with a slice satisfying P *)
Definition call_ends (c : call) (P : list (option Z) -> Prop) : Prop :=
  match c with
  | Sequential o => exists v, o = Ret v /\ P (map Some v)
  | Goroutines N set numWorkers powerOfTwo s => always_ends (bstep N set numWorkers powerOfTwo) bret (fun _ => false) s P
  end.

(** concurrent.go:40-43: proofs may hold nil pointers, which AccumulateNew dereferences *)
Definition finish_acc_nil (N : Z) (rep : list Z) (proofs : list (option Z)) : outcome (Z * list (option Z)) :=
  do p <- go_index proofs 0;
  do r0 <- go_index rep 0;
  do p0 <- deref p;
  Ret (AccumulateNew p0 r0 N, proofs).

Section Hashes.
Variable sha : string -> string.
Variable is_prime : Z -> bool.
Variable poseidon : list Z -> Z.

(** concurrent.go:15-28 AccAndProveParallel *)
Definition AccAndProveParallel (numCPUs fuel : nat) (set : list string) (encodeType : Z) (setup : Setup)
  : outcome (pm_task * (list Z -> outcome (Z * list Z))) :=
  do rep <- GenRepresentatives sha is_prime poseidon fuel set encodeType;
  do (numWorkers, _) <- calNumWorkers numCPUs;
  Ret (PMParallel (sG setup) rep (Z.of_nat numWorkers), finish_acc (sN setup) rep).

(** concurrent.go:31-44 AccAndProveIterParallel *)
Definition AccAndProveIterParallel (numCPUs fuel : nat) (set : list string) (encodeType : Z) (setup : Setup)
  : outcome (call * (list (option Z) -> outcome (Z * list (option Z)))) :=
  do rep <- GenRepresentatives sha is_prime poseidon fuel set encodeType;
  do c <- ProveMembershipIterParallel numCPUs (sG setup) (sN setup) rep;
  Ret (c, finish_acc_nil (sN setup) rep).
End Hashes.
