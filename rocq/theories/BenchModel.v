(** Model of the benchmarks: /repo/accumulator/benchmark_test.go and /repo/precompute/precompute_test.go:158-178.

    A benchmark is given b.N (chosen by the testing package) and returns the results of the calls made while the timer
    runs, in order; [None] stands for b.Fatal. crand.Int fails or returns a number: [draws i] is what call i of the loop
    that fills the set returns. crand.Int returns a nil pointer when it fails; multiexp and math/big crash on one. *)
From Coq Require Import ZArith Bool String List.
From Verif Require Import GoBig AccModel HashModel IterModel ForkJoin ParModel ExpModel TableModel.
Import ListNotations.
Open Scope Z_scope.

(** for i := lo; i < hi; i++ *)
Definition loop {A} (lo hi : nat) (body : nat -> outcome A) : outcome (list A) := map_outcome body (seq lo (hi - lo)).
(** benchmark_test.go:75-83 and the same lines of the other benchmarks: every turn of the loop overwrites err, which is
    looked at after the loop *)
Definition random_set (size : nat) (draws : nat -> option Z) : option (list (option Z)) :=
  let set := map draws (seq 0 size) in
  match last (map Some set) None with Some None => None | _ => Some set end.
Definition elem (set : list (option Z)) (i : nat) : outcome Z := do p <- go_index set i; deref p.
Definition timed {A} (set : option (list (option Z))) (body : list (option Z) -> outcome (list A)) : outcome (option (list A)) :=
  match set with None => Ret None | Some set => do r <- body set; Ret (Some r) end.
Definition bigSize : nat := Z.to_nat 10000.      (* lines 75, 94, 133, 155, 176, 214 *)
Definition simpleSize : nat := 100.              (* line 195 *)
Definition testString : string := "2021HKUST".   (* accumulator_test.go:10 *)
Definition gN := sN TrustedSetup.
Definition gG := sG TrustedSetup.

Section Hashed.
Variable sha : string -> string.
Variable is_prime : Z -> bool.
Variable poseidon : list Z -> Z.
Variable fuel : nat.
(** lines 11-17 *)
Definition BenchmarkHashToPrime (bN : nat) : outcome (list Z) := loop 0 bN (fun _ => HashToPrime sha is_prime fuel testString).
(** lines 19-27 *)
Definition BenchmarkAccAndProve (bN : nat) : outcome (list (Z * list Z)) :=
  do set <- GenBenchSet 1000;
  loop 0 bN (fun _ => AccAndProve sha is_prime poseidon fuel set HashToPrimeFromSha256 TrustedSetup).
Definition bench_reps : outcome (list Z) :=
  do set <- GenBenchSet 1000; GenRepresentatives sha is_prime poseidon fuel set HashToPrimeFromSha256.
(** lines 29-38 *)
Definition BenchmarkProveMembership (bN : nat) : outcome (list (list Z)) :=
  do rep <- bench_reps; loop 0 bN (fun _ => ProveMembership gG gN rep).
(** lines 40-49 *)
Definition BenchmarkProveMembershipIter (bN : nat) : outcome (list (list Z)) :=
  do rep <- bench_reps; loop 0 bN (fun _ => ProveMembershipIter_val gG gN rep).
(** lines 51-60: the calls are given as the initial goroutines, to be run one after the other *)
Definition BenchmarkProveMembershipParallel (bN : nat) : outcome (list pm_task) :=
  do rep <- bench_reps; loop 0 bN (fun _ => Ret (PMParallel gG rep 8)).
(** lines 62-70 *)
Definition BenchmarkAccumulateNew256bits (bN : nat) : outcome (list Z) :=
  do prime256bits <- HashToPrime sha is_prime fuel testString;
  loop 0 bN (fun _ => Ret (AccumulateNew gG prime256bits gN)).
(** precompute_test.go:158-165 *)
Definition BenchmarkAccumulate (testSize : Z) (bN : nat) : outcome (list Z) :=
  do set <- GenBenchSet testSize; do reps <- GenRepresentatives sha is_prime poseidon fuel set DIHashFromPoseidon;
  loop 0 bN (fun _ => Ret (accumulate_val gG gN reps)).
End Hashed.

(** lines 109-117 and 119-126: the last value of temp; temp starts as 0 *)
Definition groupElementMul (N : Z) (set : list (option Z)) : outcome Z :=
  do r <- loop 1 (length set) (fun i => do a <- elem set i; do b <- elem set (i - 1); go_mod (a * b) N);
  Ret (last r 0).
Definition groupElementSquare (N : Z) (set : list (option Z)) : outcome Z :=
  do r <- loop 1 (length set) (fun i => do a <- elem set i; Ret (exp_recv 0 a 2 N));
  Ret (last r 0).
(** lines 72-89 and 91-107 *)
Definition BenchmarkGroupElementMul (draws : nat -> option Z) (bN : nat) : outcome (option (list Z)) :=
  timed (random_set bigSize draws) (fun set => loop 0 bN (fun _ => groupElementMul gN set)).
Definition BenchmarkGroupElementSquare (draws : nat -> option Z) (bN : nat) : outcome (option (list Z)) :=
  timed (random_set bigSize draws) (fun set => loop 0 bN (fun _ => groupElementSquare gN set)).
(** lines 128-148 *)
Definition BenchmarkExp (draws : nat -> option Z) (bN : nat) : outcome (option (list Z)) :=
  timed (random_set bigSize draws) (fun set => loop 0 bN (fun i => do e <- elem set i; Ret (exp_recv 0 gG e gN))).
(** lines 150-169 *)
Definition BenchmarkDoubleExp (draws : nat -> option Z) (bN : nat) : outcome (option (list (list Z))) :=
  timed (random_set bigSize draws) (fun set =>
    loop 1 bN (fun i => do e0 <- elem set (i - 1); do e1 <- elem set i; multi_exp gG gN [e0; e1])).
(** lines 171-190 *)
Definition BenchmarkFourfoldExp (draws : nat -> option Z) (bN : nat) : outcome (option (list (list Z))) :=
  timed (random_set bigSize draws) (fun set =>
    loop 4 bN (fun _ => do e0 <- elem set 0; do e1 <- elem set 1; do e2 <- elem set 2; do e3 <- elem set 3;
                        multi_exp gG gN [e0; e1; e2; e3])).
(** lines 192-209 *)
Definition BenchmarkSimpleExp (draws : nat -> option Z) (bN : nat) : outcome (option (list Z)) :=
  timed (random_set simpleSize draws) (fun set => loop 0 simpleSize (fun i => do e <- elem set i; SimpleExp gG e gN)).
(** lines 211-228: GCB writes into its arguments, so the words of set[i] have changed when the next turn uses them *)
Fixpoint gcb_chain (prev : list Z) (rest : list (option (list Z))) : outcome (list Z) :=
  match rest with
  | [] => Ret []
  | x :: r => do w <- deref x; let '(c, _, w') := gcb_loop prev w in do out <- gcb_chain w' r; Ret (words_val c :: out)
  end.
Definition BenchmarkGCB (draws : nat -> option Z) (bN : nat) : outcome (option (list Z)) :=
  timed (random_set bigSize draws) (fun set =>
    match map (option_map big_bits) set with
    | [] => Ret []
    | None :: _ => Panic
    | Some w :: r => gcb_chain w r
    end).

(** testing/benchmark.go (external), as documented: the benchmark is run with growing b.N until a run takes the wanted
    time or b.N has reached its largest value. [next n] is the new value chosen after a run with n. *)
Section Driver.
Variable cap : nat.
Variable next : nat -> nat.
Variable duration : nat -> Z.
Variable wanted : Z.
Fixpoint final_bN (fuel n : nat) : outcome nat :=
  match fuel with
  | O => OutOfFuel
  | S f => if (duration n <? wanted) && (n <? cap)%nat then final_bN f (next n) else Ret n
  end.
End Driver.
